(* The debugger on the target: breakpoints, stepping and the call stack (debug/server_interface_private.cpp), the
   interface that loops packets back (debug/debug_comm.h) and the list of the variables that are displayed
   (debug/debugger.cpp).  The lists are those of LinkedModel. *)
From Verif Require Import Base.
From Verif Require Import GCModel LinkedModel.
Open Scope list_scope. Open Scope Z_scope.

(* debug.h: WrenchCallStackEntry, without the layout of the frame *)
Record entry := mkEntry { e_line : Z; e_from : Z; e_unit : Z }.
(* server_interface_private.cpp: m_lineBreaks, m_callStack, m_stopOnLine, m_lineSteps, m_stepOverDepth, m_halted *)
Record server := mkServer { d_breaks : ll Z; d_stack : ll entry; d_stop_line : Z; d_steps : Z; d_depth : Z; d_halted : bool }.
Definition with_breaks (b : ll Z) (d : server) : server := mkServer b (d_stack d) (d_stop_line d) (d_steps d) (d_depth d) (d_halted d).
Definition with_stack (s : ll entry) (d : server) : server := mkServer (d_breaks d) s (d_stop_line d) (d_steps d) (d_depth d) (d_halted d).

(* server_interface_private.cpp:152-158, 223-230: the loop, with what *L is compared with *)
Fixpoint find_break (fuel : nat) (v : Z) (l : ll Z) (p : option nat) : res (ll Z * option nat) :=
  match fuel with
  | O => OutOfFuel
  | S f => match p with
    | None => Ok (l, None)
    | Some a => match l_mem l a with
      | None => UB
      | Some n => if n_item n =? v then Ok (l, Some a)
                  else match ll_next l with Ok (l1, q) => find_break f v l1 q | UB => UB | OutOfFuel => OutOfFuel end
      end
    end
  end.
Definition search_break (v : Z) (l : ll Z) : res (ll Z * option nat) := let (l1, p) := ll_first l in find_break (S (l_fresh l)) v l1 p.
(* server_interface_private.cpp:221-231 (clearBreakpoint) *)
Definition clear_breakpoint (bp : Z) (l : ll Z) : res (ll Z) :=
  match search_break bp l with
  | Ok (l1, Some a) => ll_pop_item (Some a) l1
  | Ok (l1, None) => Ok l1
  | UB => UB | OutOfFuel => OutOfFuel
  end.
(* server_interface_private.cpp:464-470 (WRD_RequestSetBreakpoint) *)
Definition set_breakpoint (bp : Z) (l : ll Z) : res (ll Z) :=
  match clear_breakpoint bp l with Ok l1 => ll_add_tail bp l1 | UB => UB | OutOfFuel => OutOfFuel end.

(* ++m_stepOverDepth, --m_stepOverDepth: 189-192, 211-214 *)
Definition deeper (d : server) : server := mkServer (d_breaks d) (d_stack d) (d_stop_line d) (d_steps d) (if 0 <=? d_depth d then d_depth d + 1 else d_depth d) (d_halted d).
Definition shallower (d : server) : server := mkServer (d_breaks d) (d_stack d) (d_stop_line d) (d_steps d) (if 0 <=? d_depth d then d_depth d - 1 else d_depth d) (d_halted d).
(* m_callStack->tail()->onLine = line; *)
Definition set_line (line : Z) (l : ll entry) : res (ll entry) :=
  match l_tail l with
  | None => UB
  | Some t => match l_mem l t with
              | None => UB
              | Some n => Ok (mkLL (put (l_mem l) t (Some (mkNode (mkEntry line (e_from (n_item n)) (e_unit (n_item n))) (n_next n)))) (l_fresh l) (l_head l) (l_tail l) (l_iter l))
              end
  end.
(* server_interface_private.cpp:143-218 (codewordEncountered): whether the program is stopped *)
Definition on_line (line : Z) (d : server) : res (server * bool) :=
  match set_line line (d_stack d) with
  | Ok st =>
    let d := with_stack st d in
    match search_break line (d_breaks d) with
    | Ok (b, Some _) => Ok (with_breaks b d, true)
    | Ok (b, None) =>
      let d := with_breaks b d in
      let counted := (d_depth d <=? 0) && negb (d_steps d =? 0) in
      let d := if counted then mkServer (d_breaks d) (d_stack d) (d_stop_line d) (d_steps d - 1) (d_depth d) (d_halted d) else d in
      if counted && (d_steps d =? 0) then Ok (mkServer (d_breaks d) (d_stack d) 0 (d_steps d) (-1) (d_halted d), true)
      else if line =? d_stop_line d then Ok (mkServer (d_breaks d) (d_stack d) 0 (d_steps d) (d_depth d) (d_halted d), true)
      else Ok (d, false)
    | UB => UB | OutOfFuel => OutOfFuel
    end
  | UB => UB | OutOfFuel => OutOfFuel
  end.
(* server_interface_private.cpp:175-206: a call; the fields that describe the frame are not modelled.  thisUnitIndex has
   8 bits (wrench.h:1234); localFunctions[-1] is read if they are 0. *)
Definition on_call (unit : Z) (d : server) : res (server * bool) :=
  if unit =? 0x0F00 then Ok (mkServer (d_breaks d) (d_stack d) (d_stop_line d) (d_steps d) (d_depth d) true, false)
  else if unit =? 0x0E00 then Ok (d, false)
  else
    let d := deeper d in
    match ll_item (d_stack d) (l_tail (d_stack d)) with
    | Ok (Some from) =>
      let unit := unit mod 256 in
      if unit =? 0 then UB
      else match ll_add_tail (mkEntry (-1) (e_unit from) unit) (d_stack d) with Ok st => Ok (with_stack st d, false) | UB => UB | OutOfFuel => OutOfFuel end
    | Ok None => UB
    | UB => UB | OutOfFuel => OutOfFuel
    end.
(* server_interface_private.cpp:207-215: a return *)
Definition on_return (d : server) : res (server * bool) :=
  match ll_pop_head (d_stack d) with Ok (st, _) => Ok (shallower (with_stack st d), false) | UB => UB | OutOfFuel => OutOfFuel end.
(* debug.h:32-43: the kinds of codewords *)
Definition codeword (w : Z) (d : server) : res (server * bool) :=
  let kind := Z.land w 0xC000 in
  let payload := Z.land w 0x3FFF in
  if kind =? 0x4000 then on_line payload d
  else if kind =? 0x0000 then on_call payload d
  else if kind =? 0x8000 then on_return d
  else Ok (d, false).
(* server_interface_private.cpp:265-279: the first WRD_Run *)
Definition first_run (d : server) : res server :=
  match ll_clear (d_stack d) with
  | Ok st => match ll_add_tail (mkEntry 0 0 0) st with Ok st => Ok (with_stack st d) | UB => UB | OutOfFuel => OutOfFuel end
  | UB => UB | OutOfFuel => OutOfFuel
  end.
(* server_interface_private.cpp:241-253, 263: step over, step into; the line given with the request *)
Definition step_over (line : Z) (d : server) : server := mkServer (d_breaks d) (d_stack d) line 1 0 (d_halted d).
Definition step_into (line : Z) (d : server) : server := mkServer (d_breaks d) (d_stack d) line 1 (-1) (d_halted d).

(* debugger.cpp:385-413: the command "b" with a line sets a breakpoint there, or removes the one that is there.  What is
   sent to the server: the line, and whether a breakpoint is set.  *b is read after the node of b was freed. *)
Definition toggle (bp : Z) (l : ll Z) : res (ll Z * (bool * Z)) :=
  match search_break bp l with
  | Ok (l1, Some b) =>
    match ll_pop_item (Some b) l1 with
    | Ok l2 => match l_mem l2 b with Some n => Ok (l2, (false, n_item n)) | None => UB end
    | UB => UB | OutOfFuel => OutOfFuel
    end
  | Ok (l1, None) => Ok (ll_add_head bp l1, (true, bp))
  | UB => UB | OutOfFuel => OutOfFuel
  end.
Fixpoint toggle_all (bps : list Z) (l : ll Z) : res (ll Z * list (bool * Z)) :=
  match bps with
  | [] => Ok (l, [])
  | b :: bps => match toggle b l with
                | Ok (l1, r) => match toggle_all bps l1 with Ok (l2, rs) => Ok (l2, r :: rs) | UB => UB | OutOfFuel => OutOfFuel end
                | UB => UB | OutOfFuel => OutOfFuel
                end
  end.

(* debug_comm.h:51-57: send and receive of the interface that loops back *)
Definition loop_send {A} (p : A) (q : ll A) : ll A := ll_add_head p q.
Definition loop_receive {A} (q : ll A) : res (ll A * option A) := ll_pop_tail q.

(* debugger.cpp:256-262: the items for which [keep] does not hold are removed while the list is walked *)
Fixpoint display_from {A} (fuel : nat) (keep : A -> bool) (l : ll A) (p : option nat) : res (ll A) :=
  match fuel with
  | O => OutOfFuel
  | S f => match p with
    | None => Ok l
    | Some a => match l_mem l a with
      | None => UB
      | Some n =>
        match (if keep (n_item n) then Ok l else ll_pop_item (Some a) l) with
        | Ok l1 => match ll_next l1 with Ok (l2, q) => display_from f keep l2 q | UB => UB | OutOfFuel => OutOfFuel end
        | UB => UB | OutOfFuel => OutOfFuel
        end
      end
    end
  end.
Definition display {A} (keep : A -> bool) (l : ll A) : res (ll A) := let (l1, p) := ll_first l in display_from (S (l_fresh l)) keep l1 p.
