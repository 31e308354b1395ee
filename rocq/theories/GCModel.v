(* Garbage collector: vm/gc.cpp (WRContext::markBase, mark, gc) and the object layout of
   wrench.h:976-1014.  Addresses are indices into [heap]; [None] is unallocated memory. *)
From Verif Require Import Base.

(* where a WRValue lives: a global of the context, a slot of the VM stack, or the n-th
   WRValue of the data block of a heap object *)
Inductive loc := LGlobal (n : nat) | LStack (n : nat) | LObj (id n : nat).

(* A WRValue as the collector sees it (wrench.h:717-744, utils/utils.h:443-472).
   VScalar: int, float, invalid.  VRaw: host memory (WR_EX_RAW_ARRAY).  VRef: WR_REF.
   VObj: xtype ARRAY, STRUCT, HASH_TABLE or ITERATOR, [va] = id.
   VMember: CONTAINER_MEMBER created by arrayElementToTarget (vm/index.cpp:52-56), [r] = the
   variable holding the array.  VHashMember: CONTAINER_MEMBER created by wr_doIndexHash
   (vm/index.cpp:72-76), [vb] = the hash table's internal block. *)
Inductive value :=
| VScalar (bits : Z) | VRaw | VRef (l : loc) | VObj (id : nat) | VMember (l : loc) | VHashMember (id : nat).

(* IS_EXARRAY_TYPE(xtype), utils/utils.h:460: xtype & 0xC0 *)
Definition is_exarray (v : value) : bool :=
  match v with VObj _ | VMember _ | VHashMember _ => true | _ => false end.

(* WRGCObjectType (wrench.h:754-766).  KValue: SV_VALUE with its m_size elements; KChar:
   SV_CHAR; KHash: SV_HASH_TABLE whose m_Vdata/m_hashTable point into internal block [int];
   KInternal: SV_HASH_INTERNAL, one (occupied?,value,key) per slot.  SV_VOID_HASH_TABLE is
   only used for registries, which are not in svAllocated; SV_HASH_ENTRY is never created
   anywhere in the code base, so markBase's branch for it (gc.cpp:55-59) is dead and left out. *)
Inductive kind :=
| KValue (es : list value) | KChar (n : Z) | KHash (int : nat) | KInternal (slots : list (bool * value * value)).

(* m_flags: GCFlag_Marked, GCFlag_Perm (wrench.h:746-751) *)
Record obj := mkObj { o_kind : kind; o_marked : bool; o_perm : bool }.
Definition heap := list (option obj).
Definition hget (h : heap) (i : nat) : option obj :=
  match nth_error h i with Some (Some o) => Some o | _ => None end.
Definition set_mark (h : heap) (i : nat) (b : bool) : heap :=
  match hget h i with
  | None => h
  | Some o => upd h i (Some (mkObj (o_kind o) b (o_perm o)))
  end.
Definition hfree (h : heap) (i : nat) : heap := upd h i None.

(* everything besides the heap that the collector reads (wrench.h:1118-1165): globals,
   stack, stackOffset *)
Record roots := mkRoots { r_globals : list value; r_stack : list value; r_offset : nat }.

(* the WRValues stored in an object's data block, in memory order *)
Definition contents (k : kind) : list value :=
  match k with
  | KValue es => es
  | KInternal sl => flat_map (fun s : bool * value * value => match s with (_, v, key) => [v; key] end) sl
  | _ => []
  end.
(* dereferencing a WRValue*: None = dangling *)
Definition read_loc (h : heap) (r : roots) (l : loc) : option value :=
  match l with
  | LGlobal n => nth_error (r_globals r) n
  | LStack n => nth_error (r_stack r) n
  | LObj i n => match hget h i with Some o => nth_error (contents (o_kind o)) n | None => None end
  end.

(* values in occupied slots, gc.cpp:47-53 *)
Definition live_slots (sl : list (bool * value * value)) : list value :=
  flat_map (fun s : bool * value * value => match s with (occ, v, key) => if occ then [v; key] else [] end) sl.

(* UB: the collector touches freed memory or treats a non-object as an object.
   OutOfFuel: the C++ recursion is deeper than [fuel]. *)
Inductive res (A : Type) := Ok (a : A) | UB | OutOfFuel.
Arguments Ok {A} a. Arguments UB {A}. Arguments OutOfFuel {A}.

Fixpoint mark_list (f : heap -> value -> res heap) (h : heap) (vs : list value) : res heap :=
  match vs with
  | [] => Ok h
  | v :: t => match f h v with Ok h' => mark_list f h' t | UB => UB | OutOfFuel => OutOfFuel end
  end.

Section Mark.
Variable r : roots.

(* gc.cpp:28-62 markBase, with [f] the recursive call to mark.  The Marked flag is set after
   the elements have been visited. *)
Definition markBase (f : heap -> value -> res heap) (h : heap) (i : nat) : res heap :=
  match hget h i with
  | None => UB
  | Some o =>
    match o_kind o with
    | KValue es =>
      match mark_list f h es with Ok h' => Ok (set_mark h' i true) | UB => UB | OutOfFuel => OutOfFuel end
    | KHash n =>
      match hget h n with
      | Some (mkObj (KInternal sl) _ _) =>
        match mark_list f (set_mark h n true) (live_slots sl) with
        | Ok h' => Ok (set_mark h' i true) | UB => UB | OutOfFuel => OutOfFuel
        end
      | _ => UB
      end
    | _ => Ok (set_mark h i true)
    end
  end.

(* gc.cpp:65-82 mark.  A CONTAINER_MEMBER whose variable no longer (or, for host memory,
   never) holds an object falls through to markBase( s->vb ) with vb pointing at a WRValue:
   UB (in practice it flips a bit of that value's payload). *)
Fixpoint mark (fuel : nat) (h : heap) (s : value) : res heap :=
  match fuel with
  | O => OutOfFuel
  | S n =>
    match s with
    | VScalar _ | VRaw | VRef _ => Ok h
    | VMember l =>
      match read_loc h r l with
      | None => UB
      | Some v => if is_exarray v then mark n h v else UB
      end
    | VObj i | VHashMember i =>
      match hget h i with
      | None => UB
      | Some o => if o_marked o then Ok h else markBase (mark n) h i
      end
    end
  end.
End Mark.

(* gc.cpp:95-103 permanent objects *)
Fixpoint mark_perms (f : heap -> value -> res heap) (h : heap) (chain : list nat) : res heap :=
  match chain with
  | [] => Ok h
  | i :: t =>
    match hget h i with
    | None => UB
    | Some o =>
      if o_perm o && negb (o_marked o)
      then match markBase f h i with Ok h' => mark_perms f h' t | UB => UB | OutOfFuel => OutOfFuel end
      else mark_perms f h t
    end
  end.

(* gc.cpp:121-152 sweep: surviving chain and new heap *)
Fixpoint sweep (h : heap) (chain : list nat) : res (heap * list nat) :=
  match chain with
  | [] => Ok (h, [])
  | i :: t =>
    match hget h i with
    | None => UB
    | Some o =>
      if o_marked o
      then match sweep (set_mark h i false) t with
           | Ok (h', c) => Ok (h', i :: c) | UB => UB | OutOfFuel => OutOfFuel end
      else sweep (hfree h i) t
    end
  end.

(* svAllocated chain, allocatedMemoryHint, and the state's allocatedMemoryLimit *)
Record gcstate := mkGC { g_heap : heap; g_chain : list nat; g_hint : Z; g_limit : Z }.

(* the part of the stack that is scanned, gc.cpp:106: stack+stackOffset .. stackTop *)
Definition scanned (r : roots) (top : nat) : list value :=
  firstn (top - r_offset r) (skipn (r_offset r) (r_stack r)).

(* gc.cpp:85-153 gc( stackTop ); top = None is the null stackTop of wr_destroyContextEx *)
Definition gc (fuel : nat) (r : roots) (top : option nat) (g : gcstate) : res gcstate :=
  if g_hint g <? g_limit g then Ok g
  else
    let m1 := match top with
              | None => Ok (g_heap g)
              | Some tp =>
                match mark_perms (mark r fuel) (g_heap g) (g_chain g) with
                | Ok h => mark_list (mark r fuel) h (scanned r tp)
                | e => e
                end
              end in
    match m1 with
    | Ok h1 =>
      match mark_list (mark r fuel) h1 (r_globals r) with
      | Ok h2 => match sweep h2 (g_chain g) with
                 | Ok (h3, c) => Ok (mkGC h3 c 0 (g_limit g))
                 | UB => UB | OutOfFuel => OutOfFuel
                 end
      | UB => UB | OutOfFuel => OutOfFuel
      end
    | UB => UB | OutOfFuel => OutOfFuel
    end.

(* utils/utils.cpp:481-493 wr_destroyContextEx, memory part: globals = 0,
   hint = (uint16_t)-1, gc(0) *)
Definition destroy_collect (fuel : nat) (r : roots) (g : gcstate) : res gcstate :=
  gc fuel (mkRoots [] (r_stack r) (r_offset r)) None
     (mkGC (g_heap g) (g_chain g) 65535 (g_limit g)).
