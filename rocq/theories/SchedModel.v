(* The task scheduler: vm/scheduler.cpp.  Running a script is abstract: [resume] is what one slice of
   wr_callFunction( context, 0, ... ) does to a suspended context and to the rest of the world, and
   [start] what wr_run does.  A task may call native functions which use the scheduler again. *)
From Verif Require Import Base.

Section Sched.
Variables W S Prog : Type.

(* a scheduler call made by a running task through a native function *)
Inductive act := AAdd (p : Prog) | ARemove (id : Z).
(* one slice: still suspended (yield_pc set), or not, with w->err *)
Inductive outcome := Suspended (s : S) | Ended (err : Z).

(* wr_callFunction on the yielded context, with the budget of instructions *)
Variable resume : Z -> W -> S -> W * list act * outcome.
(* wr_run; actions of the first slice of a nested thread are not modelled *)
Variable start : Z -> W -> Prog -> W * outcome.

(* scheduler.cpp:30-35 WrenchScheduledTask; the node's address is its id (ids are unique until the
   counter overflows).  [None]: context->yield_pc is 0 *)
Record task := mkTask { tk_id : Z; tk_st : option S }.
(* wrench.h:1077-1081 and the static counter of scheduler.cpp:102 *)
Record sched := mkSched { s_w : W; s_tasks : list task; s_err : Z; s_errId : Z; s_ids : Z }.

(* scheduler.cpp:104-139 addThread: -1 on failure, 0 when the script ended at once; the counter is
   an int, its overflow is undefined *)
Definition addThread (n : Z) (p : Prog) (s : sched) : option (Z * sched) :=
  let '(w, o) := start n (s_w s) p in
  match o with
  | Ended e => Some (if e =? 0 then 0 else -1, mkSched w (s_tasks s) (s_err s) (s_errId s) (s_ids s))
  | Suspended st =>
    if s_ids s <? 2147483647 then
      let id := s_ids s + 1 in
      Some (id, mkSched w (mkTask id (Some st) :: s_tasks s) (s_err s) (s_errId s) id)
    else None
  end.

(* scheduler.cpp:142-170 removeTask *)
Fixpoint remove_id (id : Z) (l : list task) : list task :=
  match l with
  | [] => []
  | t :: r => if tk_id t =? id then r else t :: remove_id id r
  end.
Definition removeTask (id : Z) (s : sched) : bool * sched :=
  (existsb (fun t => tk_id t =? id) (s_tasks s),
   mkSched (s_w s) (remove_id id (s_tasks s)) (s_err s) (s_errId s) (s_ids s)).

Fixpoint run_acts (n : Z) (l : list act) (s : sched) : option sched :=
  match l with
  | [] => Some s
  | AAdd p :: r => match addThread n p s with Some (_, s1) => run_acts n r s1 | None => None end
  | ARemove id :: r => run_acts n r (snd (removeTask id s))
  end.

(* the pointer-to-pointer of the tick loop: &m_tasks, or &node->next *)
Inductive lnk := LHead | LNext (id : Z).
Fixpoint after (id : Z) (l : list task) : option (list task) :=
  match l with
  | [] => None
  | t :: r => if tk_id t =? id then Some r else after id r
  end.
Fixpoint upto (id : Z) (l : list task) : list task :=
  match l with
  | [] => []
  | t :: r => if tk_id t =? id then [t] else t :: upto id r
  end.
(* *link; None: the node has been freed *)
Definition rest (k : lnk) (l : list task) : option (list task) :=
  match k with LHead => Some l | LNext id => after id l end.
(* *link = r *)
Definition set_link (k : lnk) (r l : list task) : option (list task) :=
  match k with
  | LHead => Some r
  | LNext id => match after id l with Some _ => Some (upto id l ++ r) | None => None end
  end.
Definition set_st (id : Z) (st : option S) (l : list task) : list task :=
  map (fun t => if tk_id t =? id then mkTask id st else t) l.

(* scheduler.cpp:60-100 the loop of tick; None: a freed node is used.  One iteration per unit of fuel *)
Inductive tres := TOk (s : sched) | TUB | TFuel.
Fixpoint tick_loop (fuel : nat) (n : Z) (k : lnk) (s : sched) : tres :=
  match fuel with
  | O => TFuel
  | Datatypes.S f =>
    match rest k (s_tasks s) with
    | None => TUB
    | Some [] => TOk s
    | Some (t :: r) =>
      match tk_st t with
      | None =>
        match set_link k r (s_tasks s) with
        | None => TUB
        | Some l => tick_loop f n k (mkSched (s_w s) l (s_err s) (s_errId s) (s_ids s))
        end
      | Some st =>
        let '(w, acts, o) := resume n (s_w s) st in
        (* yield_pc is cleared on entry (vm.cpp:687) *)
        match run_acts n acts (mkSched w (set_st (tk_id t) None (s_tasks s)) (s_err s) (s_errId s) (s_ids s)) with
        | None => TUB
        | Some s1 =>
          match after (tk_id t) (s_tasks s1) with
          | None => TUB
          | Some r1 =>
            match o with
            | Suspended st' =>
              tick_loop f n (LNext (tk_id t)) (mkSched (s_w s1) (set_st (tk_id t) (Some st') (s_tasks s1)) (s_err s1) (s_errId s1) (s_ids s1))
            | Ended e =>
              match set_link k r1 (s_tasks s1) with
              | None => TUB
              | Some l =>
                tick_loop f n k (mkSched (s_w s1) l (if e =? 0 then s_err s1 else e) (if e =? 0 then s_errId s1 else tk_id t) (s_ids s1))
              end
            end
          end
        end
      end
    end
  end.
Definition tick (fuel : nat) (n : Z) (s : sched) : tres := tick_loop fuel n LHead s.

(* host calls *)
Inductive host := HTick (n : Z) | HAdd (n : Z) (p : Prog) | HRemove (id : Z).
(* the ids returned by the HAdd calls, and the final state; a fresh scheduler is scheduler.cpp:38-44 *)
Fixpoint run_host (l : list host) (s : sched) : option (list Z * sched) :=
  match l with
  | [] => Some ([], s)
  | HTick n :: r => match tick (2 + length (s_tasks s)) n s with TOk s1 => run_host r s1 | _ => None end
  | HAdd n p :: r =>
    match addThread n p s with
    | Some (id, s1) => match run_host r s1 with Some (ids, s2) => Some (id :: ids, s2) | None => None end
    | None => None
    end
  | HRemove id :: r => run_host r (snd (removeTask id s))
  end.
Definition fresh (w : W) : sched := mkSched w [] 0 0 0.
End Sched.
