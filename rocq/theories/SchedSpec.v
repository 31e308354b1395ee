(* What a user expects of one tick: every task present is resumed once, in order; those still
   suspended stay, in order. *)
From Verif Require Import Base SchedModel.

Section Spec.
Variables W S Prog : Type.
Variable resume : Z -> W -> S -> W * list (act Prog) * outcome S.

(* the world after the slices of [ts] in order, the tasks that remain, and the failures in order *)
Fixpoint round (n : Z) (w : W) (ts : list (task S)) : W * list (task S) * list (Z * Z) :=
  match ts with
  | [] => (w, [], [])
  | t :: r =>
    match tk_st _ t with
    | None => round n w r
    | Some st =>
      let '(w1, _, o) := resume n w st in
      let '(w2, keep, errs) := round n w1 r in
      match o with
      | Suspended _ st' => (w2, mkTask _ (tk_id _ t) (Some st') :: keep, errs)
      | Ended _ e => (w2, keep, if e =? 0 then errs else (e, tk_id _ t) :: errs)
      end
    end
  end.
(* lastErr() and lastErrTaskId() report the latest failure *)
Definition latest (errs : list (Z * Z)) (old : Z * Z) : Z * Z := last errs old.
(* no task uses the scheduler from inside its own slice *)
Definition quiet : Prop := forall n w st, snd (fst (resume n w st)) = [].
(* ids in the order they were handed out, newest first, all positive *)
Fixpoint descending (hi : Z) (ids : list Z) : Prop :=
  match ids with [] => True | i :: r => 0 < i <= hi /\ descending (i - 1) r end.
(* every id returned by addThread that names a task is new: larger than all before *)
Fixpoint increasing (lo : Z) (l : list Z) : Prop :=
  match l with [] => True | i :: r => (i = 0 \/ i = -1 \/ lo < i) /\ increasing (Z.max lo i) r end.
End Spec.
