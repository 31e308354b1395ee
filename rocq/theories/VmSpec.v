(* Vocabulary of the statements about the interpreter. *)
From Verif Require Import Base OpsModel VmModel.

(* everything but the free part of the stack: stack positions from sp on are free *)
Definition live (sp : nat) (l : loc) : Prop := match l with LStack k => (k < sp)%nat | _ => True end.

(* the value does not refer to a free stack position *)
Definition val_ok (sp : nat) (v : value) : Prop :=
  match v with VRef l | VMem l _ => live sp l | _ => True end.
Definition closed (sp : nat) (m : mem) : Prop := forall l, live sp l -> val_ok sp (mv m l).

(* two memories that differ only in the free part of the stack *)
Record agree (sp : nat) (m m' : mem) : Prop := mkAgree {
  ag_mv : forall l, live sp l -> mv m l = mv m' l;
  ag_mo : forall i, mo m i = mo m' i;
  ag_raw : forall b k, mraw m b k = mraw m' b k;
  ag_next : mnext m = mnext m'
}.

(* the same outcome on both sides, with related results *)
Inductive res_rel {A B} (R : A -> B -> Prop) : res A -> res B -> Prop :=
| rr_ok : forall a b, R a b -> res_rel R (Ok a) (Ok b)
| rr_ub : res_rel R UB UB
| rr_fuel : res_rel R OutOfFuel OutOfFuel.

(* the parameters left abstract in OpsModel (hash and text of objects) do not look at the free part
   of the stack *)
Definition local_fn {A} (f : mem -> value -> A) : Prop :=
  forall sp m m' v, agree sp m m' -> closed sp m -> val_ok sp v -> f m v = f m' v.

(* what the linker stores as frame adjustment when it fits in its byte: the return vector and the
   variables lie above the frame base (cc/link.cpp) *)
Definition frame_ok (f : fn) : Prop := fn_adjust f = S (fn_args f + fn_frame f).

(* stack positions below p and everything that is not on the stack *)
Definition under (p : nat) (l : loc) : Prop := match l with LStack k => (k < p)%nat | _ => True end.
Definition same_heap (m m' : mem) : Prop := mo m' = mo m /\ mraw m' = mraw m /\ mnext m' = mnext m.

(* n instructions from s to s' *)
Inductive steps (stp : vm -> res outcome) : nat -> vm -> vm -> Prop :=
| steps_0 : forall s, steps stp 0 s s
| steps_S : forall n s s1 s2, stp s = Ok (Run s1) -> steps stp n s1 s2 -> steps stp (S n) s s2.
