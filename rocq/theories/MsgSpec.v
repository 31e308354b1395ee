(* What the mailbox is expected to do: a map from the key's hash to the last thing stored under it. *)
From Verif Require Import Base HashTableModel HashTableSpec MsgModel.

Definition box := Z -> option rval.
Definition put (b : box) (k : Z) (v : option rval) : box := fun x => if x =? k then v else b x.
Definition answer (v : option rval) : rval := match v with Some v => v | None => RInt 0 end.
Definition flag (args : list marg) : bool := match args with _ :: c :: _ => negb (a_int c =? 0) | _ => false end.

Definition box_step (b : box) (o : mop) : box * rval :=
  match o with
  | MRead (k :: r) => (if flag (k :: r) then put b (a_hash k) None else b, answer (b (a_hash k)))
  | MWrite (k :: v :: _) => (put b (a_hash k) (Some (RInt (a_hash v))), RInt 0)
  | MClear (k :: _) => (put b (a_hash k) None, RInt 0)
  | MPeek (k :: _) => (b, match b (a_hash k) with Some _ => RInt 1 | None => RInt 0 end)
  | MRegister k f => (put b k (Some (RFn f)), RInt 0)
  | MRead [] | MWrite [] | MWrite [_] | MClear [] | MPeek [] | MLookup _ => (b, RInt 0)
  end.
Fixpoint box_run (b : box) (os : list mop) : list rval :=
  match os with [] => [] | o :: r => let '(b', a) := box_step b o in a :: box_run b' r end.

(* keys: any 32-bit hash except the marker of an empty slot *)
Definition mop_ok (o : mop) : Prop :=
  match o with
  | MRead (k :: _) | MWrite (k :: _) | MClear (k :: _) | MPeek (k :: _) => key_ok (a_hash k)
  | MRegister k _ | MLookup k => key_ok k
  | _ => True
  end.
(* a function is only looked up when something is stored under its name *)
Fixpoint lookups_found (b : box) (os : list mop) : Prop :=
  match os with
  | [] => True
  | o :: r => match o with MLookup k => b k <> None | _ => True end /\ lookups_found (fst (box_step b o)) r
  end.
