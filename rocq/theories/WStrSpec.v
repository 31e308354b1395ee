(* What a string object is expected to do, as operations on lists of bytes. *)
From Verif Require Import Base.

Inductive sop :=
| OSet (bs : list Z) | OAppend (bs : list Z) | OAppendChar (c : Z) | OInsert (bs : list Z) (pos : nat)
| OTruncate (n : nat) | OShave (n : nat) | OShift (n : nat) | OTrim | OClear | OShrink (n : nat)
| OGive (bs : list Z) (spare : list Z) | ORelease.

Definition white (c : Z) : bool := (c =? 32) || ((9 <=? c) && (c <=? 13)).
Fixpoint drop_white (l : list Z) : list Z := match l with c :: r => if white c then drop_white r else l | [] => [] end.
Definition trimmed (l : list Z) : list Z := rev (drop_white (rev (drop_white l))).

Definition sop_valid (l : list Z) (o : sop) : Prop :=
  match o with
  | OInsert _ pos => (pos <= length l)%nat
  | OTrim => Forall (fun c => 0 <= c <= 127) l
  | OShrink n => (n <= length l)%nat
  | OGive _ spare => spare <> []                    (* room for the terminator *)
  | _ => True
  end.
Definition sop_spec (l : list Z) (o : sop) : list Z :=
  match o with
  | OSet bs => bs
  | OAppend bs => l ++ bs
  | OAppendChar c => l ++ [c]
  | OInsert bs pos => firstn pos l ++ bs ++ skipn pos l
  | OTruncate n => firstn n l
  | OShave n => firstn (length l - n) l
  | OShift n => skipn n l
  | OTrim => trimmed l
  | OClear => []
  | OShrink n => firstn n l
  | OGive bs _ => bs
  | ORelease => []
  end.
Fixpoint sops_valid (l : list Z) (os : list sop) : Prop :=
  match os with [] => True | o :: r => sop_valid l o /\ sops_valid (sop_spec l o) r end.

(* str occurs in l at position i *)
Definition occurs (str l : list Z) (i : nat) : Prop := exists a b, l = a ++ str ++ b /\ length a = i.

(* '*' stands for any sequence of bytes *)
Inductive glob : list Z -> list Z -> Prop :=
| GNil : glob [] []
| GChar c p h : glob p h -> glob (c :: p) (c :: h)
| GStar p a h : glob p h -> glob (42 :: p) (a ++ h).
