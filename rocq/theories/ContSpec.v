(* What the utility containers are expected to be: a list, and a finite map. *)
From Verif Require Import Base.

Section S.
Variable A : Type.
Inductive aop := AAppend (v : A) | APut (i : nat) (v : A) | AGet (i : nat) | APop | ACount | ATail | AClear
  | ARemove (i n : nat) | ATruncate (n : nat).
Inductive aobs := BNone | BVal (v : A) | BCount (n : nat) | BTail (v : option A).

(* the calls that make sense on a list *)
Definition a_valid (l : list A) (o : aop) : Prop :=
  match o with
  | APut i _ | AGet i => (i < length l)%nat
  | ARemove i n => (i + n <= length l)%nat /\ Z.of_nat (i + n) < 4294967296
  | ATruncate n => (n <= length l)%nat
  | _ => True
  end.
Definition a_step (l : list A) (o : aop) : list A * aobs :=
  match o with
  | AAppend v => (l ++ [v], BNone)
  | APut i v => (firstn i l ++ v :: skipn (S i) l, BNone)
  | AGet i => (l, match nth_error l i with Some v => BVal v | None => BNone end)
  | APop => (removelast l, BNone)
  | ACount => (l, BCount (length l))
  | ATail => (l, BTail (match l with [] => None | x :: _ => Some (last l x) end))
  | AClear => ([], BNone)
  | ARemove i n => (firstn i l ++ skipn (i + n) l, BCount (length l - n))
  | ATruncate n => (firstn n l, BNone)
  end.
Fixpoint a_run (l : list A) (os : list aop) : list aobs :=
  match os with [] => [] | o :: r => let '(l', b) := a_step l o in b :: a_run l' r end.
Fixpoint a_valid_run (l : list A) (os : list aop) : Prop :=
  match os with [] => True | o :: r => a_valid l o /\ a_valid_run (fst (a_step l o)) r end.
End S.
Arguments AAppend {A}. Arguments APut {A}. Arguments AGet {A}. Arguments APop {A}. Arguments ACount {A}.
Arguments ATail {A}. Arguments AClear {A}. Arguments ARemove {A}. Arguments ATruncate {A}.
Arguments BNone {A}. Arguments BVal {A}. Arguments BCount {A}. Arguments BTail {A}.

(* finite maps from hashes *)
Section M.
Variable V : Type.
Inductive mop := MSet (h : Z) (v : V) | MRemove (h : Z) | MGet (h : Z) | MClear.
Definition map := Z -> option V.
Definition m_step (m : map) (o : mop) : map * option V :=
  match o with
  | MSet h v => (fun k => if k =? h then Some v else m k, None)
  | MRemove h => (fun k => if k =? h then None else m k, None)
  | MGet h => (m, m h)
  | MClear => (fun _ => None, None)
  end.
Definition mop_key (o : mop) : option Z := match o with MSet h _ | MRemove h | MGet h => Some h | MClear => None end.
Fixpoint m_run (m : map) (os : list mop) : list (option V) :=
  match os with [] => [] | o :: r => let '(m', b) := m_step m o in b :: m_run m' r end.
End M.
Arguments MSet {V}. Arguments MRemove {V}. Arguments MGet {V}. Arguments MClear {V}.
