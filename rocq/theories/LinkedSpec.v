(* What one expects of a list with a current item (first, next): a sequence and a position. *)
From Verif Require Import Base.
Open Scope list_scope. Open Scope Z_scope.

(* AddHead, AddTail: *l.addHead() = x, *l.addTail() = x.  The pops give what they remove.  PopItem n: popItem
   with the pointer to item number n (nothing if there is none).  Get n: l[n]. *)
Inductive request (A : Type) :=
| AddHead (x : A) | AddTail (x : A) | PopHead | PopTail | PopAt (i : Z) | PopItem (n : nat) | Clear | First | Next | Tail | Get (n : nat) | Count.
Arguments AddHead {A}. Arguments AddTail {A}. Arguments PopHead {A}. Arguments PopTail {A}. Arguments PopAt {A}. Arguments PopItem {A}.
Arguments Clear {A}. Arguments First {A}. Arguments Next {A}. Arguments Tail {A}. Arguments Get {A}. Arguments Count {A}.
Inductive answer (A : Type) := Nothing | Item (x : option A) | Number (z : Z).
Arguments Nothing {A}. Arguments Item {A}. Arguments Number {A}.

Definition without {A} (n : nat) (l : list A) : list A := firstn n l ++ skipn (S n) l.
(* the current item when item number n of len is removed: if it is that one, the one behind it *)
Definition moved (n len : nat) (pos : option nat) : option nat :=
  match pos with
  | None => None
  | Some p => if Nat.ltb p n then Some p else if Nat.eqb p n then (if Nat.ltb (S n) len then Some n else None) else Some (p - 1)%nat
  end.
Definition removed {A} (n : nat) (s : list A * option nat) : list A * option nat :=
  let (l, pos) := s in if Nat.ltb n (length l) then (without n l, moved n (length l) pos) else s.
Definition last_item {A} (l : list A) : option A := nth_error l (length l - 1).

Definition expected {A} (r : request A) (s : list A * option nat) : (list A * option nat) * answer A :=
  let (l, pos) := s in
  match r with
  | AddHead x => ((x :: l, option_map S pos), Nothing)
  | AddTail x => ((l ++ [x], pos), Nothing)
  | PopHead => (removed 0 s, Item (nth_error l 0))
  | PopTail => (removed (length l - 1) s, Item (last_item l))
  | PopAt i => if i <? 0 then (s, Item None) else (removed (Z.to_nat i) s, Item (nth_error l (Z.to_nat i)))
  | PopItem n => (removed n s, Nothing)
  | Clear => (([], None), Nothing)
  | First => ((l, match l with [] => None | _ => Some O end), Item (nth_error l 0))
  | Next => match pos with
            | None => (s, Item None)
            | Some p => ((l, if Nat.ltb (S p) (length l) then Some (S p) else None), Item (nth_error l (S p)))
            end
  | Tail => (s, Item (last_item l))
  | Get n => (s, Item (nth_error l n))
  | Count => ((l, None), Number (lenZ l))
  end.
Fixpoint expected_all {A} (rs : list (request A)) (s : list A * option nat) : (list A * option nat) * list (answer A) :=
  match rs with
  | [] => (s, [])
  | r :: rs => let (s1, a) := expected r s in let (s2, q) := expected_all rs s1 in (s2, a :: q)
  end.
(* what arrives when packets are sent (Some p) and received (None): those that wait, the oldest first *)
Fixpoint in_order {A} (traffic : list (option A)) (waiting : list A) : list (option A) :=
  match traffic with
  | [] => []
  | Some p :: r => in_order r (waiting ++ [p])
  | None :: r => match waiting with [] => None :: in_order r [] | x :: w => Some x :: in_order r w end
  end.
