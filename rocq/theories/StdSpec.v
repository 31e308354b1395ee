(* Decimal numerals, independently of the conversion code. *)
From Verif Require Import Base.

(* the value of a list of decimal digit characters, most significant first *)
Definition decimal_value (s : list Z) : Z := fold_left (fun acc c => acc * 10 + (c - 48)) s 0.
Definition all_digits (s : list Z) : Prop := Forall (fun c => 48 <= c <= 57) s.
(* canonical decimal text: no sign unless negative, no leading zero unless it is "0" *)
Definition canonical_nat (n : Z) (s : list Z) : Prop :=
  all_digits s /\ s <> [] /\ decimal_value s = n /\ (s <> [48] -> hd 0 s <> 48).
Definition decimal_text (i : Z) (s : list Z) : Prop :=
  if i <? 0 then exists t, s = 45 :: t /\ canonical_nat (- i) t else canonical_nat i s.
