(* The str:: library in terms of lists. *)
From Verif Require Import Base StdModel.
Definition ascii (s : list Z) : Prop := Forall (fun c => 0 <= c < 128) s.
(* an integer argument used as a count or position: negative means "beyond everything" *)
Definition clip (n : Z) (len : nat) : nat := if n <? 0 then len else Z.to_nat (Z.min n (Z.of_nat len)).
Definition spec_left (s : list Z) (n : Z) : list Z := firstn (clip n (length s)) s.
Definition spec_right (s : list Z) (n : Z) : list Z := skipn (length s - clip n (length s)) s.
Definition spec_mid (s : list Z) (start n : Z) : list Z := spec_left (skipn (clip start (length s)) s) n.
Definition spec_insert (s t : list Z) (p : Z) : list Z := firstn (clip p (length s)) s ++ t ++ skipn (clip p (length s)) s.
Definition blank (s : list Z) : Prop := Forall (fun c => is_space c = true) s.
(* t is s without leading (trailing) white space *)
Definition trims_left (s t : list Z) : Prop := exists w, s = w ++ t /\ blank w /\ (t <> [] -> is_space (hd 0 t) = false).
Definition trims_right (s t : list Z) : Prop := exists w, s = t ++ w /\ blank w /\ (t <> [] -> is_space (last t 0) = false).
Definition trims (s t : list Z) : Prop := exists w w', s = w ++ t ++ w' /\ blank w /\ blank w' /\
  (t <> [] -> is_space (hd 0 t) = false /\ is_space (last t 0) = false).
(* first position of a character *)
Definition first_at (s : list Z) (c : Z) (i : Z) : Prop :=
  (i = -1 /\ ~ In c s) \/ (0 <= i < lenZ s /\ nth (Z.to_nat i) s 0 = c /\ forall j, 0 <= j < i -> nth (Z.to_nat j) s 0 <> c).
Definition lower (c : Z) : Z := if (65 <=? c) && (c <=? 90) then c + 32 else c.
Definition upper (c : Z) : Z := if (97 <=? c) && (c <=? 122) then c - 32 else c.
