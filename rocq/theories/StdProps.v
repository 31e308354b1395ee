(* C25 integer to text, C27 random numbers. *)
From Coq Require Import Znumtheory.
From Verif Require Import Base BaseLemmas StdModel StdSpec StdProofs.
Ltac Zify.zify_post_hook ::= Z.to_euclidean_division_equations.

(* C25 *)
Theorem int_to_text_partial i len : is_s32 i -> i <> -2147483648 -> (11 <= len)%nat -> exists s,
  wr_itoa i len = Some s /\ decimal_text i s /\ (length s <= 11)%nat.
Proof. apply itoa_text. Qed.
(* whatever the limit, no more than [len] characters precede the terminator *)
Theorem int_to_text_bounded i len s : (1 <= len)%nat -> wr_itoa i len = Some s -> (length s <= len)%nat.
Proof. apply itoa_bound. Qed.
(* the text determines the integer, and the script function that parses it gives it back *)
Theorem int_text_parses_back i s : is_s32 i -> decimal_text i s -> (length s <= 20)%nat -> wr_tol s = i.
Proof.
  intros H D L. unfold wr_tol. rewrite firstn_all2 by auto. rewrite (decimal_text_parse i s H D).
  unfold is_s32 in H. unfold s32, u32. destruct (Z.ltb_spec (i mod 4294967296) 2147483648); lia.
Qed.
Theorem int_to_text_roundtrip_partial i : is_s32 i -> i <> -2147483648 -> exists s,
  wr_itoa i 20 = Some s /\ wr_tol s = i.
Proof.
  intros H N. destruct (itoa_text i 20 H N ltac:(lia)) as (s&E&D&L). exists s. split; [exact E|].
  apply int_text_parses_back; auto. lia.
Qed.
(* the smallest integer: negating it is undefined *)
Theorem int_to_text_min_refuted len : wr_itoa (-2147483648) len = None.
Proof. reflexivity. Qed.
Example itoa_ex : wr_itoa (-2147483647) 12 = Some [45; 50; 49; 52; 55; 52; 56; 51; 54; 52; 55].
Proof. reflexivity. Qed.
Example itoa_zero : wr_itoa 0 12 = Some [48].
Proof. reflexivity. Qed.

(* C27: range, for every state *)
Theorem rand_in_range_partial seed from to :
  is_s32 seed -> is_s32 from -> is_s32 to -> from <= to -> to - from < 2147483647 ->
  exists seed' r, wr_randEx seed from to = Some (seed', r) /\ from <= r <= to.
Proof. intros H1 H2 H3 H4 H5. destruct (rand_range seed from to H1 H2 H3 H4 H5) as (s&r&E&R&_). eauto. Qed.
Theorem rand_wide_range_refuted : exists seed from to, is_s32 seed /\ is_s32 from /\ is_s32 to /\ from <= to /\
  wr_randEx seed from to = None.
Proof. exists initial_seed, (-1), 2147483647. unfold is_s32, initial_seed. repeat split; try lia; reflexivity. Qed.
(* the state always advances without overflow, and from a seed prime to 2^31-1 (such as the
   initial one) it returns to its starting residue only after 2^31-2 calls *)
Theorem rand_period_full seed n : is_s32 seed -> rel_prime seed 2147483647 ->
  exists s, rand_iter n seed = Some s /\ is_s32 s /\
            (0 < Z.of_nat n < 2147483646 -> s mod 2147483647 <> seed mod 2147483647).
Proof.
  intros H G. destruct (iter_mod n seed H) as (s&E&R&_). exists s. split; [exact E|]. split; [exact R|]. intros N.
  exact (rand_period seed n s H G N E).
Qed.
Example initial_seed_prime : is_s32 initial_seed /\ rel_prime initial_seed 2147483647.
Proof. split; [unfold is_s32, initial_seed; lia|]. apply Zgcd_1_rel_prime. vm_compute. reflexivity. Qed.
(* srand(0): the state stays 0 and every later draw from a range starting at 0 is 0 *)
Theorem rand_stuck_refuted : exists x, forall n, rand_iter n (wr_srand x) = Some 0 /\
  (forall to, 0 <= to < 2147483647 -> wr_randEx 0 0 to = Some (0, 0)).
Proof.
  exists 0. intros n. split; [induction n as [|n IH]; [reflexivity|exact IH]|]. intros to Ht. unfold wr_randEx.
  change (rand_step 0) with (Some 0). destruct (to <=? 0) eqn:E; [reflexivity|].
  rewrite chk_some, chk_some by lia. change (u32 0) with 0. rewrite Z.mod_0_l; [reflexivity|].
  rewrite u32_id; [lia|unfold is_u32; lia].
Qed.

Print Assumptions int_to_text_partial.
Print Assumptions int_to_text_bounded.
Print Assumptions int_text_parses_back.
Print Assumptions int_to_text_roundtrip_partial.
Print Assumptions int_to_text_min_refuted.
Print Assumptions rand_in_range_partial.
Print Assumptions rand_wide_range_refuted.
Print Assumptions rand_period_full.
Print Assumptions rand_stuck_refuted.
