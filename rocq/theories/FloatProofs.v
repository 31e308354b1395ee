(* Facts about the conversion of integers to floats. *)
From Coq Require Import SpecFloat.
From Verif Require Import Base FloatModel.
Ltac Zify.zify_post_hook ::= Z.div_mod_to_equations.

Lemma digits2_bounds p : 2 ^ (Zpos (digits2_pos p) - 1) <= Zpos p < 2 ^ Zpos (digits2_pos p).
Proof.
  induction p as [p IH|p IH|]; cbn [digits2_pos].
  - replace (Zpos (Pos.succ (digits2_pos p)) - 1) with (Zpos (digits2_pos p)) by lia.
    rewrite Pos2Z.inj_succ, Z.pow_succ_r by lia.
    replace (2 ^ Zpos (digits2_pos p)) with (2 * 2 ^ (Zpos (digits2_pos p) - 1)) in * by (rewrite <- Z.pow_succ_r by lia; f_equal; lia). lia.
  - replace (Zpos (Pos.succ (digits2_pos p)) - 1) with (Zpos (digits2_pos p)) by lia.
    rewrite Pos2Z.inj_succ, Z.pow_succ_r by lia.
    replace (2 ^ Zpos (digits2_pos p)) with (2 * 2 ^ (Zpos (digits2_pos p) - 1)) in * by (rewrite <- Z.pow_succ_r by lia; f_equal; lia). lia.
  - cbn. lia.
Qed.
Lemma digits2_unique p d : 0 < d -> 2 ^ (d - 1) <= Zpos p < 2 ^ d -> Zpos (digits2_pos p) = d.
Proof.
  intros Hd H. pose proof (digits2_bounds p) as B. set (e := Zpos (digits2_pos p)) in *.
  assert (0 < e) by (unfold e; lia).
  assert (~ e < d). { intros L. pose proof (Z.pow_le_mono_r 2 e (d - 1)). lia. }
  assert (~ d < e). { intros L. pose proof (Z.pow_le_mono_r 2 d (e - 1)). lia. }
  lia.
Qed.

Lemma shr_1_m r : 0 <= shr_m r -> shr_m (shr_1 r) = shr_m r / 2.
Proof.
  destruct r as [m a b]; cbn. intros H. destruct m as [|[p|p|]|p]; cbn; try reflexivity; try lia.
Qed.
Lemma iter_shr p : forall r, 0 <= shr_m r ->
  shr_m (SpecFloat.iter_pos shr_1 p r) = shr_m r / 2 ^ Zpos p.
Proof.
  induction p as [p IH|p IH|]; intros r H; cbn [SpecFloat.iter_pos].
  - assert (0 <= shr_m (shr_1 r)) by (rewrite shr_1_m by auto; lia).
    assert (0 < 2 ^ Zpos p) by lia.
    rewrite IH. 2:{ rewrite IH by auto. apply Z.div_pos; lia. }
    rewrite IH by auto. rewrite shr_1_m by auto.
    rewrite !Z.div_div by lia. f_equal.
    replace (2 ^ Zpos (xI p)) with (2 ^ (1 + Zpos p + Zpos p)) by (f_equal; lia).
    rewrite !Z.pow_add_r by lia. lia.
  - assert (0 < 2 ^ Zpos p) by lia.
    rewrite IH. 2:{ rewrite IH by auto. apply Z.div_pos; lia. }
    rewrite IH by auto. rewrite !Z.div_div by lia. f_equal.
    replace (2 ^ Zpos (xO p)) with (2 ^ (Zpos p + Zpos p)) by (f_equal; lia).
    rewrite !Z.pow_add_r by lia. lia.
  - rewrite shr_1_m by auto. reflexivity.
Qed.

Definition normal24 (m : positive) := 8388608 <= Zpos m < 16777216.
Lemma normal24_digits m : normal24 m -> Zpos (digits2_pos m) = 24.
Proof. intros H. apply digits2_unique; [lia|]. unfold normal24 in H. cbn. lia. Qed.

Lemma shr_fexp_normal m e : normal24 m -> -149 <= e ->
  shr_fexp 24 128 (Zpos m) e loc_Exact = (Build_shr_record (Zpos m) false false, e).
Proof.
  intros H He. unfold shr_fexp. cbn [Zdigits2]. rewrite (normal24_digits m H).
  replace (fexp 24 128 (24 + e) - e) with 0 by (unfold fexp, emin; lia). reflexivity.
Qed.

Lemma round_to_normal r : 8388608 <= shr_m r < 16777216 ->
  8388608 <= round_nearest_even (shr_m r) (loc_of_shr_record r) <= 16777216.
Proof.
  destruct r as [m a b]; cbn [shr_m]. intros H.
  unfold round_nearest_even, loc_of_shr_record. destruct a, b; try lia. destruct (Z.even m); lia.
Qed.

Lemma round_aux_normal s m e : normal24 m -> -149 <= e <= 104 ->
  binary_round_aux 24 128 s (Zpos m) e loc_Exact = S754_finite s m e.
Proof.
  intros H He. unfold binary_round_aux. rewrite shr_fexp_normal by (auto; lia).
  cbn [shr_m loc_of_shr_record round_nearest_even]. rewrite shr_fexp_normal by (auto; lia).
  cbn [shr_m]. destruct (Z.leb_spec e (128 - 24)); [reflexivity|lia].
Qed.

Lemma round_int s p : Zpos p < 4294967296 ->
  exists m e, binary_round 24 128 s p 0 = S754_finite s m e /\ normal24 m /\ -23 <= e <= 9.
Proof.
  intros Hp. unfold binary_round. pose proof (digits2_bounds p) as B.
  set (d := Zpos (digits2_pos p)) in *. assert (D: 1 <= d) by (unfold d; lia).
  assert (D2: d <= 32).
  { destruct (Z.le_gt_cases d 32); auto. pose proof (Z.pow_le_mono_r 2 32 (d - 1)). lia. }
  replace (fexp 24 128 (d + 0)) with (d - 24) by (unfold fexp, emin; lia).
  unfold shl_align.
  destruct (Z.lt_trichotomy d 24) as [L|[E|G]].
  - destruct (d - 24 - 0) as [|q|q] eqn:Q; try lia.
    assert (N: normal24 (shift_pos q p)).
    { unfold normal24. rewrite shift_pos_correct. rewrite Z.pow_pos_fold.
      replace (Zpos q) with (24 - d) by lia.
      replace 8388608 with (2 ^ (24 - d) * 2 ^ (d - 1)) by (rewrite <- Z.pow_add_r by lia; replace (24 - d + (d - 1)) with 23 by lia; reflexivity).
      replace 16777216 with (2 ^ (24 - d) * 2 ^ d) by (rewrite <- Z.pow_add_r by lia; replace (24 - d + d) with 24 by lia; reflexivity).
      assert (0 < 2 ^ (24 - d)) by (apply Z.pow_pos_nonneg; lia). nia. }
    exists (shift_pos q p), (d - 24). rewrite round_aux_normal by (auto; lia). repeat split; try apply N; lia.
  - replace (d - 24 - 0) with 0 by lia.
    assert (N: normal24 p) by (unfold normal24; rewrite E in B; cbn in B; lia).
    exists p, 0. rewrite round_aux_normal by (auto; lia). repeat split; try apply N; lia.
  - destruct (d - 24 - 0) as [|q|q] eqn:Q; try lia.
    unfold binary_round_aux. unfold shr_fexp at 1. cbn [Zdigits2]. fold d.
    replace (fexp 24 128 (d + 0) - 0) with (Zpos q) by (unfold fexp, emin; lia).
    unfold shr, shr_record_of_loc.
    set (r := SpecFloat.iter_pos shr_1 q _).
    assert (R: 8388608 <= shr_m r < 16777216).
    { unfold r. rewrite iter_shr by (cbn; lia). cbn [shr_m].
      assert (0 < 2 ^ Zpos q) by (apply Z.pow_pos_nonneg; lia).
      assert (P1: 2 ^ (d - 1) = 8388608 * 2 ^ Zpos q).
      { replace (d - 1) with (23 + Zpos q) by lia. rewrite Z.pow_add_r by lia. reflexivity. }
      assert (P2: 2 ^ d = 16777216 * 2 ^ Zpos q).
      { replace d with (24 + Zpos q) by lia. rewrite Z.pow_add_r by lia. reflexivity. }
      rewrite P1, P2 in B.
      split; [apply Z.div_le_lower_bound; lia|apply Z.div_lt_upper_bound; lia]. }
    pose proof (round_to_normal r R) as RN.
    set (z := round_nearest_even (shr_m r) (loc_of_shr_record r)) in *.
    destruct (Z.eq_dec z 16777216) as [Z1|Z1].
    + rewrite Z1. change (shr_fexp 24 128 16777216 (0 + Zpos q) loc_Exact) with
        (shr (Build_shr_record 16777216 false false) (0 + Zpos q) (fexp 24 128 (25 + (0 + Zpos q)) - (0 + Zpos q))).
      replace (fexp 24 128 (25 + (0 + Zpos q)) - (0 + Zpos q)) with 1 by (unfold fexp, emin; lia).
      cbn [shr SpecFloat.iter_pos shr_1 shr_m]. exists 8388608%positive, (0 + Zpos q + 1).
      destruct (Z.leb_spec (0 + Zpos q + 1) (128 - 24)); [|lia]. split; [reflexivity|]. split; [unfold normal24; lia|lia].
    + destruct z as [|zp|zp] eqn:Ez; try lia.
      assert (N: normal24 zp) by (unfold normal24; lia).
      rewrite shr_fexp_normal by (auto; lia). cbn [shr_m].
      exists zp, (0 + Zpos q). destruct (Z.leb_spec (0 + Zpos q) (128 - 24)); [|lia].
      split; [reflexivity|]. split; [exact N|lia].
Qed.

Lemma decode_encode_normal s m e : normal24 m -> -149 <= e <= 104 ->
  f32_decode (f32_encode (S754_finite s m e)) = S754_finite s m e.
Proof.
  intros H He. unfold normal24 in H. unfold f32_encode.
  destruct (Z.ltb_spec (Zpos m) 8388608); [lia|].
  unfold f32_decode.
  set (u := _ + _ + _).
  assert (U1: (u / 8388608) mod 256 = e + 150) by (unfold u; destruct s; lia).
  assert (U2: u mod 8388608 = Zpos m - 8388608) by (unfold u; destruct s; lia).
  assert (U3: (2147483648 <=? u) = s) by (unfold u; destruct s; lia).
  rewrite U1, U2, U3.
  destruct (Z.eqb_spec (e + 150) 255); [lia|]. destruct (Z.eqb_spec (e + 150) 0); [lia|].
  replace (Zpos m - 8388608 + 8388608) with (Zpos m) by lia. f_equal; lia.
Qed.

(* an integer converted to a float is zero only when the integer is *)
Lemma f32_true_of_int n : is_s32 n -> f32_true (f32_of_int n) = negb (n =? 0).
Proof.
  unfold is_s32, f32_true, f32_of_int. intros H. destruct n as [|p|p]; [reflexivity| |].
  - cbn [binary_normalize]. destruct (round_int false p) as (m&e&E&N&He); [lia|].
    rewrite E, decode_encode_normal by (auto; lia). reflexivity.
  - cbn [binary_normalize]. destruct (round_int true p) as (m&e&E&N&He); [lia|].
    rewrite E, decode_encode_normal by (auto; lia). reflexivity.
Qed.
