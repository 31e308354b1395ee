From Verif Require Import Base.
Ltac Zify.zify_post_hook ::= Z.div_mod_to_equations.

Lemma u32_range x : is_u32 (u32 x).
Proof. unfold is_u32, u32. apply Z.mod_pos_bound. lia. Qed.
Lemma u16_range x : is_u16 (u16 x).
Proof. unfold is_u16, u16. apply Z.mod_pos_bound. lia. Qed.
Lemma u8_range x : is_byte (u8 x).
Proof. unfold is_byte, u8. apply Z.mod_pos_bound. lia. Qed.
Lemma u32_id x : is_u32 x -> u32 x = x.
Proof. unfold is_u32, u32. intro H. apply Z.mod_small. lia. Qed.
Lemma u16_id x : is_u16 x -> u16 x = x.
Proof. unfold is_u16, u16. intro H. apply Z.mod_small. lia. Qed.
Lemma u8_id x : is_byte x -> u8 x = x.
Proof. unfold is_byte, u8. intro H. apply Z.mod_small. lia. Qed.
Lemma s32_range x : is_s32 (s32 x).
Proof. unfold is_s32, s32, u32. destruct (Z.ltb_spec (x mod 4294967296) 2147483648); lia. Qed.
Lemma s32_id x : is_s32 x -> s32 x = x.
Proof. unfold is_s32, s32, u32. intro H.
       destruct (Z.ltb_spec (x mod 4294967296) 2147483648); lia. Qed.
Lemma s16_range x : is_s16 (s16 x).
Proof. unfold is_s16, s16, u16. destruct (Z.ltb_spec (x mod 65536) 32768); lia. Qed.
Lemma s16_id x : is_s16 x -> s16 x = x.
Proof. unfold is_s16, s16, u16. intro H.
       destruct (Z.ltb_spec (x mod 65536) 32768); lia. Qed.
Lemma s8_id x : -128 <= x <= 127 -> s8 x = x.
Proof. unfold s8, u8. intro H. destruct (Z.ltb_spec (x mod 256) 128); lia. Qed.
Lemma s8_range x : -128 <= s8 x <= 127.
Proof. unfold s8, u8. destruct (Z.ltb_spec (x mod 256) 128); lia. Qed.

Lemma u32_s32 x : u32 (s32 x) = u32 x.
Proof. unfold s32, u32. destruct (Z.ltb_spec (x mod 4294967296) 2147483648); lia. Qed.
Lemma s32_u32 x : s32 (u32 x) = s32 x.
Proof. unfold s32, u32. rewrite Z.mod_mod by lia. reflexivity. Qed.
Lemma s32_inj_u32 x y : u32 x = u32 y -> s32 x = s32 y.
Proof. unfold s32. intros ->. reflexivity. Qed.
Lemma u32_inj_s32 x y : s32 x = s32 y -> u32 x = u32 y.
Proof. intro H. rewrite <- (u32_s32 x), <- (u32_s32 y), H. reflexivity. Qed.
Lemma u32_add_l x y : u32 (u32 x + y) = u32 (x + y).
Proof. unfold u32. apply Zplus_mod_idemp_l. Qed.
Lemma u32_add_r x y : u32 (x + u32 y) = u32 (x + y).
Proof. unfold u32. apply Zplus_mod_idemp_r. Qed.
Lemma u32_mul_l x y : u32 (u32 x * y) = u32 (x * y).
Proof. unfold u32. apply Zmult_mod_idemp_l. Qed.
Lemma u32_mul_r x y : u32 (x * u32 y) = u32 (x * y).
Proof. unfold u32. apply Zmult_mod_idemp_r. Qed.
Lemma u32_idem x : u32 (u32 x) = u32 x.
Proof. apply u32_id, u32_range. Qed.
Lemma s32_idem x : s32 (s32 x) = s32 x.
Proof. apply s32_id, s32_range. Qed.
Lemma s16_u16 x : s16 (u16 x) = s16 x.
Proof. unfold s16, u16. rewrite Z.mod_mod by lia. reflexivity. Qed.
Lemma u16_s16 x : u16 (s16 x) = u16 x.
Proof. unfold s16, u16. destruct (Z.ltb_spec (x mod 65536) 32768); lia. Qed.
Lemma u8_s8 x : u8 (s8 x) = u8 x.
Proof. unfold s8, u8. destruct (Z.ltb_spec (x mod 256) 128); lia. Qed.
Lemma s8_u8 x : s8 (u8 x) = s8 x.
Proof. unfold s8, u8. rewrite Z.mod_mod by lia. reflexivity. Qed.

(* ---- upd / nth ---- *)
Lemma upd_length {A} (l : list A) i x : length (upd l i x) = length l.
Proof. revert i; induction l as [|h t IH]; intros [|i]; cbn; auto. Qed.
Lemma upd_same {A} (l : list A) i x : (i < length l)%nat -> nth_error (upd l i x) i = Some x.
Proof. revert i; induction l as [|h t IH]; intros [|i] H; cbn in *; try lia; auto. apply IH; lia. Qed.
Lemma upd_other {A} (l : list A) i j x : i <> j -> nth_error (upd l i x) j = nth_error l j.
Proof. revert i j; induction l as [|h t IH]; intros [|i] [|j] H; cbn in *; auto; try congruence. Qed.
Lemma upd_nth_same {A} (l : list A) i x d : (i < length l)%nat -> nth i (upd l i x) d = x.
Proof. revert i; induction l as [|h t IH]; intros [|i] H; cbn in *; try lia; auto. apply IH; lia. Qed.
Lemma upd_nth_other {A} (l : list A) i j x d : i <> j -> nth j (upd l i x) d = nth j l d.
Proof. revert i j; induction l as [|h t IH]; intros [|i] [|j] H; cbn in *; auto; try congruence. Qed.
Lemma upd_id {A} (l : list A) i x : nth_error l i = Some x -> upd l i x = l.
Proof. revert i; induction l as [|h t IH]; intros [|i] H; cbn in *; try congruence. f_equal; auto. Qed.
Lemma upd_oob {A} (l : list A) i x : (length l <= i)%nat -> upd l i x = l.
Proof. revert i; induction l as [|h t IH]; intros [|i] H; cbn in *; auto; try lia. f_equal. apply IH; lia. Qed.

Lemma nthZ_nat {A} (l : list A) (i : nat) : nthZ l (Z.of_nat i) = nth_error l i.
Proof. unfold nthZ. replace (Z.of_nat i <? 0) with false by lia. rewrite Nat2Z.id. reflexivity. Qed.
Lemma nthZ_some_range {A} (l : list A) i x : nthZ l i = Some x -> 0 <= i < lenZ l.
Proof.
  unfold nthZ, lenZ. destruct (Z.ltb_spec i 0); intro E; [discriminate|].
  assert (Hn: nth_error l (Z.to_nat i) <> None) by congruence.
  apply nth_error_Some in Hn. lia.
Qed.
Lemma nthZ_in_range {A} (l : list A) i : 0 <= i < lenZ l -> exists x, nthZ l i = Some x.
Proof.
  unfold nthZ, lenZ. intros H. destruct (Z.ltb_spec i 0); [lia|].
  destruct (nth_error l (Z.to_nat i)) eqn:E; eauto.
  apply nth_error_None in E. lia.
Qed.

Lemma nth_error_firstn_lt {A} (l : list A) n i : (i < n)%nat -> nth_error (firstn n l) i = nth_error l i.
Proof.
  revert n i. induction l as [|x l IH]; intros [|n] [|i] H; cbn; try lia; try reflexivity.
  apply IH. lia.
Qed.
Lemma nth_error_skipn_add {A} (l : list A) n i : nth_error (skipn n l) i = nth_error l (n + i).
Proof.
  revert n. induction l as [|x l IH]; intros [|n]; cbn; try reflexivity; [destruct i; reflexivity|apply IH].
Qed.
