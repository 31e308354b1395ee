From Verif Require Import Base BaseLemmas HashModel.
Ltac Zify.zify_post_hook ::= Z.div_mod_to_equations.

(* ---------- bit facts ---------- *)
Lemma lxor_u32 a b : is_u32 a -> is_u32 b -> is_u32 (Z.lxor a b).
Proof.
  unfold is_u32. intros Ha Hb.
  assert (0 <= Z.lxor a b) by (apply Z.lxor_nonneg; lia).
  split; [assumption|].
  destruct (Z.eq_dec (Z.lxor a b) 0) as [->|Hn]; [lia|].
  change 4294967296 with (2^32). apply Z.log2_lt_pow2; [lia|].
  eapply Z.le_lt_trans; [apply Z.log2_lxor; lia|].
  apply Z.max_lub_lt.
  - destruct (Z.eq_dec a 0) as [->|]; [cbn; lia|]. apply Z.log2_lt_pow2; lia.
  - destruct (Z.eq_dec b 0) as [->|]; [cbn; lia|]. apply Z.log2_lt_pow2; lia.
Qed.

Lemma lxor_cancel_r a b c : Z.lxor a c = Z.lxor b c -> a = b.
Proof.
  intro H. assert (E : Z.lxor (Z.lxor a c) c = Z.lxor (Z.lxor b c) c) by congruence.
  rewrite !Z.lxor_assoc, !Z.lxor_nilpotent, !Z.lxor_0_r in E. exact E.
Qed.
Lemma lxor_cancel_l a b c : Z.lxor c a = Z.lxor c b -> a = b.
Proof. rewrite (Z.lxor_comm c a), (Z.lxor_comm c b). apply lxor_cancel_r. Qed.

Lemma fnv_prime_inv : (fnv_prime * 899433627) mod 4294967296 = 1.
Proof. reflexivity. Qed.

Lemma mul_prime_inj x y : is_u32 x -> is_u32 y ->
  u32 (x * fnv_prime) = u32 (y * fnv_prime) -> x = y.
Proof.
  intros Hx Hy H.
  assert (E : u32 (u32 (x * fnv_prime) * 899433627) = u32 (u32 (y * fnv_prime) * 899433627))
    by congruence.
  rewrite !u32_mul_l in E. unfold u32 in E.
  replace (x * fnv_prime * 899433627) with (x * (fnv_prime * 899433627)) in E by ring.
  replace (y * fnv_prime * 899433627) with (y * (fnv_prime * 899433627)) in E by ring.
  rewrite (Zmult_mod x), (Zmult_mod y), fnv_prime_inv, !Z.mul_1_r, !Z.mod_mod in E by lia.
  unfold is_u32 in *. rewrite !Z.mod_small in E by lia. exact E.
Qed.

Lemma byte_u32 b : is_byte b -> is_u32 b.
Proof. unfold is_byte, is_u32. lia. Qed.

Lemma fnv_step_u32 h b : is_u32 (fnv_step h b).
Proof. apply u32_range. Qed.
Lemma fnv_step_inj_h h h' b : is_u32 h -> is_u32 h' -> is_byte b ->
  fnv_step h b = fnv_step h' b -> h = h'.
Proof.
  intros Hh Hh' Hb E. apply mul_prime_inj in E.
  - eapply lxor_cancel_r; eauto.
  - apply lxor_u32; auto using byte_u32.
  - apply lxor_u32; auto using byte_u32.
Qed.
Lemma fnv_step_inj_b h b b' : is_u32 h -> is_byte b -> is_byte b' ->
  fnv_step h b = fnv_step h b' -> b = b'.
Proof.
  intros Hh Hb Hb' E. apply mul_prime_inj in E.
  - eapply lxor_cancel_l; eauto.
  - apply lxor_u32; auto using byte_u32.
  - apply lxor_u32; auto using byte_u32.
Qed.
Lemma fnv_fold_u32 s h : is_u32 h -> is_u32 (fold_left fnv_step s h).
Proof. revert h; induction s as [|b s IH]; cbn; intros h H; auto. apply IH, fnv_step_u32. Qed.
Lemma fnv_fold_inj s h h' : is_u32 h -> is_u32 h' -> bytes_ok s ->
  fold_left fnv_step s h = fold_left fnv_step s h' -> h = h'.
Proof.
  revert h h'; induction s as [|b s IH]; cbn; intros h h' Hh Hh' Hs E; auto.
  inversion Hs; subst. apply IH in E; auto using fnv_step_u32.
  eapply fnv_step_inj_h; eauto.
Qed.
Lemma basis_u32 : is_u32 fnv_basis.
Proof. unfold is_u32, fnv_basis. lia. Qed.

Lemma fnv_fold_change s i b c h : is_u32 h -> bytes_ok s -> is_byte b ->
  nth_error s i = Some c -> c <> b ->
  fold_left fnv_step (upd s i b) h <> fold_left fnv_step s h.
Proof.
  revert i h; induction s as [|d s IH]; intros i h Hh Hs Hb Hn Hc; [destruct i; discriminate|].
  inversion Hs as [|? ? Hd Hs']; subst. destruct i as [|i]; cbn in *.
  - inversion Hn; subst. intro E.
    apply fnv_fold_inj in E; auto using fnv_step_u32.
    apply fnv_step_inj_b in E; auto.
  - apply IH; auto using fnv_step_u32.
Qed.

(* ---------- packing ---------- *)
Lemma land255 x : Z.land x 255 = x mod 256.
Proof. change 255 with (Z.ones 8). rewrite Z.land_ones by lia. reflexivity. Qed.
Lemma shr8 x : Z.shiftr x 8 = x / 256.  Proof. rewrite Z.shiftr_div_pow2 by lia. reflexivity. Qed.
Lemma shr16 x : Z.shiftr x 16 = x / 65536. Proof. rewrite Z.shiftr_div_pow2 by lia. reflexivity. Qed.
Lemma shr24 x : Z.shiftr x 24 = x / 16777216. Proof. rewrite Z.shiftr_div_pow2 by lia. reflexivity. Qed.

(* disjoint lor is addition *)
Lemma lor_shiftl_add a b n : 0 <= n -> 0 <= a < 2^n -> Z.lor a (Z.shiftl b n) = a + b * 2^n.
Proof.
  intros Hn Ha. rewrite Z.shiftl_mul_pow2 by lia.
  assert (E : Z.land a (b * 2^n) = 0).
  { apply Z.bits_inj'. intros k Hk. rewrite Z.land_spec, Z.bits_0.
    rewrite <- Z.shiftl_mul_pow2 by lia. rewrite Z.shiftl_spec by lia.
    destruct (Z.ltb_spec k n).
    - rewrite (Z.testbit_neg_r b) by lia. apply andb_false_r.
    - destruct (Z.eq_dec a 0) as [->|]; [rewrite Z.bits_0; reflexivity|].
      rewrite (Z.bits_above_log2 a); [reflexivity|lia|].
      eapply Z.lt_le_trans; [|eassumption]. apply Z.log2_lt_pow2; lia. }
  rewrite Z.add_nocarry_lxor by exact E. symmetry. apply Z.lxor_lor. exact E.
Qed.

Lemma read32_val b0 b1 b2 b3 : is_byte b0 -> is_byte b1 -> is_byte b2 -> is_byte b3 ->
  read32 b0 b1 b2 b3 = s32 (b0 + b1*256 + b2*65536 + b3*16777216).
Proof.
  unfold is_byte, read32. intros. f_equal.
  rewrite (lor_shiftl_add b0 b1 8) by lia.
  change (2^8) with 256.
  rewrite (lor_shiftl_add (b0 + b1*256) b2 16) by (change (2^16) with 65536; lia).
  change (2^16) with 65536.
  rewrite (lor_shiftl_add (b0 + b1*256 + b2*65536) b3 24) by (change (2^24) with 16777216; lia).
  reflexivity.
Qed.
Lemma read16_val b0 b1 : is_byte b0 -> is_byte b1 -> read16 b0 b1 = s16 (b0 + b1*256).
Proof.
  unfold is_byte, read16. intros. f_equal. rewrite lor_shiftl_add by lia. reflexivity.
Qed.

Lemma land255_byte x : is_byte (Z.land x 255).
Proof. rewrite land255. unfold is_byte. lia. Qed.
Lemma pack32_bytes x : bytes_ok (wr_pack32 x).
Proof. repeat constructor; apply land255_byte. Qed.
Lemma pack16_bytes x : bytes_ok (wr_pack16 x).
Proof. repeat constructor; apply land255_byte. Qed.

Lemma read32_pack32 x :
  read32 (Z.land x 255) (Z.land (Z.shiftr x 8) 255) (Z.land (Z.shiftr x 16) 255)
         (Z.land (Z.shiftr x 24) 255) = s32 x.
Proof.
  rewrite read32_val by apply land255_byte.
  rewrite !land255, shr8, shr16, shr24. apply s32_inj_u32. unfold u32.
  replace (x mod 256 + x / 256 mod 256 * 256 + x / 65536 mod 256 * 65536 +
           x / 16777216 mod 256 * 16777216) with (x mod 4294967296); [lia|].
  assert (x / 65536 = x / 256 / 256) by (rewrite Z.div_div by lia; reflexivity).
  assert (x / 16777216 = x / 256 / 256 / 256) by (rewrite !Z.div_div by lia; reflexivity).
  assert (x / 4294967296 = x / 256 / 256 / 256 / 256) by (rewrite !Z.div_div by lia; reflexivity).
  pose proof (Z.div_mod x 4294967296 ltac:(lia)).
  pose proof (Z.div_mod x 256 ltac:(lia)).
  pose proof (Z.div_mod (x/256) 256 ltac:(lia)).
  pose proof (Z.div_mod (x/256/256) 256 ltac:(lia)).
  pose proof (Z.div_mod (x/256/256/256) 256 ltac:(lia)).
  lia.
Qed.
Lemma read16_pack16 x : read16 (Z.land x 255) (Z.land (Z.shiftr x 8) 255) = s16 x.
Proof.
  rewrite read16_val by apply land255_byte.
  rewrite !land255, shr8. unfold s16. 
  replace (u16 (x mod 256 + x / 256 mod 256 * 256)) with (u16 x); [reflexivity|].
  unfold u16. lia.
Qed.

Lemma skipn_app_exact {A} (l r : list A) : skipn (length l) (l ++ r) = r.
Proof. rewrite skipn_app, skipn_all, Nat.sub_diag. reflexivity. Qed.
Lemma firstn_app_exact {A} (l r : list A) : firstn (length l) (l ++ r) = l.
Proof. rewrite firstn_app, firstn_all, Nat.sub_diag. cbn. apply app_nil_r. Qed.

Lemma read32_at_pack pre x post :
  read32_at (pre ++ wr_pack32 x ++ post) (length pre) = Some (s32 x).
Proof. unfold read32_at. rewrite skipn_app_exact. cbn -[read32]. f_equal. apply read32_pack32. Qed.
Lemma read16_at_pack pre x post :
  read16_at (pre ++ wr_pack16 x ++ post) (length pre) = Some (s16 x).
Proof. unfold read16_at. rewrite skipn_app_exact. cbn -[read16]. f_equal. apply read16_pack16. Qed.

Lemma read32_inj a0 a1 a2 a3 b0 b1 b2 b3 :
  is_byte a0 -> is_byte a1 -> is_byte a2 -> is_byte a3 ->
  is_byte b0 -> is_byte b1 -> is_byte b2 -> is_byte b3 ->
  u32 (read32 a0 a1 a2 a3) = u32 (read32 b0 b1 b2 b3) ->
  a0 = b0 /\ a1 = b1 /\ a2 = b2 /\ a3 = b3.
Proof.
  intros Ha0 Ha1 Ha2 Ha3 Hb0 Hb1 Hb2 Hb3 E. rewrite !read32_val in E by assumption.
  rewrite !u32_s32 in E. unfold is_byte in *. rewrite !u32_id in E by (unfold is_u32; lia). lia.
Qed.

(* ---------- name hashing ---------- *)
Lemma char_to_u32_ascii b : 0 <= b < 128 -> char_to_u32 b = b.
Proof. intro H. unfold char_to_u32. rewrite s8_id by lia. apply u32_id. unfold is_u32. lia. Qed.

Lemma hashStr_loop_ascii s h rest : Forall (fun b => 1 <= b < 128) s ->
  hashStr_loop h (s ++ 0 :: rest) = Some (fold_left fnv_step s h).
Proof.
  revert h; induction s as [|b s IH]; intros h Hs; cbn; [reflexivity|].
  inversion Hs; subst. replace (b =? 0) with false by lia.
  rewrite char_to_u32_ascii by lia. apply IH; assumption.
Qed.
Lemma hashStr_agrees s serial rest : Forall (fun b => 1 <= b < 128) s ->
  wr_hashStr (s ++ 0 :: rest) serial = Some (wr_hash s serial).
Proof. intro H. unfold wr_hashStr, wr_hash. apply hashStr_loop_ascii; assumption. Qed.

Lemma hashStr_unterminated s serial : Forall (fun b => b <> 0) s -> wr_hashStr s serial = None.
Proof.
  unfold wr_hashStr. generalize (if serial =? 0 then fnv_basis else serial).
  induction s as [|b s IH]; intros h Hs; cbn; [reflexivity|].
  inversion Hs; subst. replace (b =? 0) with false by lia. apply IH; assumption.
Qed.

Lemma wr_hash_app a b serial : wr_hash a serial <> 0 ->
  wr_hash (a ++ b) serial = wr_hash b (wr_hash a serial).
Proof.
  intro H. unfold wr_hash at 1 2. rewrite fold_left_app.
  replace (wr_hash a serial =? 0) with false by lia. reflexivity.
Qed.
Lemma wr_hash_u32 a serial : is_u32 serial -> is_u32 (wr_hash a serial).
Proof.
  intro H. apply fnv_fold_u32. destruct (serial =? 0); [apply basis_u32|assumption].
Qed.
Lemma wr_hash_read8_eq s : wr_hash_read8 s = wr_hash s 0.
Proof. reflexivity. Qed.

(* ---------- image checksum ---------- *)
Lemma valid_app body b0 b1 b2 b3 : (4 <= length body)%nat ->
  wr_isBytecodeValid (body ++ [b0; b1; b2; b3]) =
  (u32 (read32 b0 b1 b2 b3) =? u32 (wr_hash_read8 body + version_major)).
Proof.
  intro H. unfold wr_isBytecodeValid. rewrite app_length. cbn [length].
  replace (length body + 4 <? 8)%nat with false by lia.
  replace (length body + 4 - 4)%nat with (length body) by lia.
  unfold read32_at. rewrite skipn_app_exact, firstn_app_exact. reflexivity.
Qed.

Lemma append_crc_valid code : (4 <= length code)%nat -> wr_isBytecodeValid (append_crc code) = true.
Proof.
  intro H. unfold append_crc, wr_pack32. rewrite valid_app by assumption.
  rewrite read32_pack32, u32_s32, u32_idem. rewrite wr_hash_read8_eq. apply Z.eqb_refl.
Qed.

Lemma split_last4 (img : list Z) : (8 <= length img)%nat ->
  exists body b0 b1 b2 b3, img = body ++ [b0; b1; b2; b3] /\ (4 <= length body)%nat.
Proof.
  intro H. exists (firstn (length img - 4) img).
  assert (E : length (skipn (length img - 4) img) = 4%nat) by (rewrite skipn_length; lia).
  pose proof (firstn_skipn (length img - 4) img) as F.
  destruct (skipn (length img - 4) img) as [|b0 [|b1 [|b2 [|b3 [|]]]]] eqn:S; cbn in E; try lia.
  exists b0, b1, b2, b3. split; [symmetry; exact F|]. rewrite firstn_length. lia.
Qed.

Lemma upd_app_l {A} (l r : list A) i x : (i < length l)%nat -> upd (l ++ r) i x = upd l i x ++ r.
Proof. revert i; induction l as [|h t IH]; intros [|i] H; cbn in *; try lia; auto. f_equal. apply IH. lia. Qed.
Lemma upd_app_r {A} (l r : list A) i x : upd (l ++ r) (length l + i) x = l ++ upd r i x.
Proof. induction l as [|h t IH]; cbn; auto. f_equal. exact IH. Qed.
Lemma bytes_ok_upd l i b : bytes_ok l -> is_byte b -> bytes_ok (upd l i b).
Proof.
  unfold bytes_ok. revert i; induction l as [|h t IH]; intros [|i] Hl Hb; cbn; auto;
    inversion Hl; subst; constructor; auto.
Qed.

Lemma one_byte_detected img i b c :
  bytes_ok img -> is_byte b -> wr_isBytecodeValid img = true ->
  nth_error img i = Some c -> c <> b -> wr_isBytecodeValid (upd img i b) = false.
Proof.
  intros Himg Hb Hv Hn Hc.
  assert (Hlen : (8 <= length img)%nat).
  { unfold wr_isBytecodeValid in Hv. destruct (Nat.ltb_spec (length img) 8); [discriminate|lia]. }
  destruct (split_last4 img Hlen) as (body & b0 & b1 & b2 & b3 & -> & Hbody).
  apply Forall_app in Himg as [Hbok Htail].
  inversion Htail as [|? ? H0 Ht1]; subst. inversion Ht1 as [|? ? H1 Ht2]; subst.
  inversion Ht2 as [|? ? H2 Ht3]; subst. inversion Ht3 as [|? ? H3 _]; subst.
  rewrite valid_app in Hv by assumption. apply Z.eqb_eq in Hv.
  destruct (Nat.ltb_spec i (length body)) as [Hi|Hi].
  - rewrite upd_app_l by assumption. rewrite valid_app by (rewrite upd_length; assumption).
    apply Z.eqb_neq. rewrite Hv. intro E.
    rewrite nth_error_app1 in Hn by assumption.
    apply (fnv_fold_change body i b c fnv_basis basis_u32 Hbok Hb Hn Hc).
    unfold wr_hash_read8 in E. 
    pose proof (fnv_fold_u32 body fnv_basis basis_u32) as R1.
    pose proof (fnv_fold_u32 (upd body i b) fnv_basis basis_u32) as R2.
    unfold is_u32 in R1, R2. unfold u32, version_major in E. lia.
  - assert (exists j, i = (length body + j)%nat) as [j ->] by (exists (i - length body)%nat; lia).
    rewrite upd_app_r. rewrite nth_error_app2 in Hn by lia.
    replace (length body + j - length body)%nat with j in Hn by lia.
    destruct j as [|[|[|[|j]]]]; cbn in Hn; try (destruct j; discriminate);
      inversion Hn; subst; cbn [upd]; rewrite valid_app by assumption;
      apply Z.eqb_neq; rewrite <- Hv; intro E; apply read32_inj in E; auto; destruct E as (?&?&?&?); congruence.
Qed.

Lemma accepts_valid img : wr_createContext_accepts img = true -> wr_isBytecodeValid img = true.
Proof.
  unfold wr_createContext_accepts. destruct (length img <? 8)%nat; [discriminate|].
  destruct (wr_isBytecodeValid img); [reflexivity|discriminate].
Qed.
Lemma accepts_iff img : wr_createContext_accepts img = true <->
  (wr_isBytecodeValid img = true /\ exists funcs, nth_error img 1 = Some funcs /\
   3 + funcs * 11 + 4 <= lenZ img).
Proof.
  split.
  - intro H. split; [apply accepts_valid; exact H|]. revert H.
    unfold wr_createContext_accepts. destruct (length img <? 8)%nat; [discriminate|].
    destruct (wr_isBytecodeValid img); [|discriminate]. cbn [negb].
    destruct (nth_error img 1) as [f|]; [|discriminate]. unfold function_core_size.
    intro H. exists f. split; [reflexivity|]. lia.
  - intros [Hv (f & Hf & Hl)]. unfold wr_createContext_accepts. rewrite Hv, Hf.
    unfold wr_isBytecodeValid in Hv. destruct (length img <? 8)%nat; [discriminate|].
    cbn [negb]. unfold function_core_size. lia.
Qed.
