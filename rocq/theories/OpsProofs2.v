(* Leaf operations against the specification; assembled operator results. *)
From Verif Require Import Base BaseLemmas HashModel FloatModel FloatProofs OpsModel OpsSpec OpsProofs.
Ltac Zify.zify_post_hook ::= Z.div_mod_to_equations.

Lemma s32_u32_id n : is_s32 n -> s32 (u32 n) = n.
Proof. unfold is_s32, s32, u32. cbv zeta. intros. destruct (Z.ltb_spec ((n mod 4294967296) mod 4294967296) 2147483648); lia. Qed.
Lemma u32_zero n : is_s32 n -> (u32 n =? 0) = (n =? 0).
Proof. unfold is_s32, u32. lia. Qed.
Lemma u32_u32 n : u32 (u32 n) = u32 n.
Proof. unfold u32. lia. Qed.

Lemma u32_bits n k : 0 <= k -> Z.testbit (u32 n) k = (k <? 32) && Z.testbit n k.
Proof.
  intros Hk. unfold u32. change 4294967296 with (2 ^ 32).
  destruct (Z.ltb_spec k 32); cbn [andb].
  - now rewrite Z.mod_pow2_bits_low.
  - now rewrite Z.mod_pow2_bits_high by lia.
Qed.
Lemma land_u32 a b : Z.land (u32 a) (u32 b) = u32 (Z.land a b).
Proof. apply Z.bits_inj'. intros k Hk. rewrite Z.land_spec, !u32_bits, Z.land_spec by auto. destruct (k <? 32), (Z.testbit a k), (Z.testbit b k); reflexivity. Qed.
Lemma lor_u32 a b : Z.lor (u32 a) (u32 b) = u32 (Z.lor a b).
Proof. apply Z.bits_inj'. intros k Hk. rewrite Z.lor_spec, !u32_bits, Z.lor_spec by auto. destruct (k <? 32), (Z.testbit a k), (Z.testbit b k); reflexivity. Qed.
Lemma lxor_u32 a b : Z.lxor (u32 a) (u32 b) = u32 (Z.lxor a b).
Proof. apply Z.bits_inj'. intros k Hk. rewrite Z.lxor_spec, !u32_bits, Z.lxor_spec by auto. destruct (k <? 32), (Z.testbit a k), (Z.testbit b k); reflexivity. Qed.
Lemma shl_u32 a k : 0 <= k -> u32 (Z.shiftl (u32 a) k) = u32 (a * 2 ^ k).
Proof.
  intros. rewrite Z.shiftl_mul_pow2 by auto. unfold u32. rewrite Zmult_mod_idemp_l. reflexivity.
Qed.

Lemma int_fn_spec b x y z : is_arith b = false -> is_s32 x -> is_s32 y ->
  spec_int b x y = Some z -> int_fn b (u32 x) (u32 y) = Some (u32 z).
Proof.
  intros Hb Hx Hy H. destruct b; try discriminate; cbn [spec_int int_fn] in *.
  - unfold imod_c. rewrite !s32_u32_id by auto. destruct (y =? 0); [discriminate|].
    unfold int_min. destruct ((x =? -2147483648) && (y =? -1)); congruence.
  - unfold iand. rewrite land_u32. congruence.
  - unfold ior. rewrite lor_u32. congruence.
  - unfold ixor. rewrite lxor_u32. congruence.
  - unfold ishl. rewrite s32_u32_id by auto. destruct ((0 <=? y) && (y <? 32)) eqn:E; [|discriminate].
    rewrite shl_u32 by lia. injection H as <-. now rewrite u32_s32.
  - unfold ishr. rewrite !s32_u32_id by auto. destruct ((0 <=? y) && (y <? 32)) eqn:E; [|discriminate].
    rewrite Z.shiftr_div_pow2 by lia. congruence.
Qed.

Definition op_of (b : binop) : arith :=
  match b with BAdd => add_op | BSub => sub_op | BMul => mul_op | _ => div_op end.

Lemma quot_s32 x y : is_s32 x -> is_s32 y -> y <> 0 -> ~ (x = -2147483648 /\ y = -1) -> is_s32 (Z.quot x y).
Proof.
  unfold is_s32. intros Hx Hy H0 H1.
  assert (P1: 0 <= Z.abs x) by lia. assert (P2: 0 < Z.abs y) by lia.
  assert (A: Z.abs (Z.quot x y) = Z.quot (Z.abs x) (Z.abs y)) by (rewrite Z.quot_abs; auto).
  rewrite (Z.quot_div_nonneg (Z.abs x) (Z.abs y)) in A by assumption.
  destruct (Z.eq_dec (Z.abs y) 1) as [E|E].
  - rewrite E, Z.div_1_r in A.
    destruct (Z.eq_dec x (-2147483648)) as [->|].
    + assert (y = 1) by lia. subst y. rewrite Z.quot_1_r. lia.
    + generalize dependent (Z.quot x y). intros; lia.
  - assert (Z.abs x / Z.abs y <= 1073741824).
    { assert (Z.abs x / Z.abs y < 1073741825); [|lia]. apply Z.div_lt_upper_bound; lia. }
    generalize dependent (Z.quot x y). generalize dependent (Z.abs x / Z.abs y). intros; lia.
Qed.

Lemma leaf_spec trap pbits b x y z : is_arith b = true -> number_ok x -> number_ok y ->
  (b = BDiv -> trap = true -> is_zero y = false) ->
  spec_bin b x y = Some z ->
  leaf trap (op_of b) (type_of (of_number x)) (type_of (of_number y)) (bits pbits (of_number x)) (bits pbits (of_number y)) = Some (of_number z).
Proof.
  intros Hb Hx Hy Ht H.
  destruct x as [x|x], y as [y|y]; cbn [of_number type_of bits] in *; cbn [number_ok] in Hx, Hy;
    destruct b; try discriminate; cbn [spec_bin spec_int spec_float option_map to_float is_zero] in H; unfold leaf;
    cbn [op_of add_op sub_op mul_op div_op a_div a_ii a_ff andb];
    rewrite ?(u32_zero x), ?(u32_zero y), ?(s32_u32_id x), ?(s32_u32_id y) by auto.
  - injection H as <-. cbn [option_map of_number]. unfold iadd_wrap. rewrite u32_add_l, u32_add_r, u32_s32. reflexivity.
  - injection H as <-. cbn [option_map of_number]. unfold isub_wrap. rewrite u32_s32. replace (u32 (u32 x - u32 y)) with (u32 (x - y)) by (unfold u32; lia). reflexivity.
  - injection H as <-. cbn [option_map of_number]. unfold imul_wrap. rewrite u32_mul_l, u32_mul_r, u32_s32. reflexivity.
  - cbn [is_zero] in Ht. destruct (Z.eqb_spec y 0) as [->|N].
    + destruct trap; [specialize (Ht eq_refl eq_refl); discriminate|]. injection H as <-. reflexivity.
    + destruct ((x =? -2147483648) && (y =? -1)) eqn:E; [discriminate|]. injection H as <-.
      unfold idiv_c. rewrite !s32_u32_id by auto. destruct (Z.eqb_spec y 0); [lia|].
      unfold checked. pose proof (quot_s32 x y Hx Hy N ltac:(lia)) as Q. unfold is_s32 in Q. unfold int_min.
      destruct ((-2147483648 <=? Z.quot x y) && (Z.quot x y <=? 2147483647)) eqn:E2; [reflexivity|lia].
  - injection H as <-; reflexivity.
  - injection H as <-; reflexivity.
  - injection H as <-; reflexivity.
  - cbn [is_zero] in Ht. destruct (f32_true y); cbn [negb] in *; [injection H as <-; reflexivity|].
    destruct trap; [specialize (Ht eq_refl eq_refl); discriminate|]. injection H as <-; reflexivity.
  - injection H as <-; reflexivity.
  - injection H as <-; reflexivity.
  - injection H as <-; reflexivity.
  - cbn [is_zero] in Ht. destruct (y =? 0); [|injection H as <-; reflexivity].
    destruct trap; [specialize (Ht eq_refl eq_refl); discriminate|]. injection H as <-; reflexivity.
  - injection H as <-; reflexivity.
  - injection H as <-; reflexivity.
  - injection H as <-; reflexivity.
  - cbn [is_zero] in Ht. destruct (f32_true y); cbn [negb] in *; [injection H as <-; reflexivity|].
    destruct trap; [specialize (Ht eq_refl eq_refl); discriminate|]. injection H as <-; reflexivity.
Qed.

(* division by zero with the trap compiled in *)
Lemma leaf_trap pbits x y : number_ok x -> number_ok y -> is_zero y = true ->
  leaf true div_op (type_of (of_number x)) (type_of (of_number y)) (bits pbits (of_number x)) (bits pbits (of_number y)) = Some VInvalid.
Proof.
  intros Hx Hy H. destruct x as [x|x], y as [y|y]; cbn [of_number type_of bits number_ok is_zero] in *; unfold leaf; cbn [div_op a_div andb].
  - rewrite u32_zero by auto. now rewrite H.
  - now rewrite H.
  - rewrite u32_zero by auto. now rewrite H.
  - now rewrite H.
Qed.

(* the exact (not wrapped) integer result *)


Lemma checked_ok x : is_s32 x -> checked x = Some (u32 x).
Proof. unfold checked, is_s32, int_min. intros. destruct ((-2147483648 <=? x) && (x <=? 2147483647)) eqn:E; [reflexivity|lia]. Qed.
Lemma checked_none x : ~ is_s32 x -> checked x = None.
Proof. unfold checked, is_s32, int_min. intros. destruct ((-2147483648 <=? x) && (x <=? 2147483647)) eqn:E; [lia|reflexivity]. Qed.

Lemma c_leaf_spec pbits b x y z : number_ok x -> number_ok y ->
  ~ overflows b x y -> spec_bin b x y = Some z ->
  c_leaf (call_of b) (type_of (of_number x)) (type_of (of_number y)) (bits pbits (of_number x)) (bits pbits (of_number y)) = Some (of_number z).
Proof.
  intros Hx Hy Ho H.
  destruct x as [x|x], y as [y|y]; cbn [of_number type_of bits] in *; cbn [number_ok] in Hx, Hy.
  - cbn [c_leaf]. cbn [spec_bin option_map] in H.
    destruct (spec_int b x y) as [r|] eqn:S; [|discriminate]. injection H as <-.
    destruct (is_arith b) eqn:A.
    2:{ replace (k_i (call_of b)) with (int_fn b) by (destruct b; try discriminate; reflexivity).
        rewrite (int_fn_spec b x y r) by auto. reflexivity. }
    destruct b; try discriminate; cbn [spec_int call_of k_i k_addition k_subtraction k_multiplication k_division overflows exact_int] in *.
    + unfold iadd_c. rewrite !s32_u32_id by auto. assert (O: is_s32 (x + y)) by (unfold is_s32 in *; lia).
      rewrite checked_ok by auto. injection S as <-. cbn [of_number option_map]. rewrite u32_s32. reflexivity.
    + unfold isub_c. rewrite !s32_u32_id by auto. assert (O: is_s32 (x - y)) by (unfold is_s32 in *; lia).
      rewrite checked_ok by auto. injection S as <-. cbn [of_number option_map]. rewrite u32_s32. reflexivity.
    + unfold imul_c. rewrite !s32_u32_id by auto. assert (O: is_s32 (x * y)) by (unfold is_s32 in *; lia).
      rewrite checked_ok by auto. injection S as <-. cbn [of_number option_map]. rewrite u32_s32. reflexivity.
    + unfold idiv0. rewrite u32_zero by auto. destruct (Z.eqb_spec y 0) as [->|N]; [injection S as <-; reflexivity|].
      destruct ((x =? -2147483648) && (y =? -1)) eqn:E; [discriminate|]. injection S as <-.
      unfold idiv_c. rewrite !s32_u32_id by auto. destruct (Z.eqb_spec y 0); [lia|].
      rewrite checked_ok; [reflexivity|]. apply quot_s32; auto. lia.
  - cbn [spec_bin to_float is_zero] in H. cbn [c_leaf]. rewrite s32_u32_id by auto.
    destruct b; try discriminate; cbn [spec_float option_map call_of k_f k_addition k_subtraction k_multiplication k_division] in *; try (injection H as <-; reflexivity).
    unfold fdiv0. destruct (f32_true y); cbn [negb] in H; injection H as <-; reflexivity.
  - cbn [spec_bin to_float is_zero] in H. cbn [c_leaf]. rewrite s32_u32_id by auto.
    destruct b; try discriminate; cbn [spec_float option_map call_of k_f k_addition k_subtraction k_multiplication k_division] in *; try (injection H as <-; reflexivity).
    unfold fdiv0. rewrite f32_true_of_int by auto. destruct (y =? 0); cbn [negb] in *; injection H as <-; reflexivity.
  - cbn [spec_bin to_float is_zero] in H. cbn [c_leaf].
    destruct b; try discriminate; cbn [spec_float option_map call_of k_f k_addition k_subtraction k_multiplication k_division] in *; try (injection H as <-; reflexivity).
    unfold fdiv0. destruct (f32_true y); cbn [negb] in H; injection H as <-; reflexivity.
Qed.
