(* C14-C19, C47-C49: the value operators. *)
From Verif Require Import Base BaseLemmas HashModel HashProofs FloatModel FloatProofs OpsModel OpsSpec OpsProofs OpsProofs2 OpsProofs3 OpsProofs4 OpsProofs5.
Ltac Zify.zify_post_hook ::= Z.div_mod_to_equations.

(* ---- concrete memories for the examples and the refutations ---- *)
Fixpoint lookup_loc (l : loc) (vs : list (loc * value)) : value :=
  match vs with [] => VInt 0 | (k, v) :: t => if loc_eq_dec l k then v else lookup_loc l t end.
Fixpoint lookup_obj (i : nat) (os : list (nat * obj)) : option obj :=
  match os with [] => None | (k, o) :: t => if Nat.eq_dec i k then Some o else lookup_obj i t end.
Definition mem_of (vs : list (loc * value)) (os : list (nat * obj)) : mem :=
  mkMem (fun l => lookup_loc l vs) (fun i => lookup_obj i os) (fun _ _ => 0) 100.

(* ============ C14 / C15: binary operators ============ *)
(* + - * / : every pair of operands, every addressing form *)
Theorem arithmetic_every_form pbits obj_hash as_string trap b x y z m l r t :
  is_arith b = true -> visible l -> visible r ->
  denotes m (mv m l) x -> denotes m (mv m r) y ->
  (b = BDiv -> trap = true -> is_zero y = false) ->
  spec_bin b x y = Some z ->
  exists K, forall fuel, (K <= fuel)%nat -> exists m',
    eval_bin pbits obj_hash as_string trap b fuel l r t m = Ok m' /\
    mv m' t = of_number z /\ unchanged_except [t] m m'.
Proof.
  intros Hb Vl Vr Dx Dy Ht Hs.
  pose proof (leaf_spec trap pbits b x y z Hb (denotes_ok _ _ _ Dx) (denotes_ok _ _ _ Dy) Ht Hs) as L.
  assert (G: exists k, forall n, (k <= n)%nat -> exists q, eval_bin pbits obj_hash as_string trap b n l r t m = Ok q /\ numeric_result m q t (of_number z)).
  { destruct b; try discriminate; unfold eval_bin; cbn [op_of] in L.
    - destruct (add_table pbits obj_hash as_string trap x y z m t L _ _ Dx Dy) as [k H]. exists k. auto.
    - destruct (arith_table pbits obj_hash as_string trap _ x y (of_number z) m t L _ _ Dx Dy) as [k H]. exists k. auto.
    - destruct (arith_table pbits obj_hash as_string trap _ x y (of_number z) m t L _ _ Dx Dy) as [k H]. exists k. auto.
    - destruct (arith_table pbits obj_hash as_string trap _ x y (of_number z) m t L _ _ Dx Dy) as [k H]. exists k. auto. }
  destruct G as [k G]. exists k. intros fuel Hf. destruct (G fuel Hf) as (q&E1&E2&E3). exists q. auto.
Qed.

(* %, &, |, ^, <<, >> : every form except (element OP variable) *)
Theorem integer_operators_partial pbits obj_hash as_string trap b a c d m l r t :
  is_arith b = false -> visible l -> visible r ->
  denotes m (mv m l) (NI a) -> denotes m (mv m r) (NI c) ->
  ~ element_op_variable m (mv m l) (mv m r) ->
  spec_int b a c = Some d ->
  exists K, forall fuel, (K <= fuel)%nat -> exists m',
    eval_bin pbits obj_hash as_string trap b fuel l r t m = Ok m' /\
    mv m' t = of_number (NI d) /\ unchanged_except [t] m m'.
Proof.
  intros Hb Vl Vr Dx Dy Hbad Hs.
  assert (L: int_fn b (u32 a) (u32 c) = Some (u32 d)).
  { apply int_fn_spec; auto; [exact (denotes_ok _ _ _ Dx)|exact (denotes_ok _ _ _ Dy)]. }
  destruct (int_table pbits obj_hash as_string (int_fn b) a c d m t L _ _ Dx Dy Hbad) as [k G].
  exists k. intros fuel Hf. destruct (G fuel l r Hf Vl Vr eq_refl eq_refl) as (q&E1&E2&E3).
  exists q. repeat split; auto; try apply E3. unfold eval_bin. destruct b; try discriminate; exact E1.
Qed.

(* a[0] & x with x = -1 must be a[0]; it is the low bits of a pointer instead, whatever the
   allocator does *)
Definition m_elem_var (e : Z) : mem :=
  mem_of [(LStack 0, VMem (LGlobal 0) 0); (LStack 1, VRef (LGlobal 1)); (LGlobal 0, VArr 7);
          (LGlobal 1, VInt 4294967295); (LElem 7 0, VInt e)] [(7%nat, OVal 3)].
Lemma m_elem_var_denotes e : is_u32 e ->
  denotes (m_elem_var e) (mv (m_elem_var e) (LStack 0)) (NI (s32 e)) /\
  denotes (m_elem_var e) (mv (m_elem_var e) (LStack 1)) (NI (-1)).
Proof.
  intros He. split.
  - apply (D_elem (m_elem_var e) (LGlobal 0) 0 7 3 (NI (s32 e))); cbn; auto with arith; try lia.
    + rewrite u32_s32, u32_id; auto.
    + apply s32_range.
  - apply (D_ref (m_elem_var e) (LGlobal 1) (NI (-1))); [exact I|].
    apply (D_num (m_elem_var e) (NI (-1))). cbn. unfold is_s32; lia.
Qed.
(* discharges `exists m', f (S .. fuel) .. = Ok m' /\ ..` on a concrete memory *)
Ltac run := eexists; split; [lazy; reflexivity|].
Ltac with_fuel n := exists n; let f := fresh "fuel" in intros f Hf;
  replace f with (n + (f - n))%nat by lia; generalize (f - n)%nat; clear f Hf; intros f; cbn [Nat.add].

Theorem integer_operator_element_variable_refuted :
  exists b, is_arith b = false /\ forall pbits obj_hash as_string trap, exists m l r t a c d,
    visible l /\ visible r /\ denotes m (mv m l) (NI a) /\ denotes m (mv m r) (NI c) /\
    spec_int b a c = Some d /\
    exists K, forall fuel, (K <= fuel)%nat -> exists m',
      eval_bin pbits obj_hash as_string trap b fuel l r t m = Ok m' /\ mv m' t <> of_number (NI d).
Proof.
  exists BAnd. split; [reflexivity|]. intros.
  set (p := pbits (VMem (LGlobal 0) 0)).
  set (e := if Z.land p 4294967295 =? 5 then 6 else 5).
  assert (He: is_u32 e) by (unfold e, is_u32; destruct (_ =? _); lia).
  assert (Hs: s32 e = e) by (unfold e; destruct (_ =? _); reflexivity).
  destruct (m_elem_var_denotes e He) as [D1 D2].
  exists (m_elem_var e), (LStack 0), (LStack 1), (LStack 2), (s32 e), (-1), e.
  split; [exact I|]. split; [exact I|]. split; [exact D1|]. split; [exact D2|].
  split; [cbn [spec_int]; rewrite Hs, Z.land_m1_r; reflexivity|].
  with_fuel 5%nat.
  eexists; split; [reflexivity|]. change (VInt (Z.land p 4294967295) <> VInt (u32 e)).
  rewrite u32_id by exact He. unfold e. intros E. injection E as E.
  destruct (Z.eqb_spec (Z.land p 4294967295) 5); lia.
Qed.

(* non-vacuity: an element of an array plus a variable reached through two references *)
Example arithmetic_every_form_case : exists m, 
  denotes m (mv m (LStack 0)) (NI 2147483647) /\ denotes m (mv m (LStack 1)) (NI 1) /\
  spec_bin BAdd (NI 2147483647) (NI 1) = Some (NI (-2147483648)) /\
  spec_bin BDiv (NI (-7)) (NI 2) = Some (NI (-3)).
Proof.
  exists (mem_of [(LStack 0, VMem (LGlobal 0) 0); (LStack 1, VRef (LStack 5)); (LStack 5, VRef (LGlobal 1)); (LGlobal 0, VArr 7);
    (LGlobal 1, VInt 1); (LElem 7 0, VInt 2147483647)] [(7%nat, OVal 3)]).
  split; [|split; [|split; reflexivity]].
  - apply (D_elem _ (LGlobal 0) 0 7 3 (NI 2147483647)); cbn; auto with arith; unfold is_s32; lia.
  - apply (D_ref _ (LStack 5)); [exact I|]. apply (D_ref _ (LGlobal 1)); [exact I|].
    apply (D_num _ (NI 1)). cbn. unfold is_s32; lia.
Qed.
Example integer_operators_case : exists m,
  denotes m (mv m (LStack 0)) (NI (-7)) /\ denotes m (mv m (LStack 1)) (NI 3) /\
  ~ element_op_variable m (mv m (LStack 0)) (mv m (LStack 1)) /\ spec_int BMod (-7) 3 = Some (-1).
Proof.
  exists (mem_of [(LStack 0, VRef (LGlobal 1)); (LStack 1, VMem (LGlobal 0) 0); (LGlobal 0, VArr 7);
    (LGlobal 1, VInt 4294967289); (LElem 7 0, VInt 3)] [(7%nat, OVal 3)]).
  split; [|split; [|split; [|reflexivity]]].
  - apply (D_ref _ (LGlobal 1)); [exact I|]. apply (D_num _ (NI (-7))). cbn. unfold is_s32; lia.
  - apply (D_elem _ (LGlobal 0) 0 7 3 (NI 3)); cbn; auto with arith; unfold is_s32; lia.
  - intros (j&k&wl&wr&B1&B2&H&L). cbn in B2. inversion B2; subst. lia.
Qed.

(* ============ C16: comparisons ============ *)
Lemma cmp_table_spec c x y o inv : number_ok x -> number_ok y -> OpsModel.cmp_table c = (o, inv) ->
  xorb inv (bres o x y) = spec_cmp c x y.
Proof.
  intros Hx Hy E. destruct x as [a|a], y as [b|b], c; cbn in E; injection E as <- <-; cbn in *;
    rewrite ?s32_u32_id by auto; unfold nz, f32_gt; rewrite ?s32_u32_id by auto; unfold f32_lt;
    rewrite ?f32_true_of_int by auto; rewrite ?negb_involutive; try reflexivity;
    try (destruct (a <? b) eqn:E1; try destruct (b <? a) eqn:E2; try destruct (a <=? b) eqn:E3; try destruct (b <=? a) eqn:E4; cbn; lia);
    match goal with |- (if ?q then true else false) = _ => now destruct q end.
Qed.
Theorem comparison_every_form pbits obj_hash c x y m l r :
  visible l -> visible r -> denotes m (mv m l) x -> denotes m (mv m r) y ->
  exists K, forall fuel, (K <= fuel)%nat -> exists m',
    eval_cmp pbits obj_hash c fuel l r m = Ok (spec_cmp c x y, m').
Proof.
  intros Vl Vr Dx Dy. unfold eval_cmp. destruct (OpsModel.cmp_table c) as [o inv] eqn:E.
  destruct (cmp_tbl pbits obj_hash (fun _ _ => nil) o x y m _ _ Dx Dy) as [k G].
  exists k. intros fuel Hf. destruct (G fuel l r Hf Vl Vr eq_refl eq_refl) as ([b m1]&E1&E2&_). cbn [fst] in E2.
  rewrite E1. cbn [bind]. exists m1. rewrite E2. now rewrite (cmp_table_spec c x y o inv (denotes_ok _ _ _ Dx) (denotes_ok _ _ _ Dy) E).
Qed.
(* a < b is b > a; a <= b is !(a > b); a >= b is !(a < b); a != b is !(a == b), and exactly one of
   <, ==, > holds of two integers *)
Theorem comparison_coherent pbits obj_hash x y m l r :
  visible l -> visible r -> denotes m (mv m l) x -> denotes m (mv m r) y ->
  exists K, forall fuel, (K <= fuel)%nat ->
  exists lt gt le ge eq ne rgt rlt (mm : cmpop -> bool -> mem),
    eval_cmp pbits obj_hash CLt fuel l r m = Ok (lt, mm CLt true) /\
    eval_cmp pbits obj_hash CGt fuel l r m = Ok (gt, mm CGt true) /\
    eval_cmp pbits obj_hash CLe fuel l r m = Ok (le, mm CLe true) /\
    eval_cmp pbits obj_hash CGe fuel l r m = Ok (ge, mm CGe true) /\
    eval_cmp pbits obj_hash CEq fuel l r m = Ok (eq, mm CEq true) /\
    eval_cmp pbits obj_hash CNe fuel l r m = Ok (ne, mm CNe true) /\
    eval_cmp pbits obj_hash CGt fuel r l m = Ok (rgt, mm CGt false) /\
    eval_cmp pbits obj_hash CLt fuel r l m = Ok (rlt, mm CLt false) /\
    lt = rgt /\ gt = rlt /\ le = negb gt /\ ge = negb lt /\ ne = negb eq /\
    (is_NI x = true -> is_NI y = true ->
      (lt = true /\ eq = false /\ gt = false) \/ (lt = false /\ eq = true /\ gt = false) \/
      (lt = false /\ eq = false /\ gt = true)).
Proof.
  intros Vl Vr Dx Dy.
  destruct (comparison_every_form pbits obj_hash CLt x y m l r Vl Vr Dx Dy) as [k1 G1].
  destruct (comparison_every_form pbits obj_hash CGt x y m l r Vl Vr Dx Dy) as [k2 G2].
  destruct (comparison_every_form pbits obj_hash CLe x y m l r Vl Vr Dx Dy) as [k3 G3].
  destruct (comparison_every_form pbits obj_hash CGe x y m l r Vl Vr Dx Dy) as [k4 G4].
  destruct (comparison_every_form pbits obj_hash CEq x y m l r Vl Vr Dx Dy) as [k5 G5].
  destruct (comparison_every_form pbits obj_hash CNe x y m l r Vl Vr Dx Dy) as [k6 G6].
  destruct (comparison_every_form pbits obj_hash CGt y x m r l Vr Vl Dy Dx) as [k7 G7].
  destruct (comparison_every_form pbits obj_hash CLt y x m r l Vr Vl Dy Dx) as [k8 G8].
  exists (k1 + k2 + k3 + k4 + k5 + k6 + k7 + k8)%nat. intros fuel Hf.
  destruct (G1 fuel ltac:(lia)) as [m1 H1]. destruct (G2 fuel ltac:(lia)) as [m2 H2].
  destruct (G3 fuel ltac:(lia)) as [m3 H3]. destruct (G4 fuel ltac:(lia)) as [m4 H4].
  destruct (G5 fuel ltac:(lia)) as [m5 H5]. destruct (G6 fuel ltac:(lia)) as [m6 H6].
  destruct (G7 fuel ltac:(lia)) as [m7 H7]. destruct (G8 fuel ltac:(lia)) as [m8 H8].
  exists (spec_cmp CLt x y), (spec_cmp CGt x y), (spec_cmp CLe x y), (spec_cmp CGe x y), (spec_cmp CEq x y), (spec_cmp CNe x y),
    (spec_cmp CGt y x), (spec_cmp CLt y x),
    (fun c (f : bool) => match c, f with CLt, true => m1 | CGt, true => m2 | CLe, _ => m3 | CGe, _ => m4 | CEq, _ => m5 | CNe, _ => m6 | CGt, false => m7 | CLt, false => m8 | _, _ => m end).
  do 8 (split; [assumption|]).
  split; [destruct x, y; reflexivity|]. split; [destruct x, y; reflexivity|].
  split; [destruct x, y; cbn; try reflexivity; apply Bool.eq_iff_eq_true; rewrite ?negb_true_iff; lia|].
  split; [destruct x, y; cbn; try reflexivity; apply Bool.eq_iff_eq_true; rewrite ?negb_true_iff; lia|].
  split; [destruct x, y; reflexivity|].
  intros Hx Hy. destruct x as [a|], y as [b|]; try discriminate. cbn. lia.
Qed.
(* a boolean condition: `&&`, `||` follow the truth of the operands *)
Example comparison_case : spec_cmp CLe (NI (-2147483648)) (NI 2147483647) = true /\
  spec_cmp CLt (NF 1065353216) (NI 2) = true /\ spec_cmp CAnd (NF 0) (NI 1) = false.
Proof. repeat split; vm_compute; reflexivity. Qed.
(* float == is neither symmetric nor transitive (tolerance relative to the left operand) *)
Theorem float_equality_symmetric_refuted : forall pbits obj_hash, exists m l r x y,
  visible l /\ visible r /\ denotes m (mv m l) x /\ denotes m (mv m r) y /\
  exists K, forall fuel, (K <= fuel)%nat -> exists m1 m2,
    eval_cmp pbits obj_hash CEq fuel l r m = Ok (false, m1) /\
    eval_cmp pbits obj_hash CEq fuel r l m = Ok (true, m2).
Proof.
  intros. set (m := mem_of [(LStack 0, VFlt 1066964603); (LStack 1, VFlt 1066964608)] []).
  assert (D0: denotes m (mv m (LStack 0)) (NF 1066964603)) by (apply (D_num m (NF 1066964603)); exact I).
  assert (D1: denotes m (mv m (LStack 1)) (NF 1066964608)) by (apply (D_num m (NF 1066964608)); exact I).
  exists m, (LStack 0), (LStack 1), (NF 1066964603), (NF 1066964608). repeat (split; [solve [exact I | assumption]|]).
  destruct (comparison_every_form pbits obj_hash CEq _ _ m (LStack 0) (LStack 1) I I D0 D1) as [k1 G1].
  destruct (comparison_every_form pbits obj_hash CEq _ _ m (LStack 1) (LStack 0) I I D1 D0) as [k2 G2].
  exists (k1 + k2)%nat. intros fuel Hf. destruct (G1 fuel ltac:(lia)) as [m1 H1]. destruct (G2 fuel ltac:(lia)) as [m2 H2].
  exists m1, m2.
  assert (E1: spec_cmp CEq (NF 1066964603) (NF 1066964608) = false) by (vm_compute; reflexivity).
  assert (E2: spec_cmp CEq (NF 1066964608) (NF 1066964603) = true) by (vm_compute; reflexivity).
  rewrite E1 in H1. rewrite E2 in H2. auto.
Qed.

(* ============ C15: comparisons and operands ============ *)
(* ==, != never modify anything; <, <=, >, >=, &&, || do not unless the left operand is an integer
   variable or temporary and the right one a float *)
Theorem comparison_pure_partial pbits obj_hash c x y m l r :
  visible l -> visible r -> denotes m (mv m l) x -> denotes m (mv m r) y ->
  (c = CEq \/ c = CNe \/ is_NI x = false \/ is_NI y = true \/
   exists k w, behind m (mv m l) k w /\ is_member w = true) ->
  exists K, forall fuel, (K <= fuel)%nat -> exists b m',
    eval_cmp pbits obj_hash c fuel l r m = Ok (b, m') /\ unchanged_except [] m m'.
Proof.
  intros Vl Vr Dx Dy H. unfold eval_cmp. destruct (OpsModel.cmp_table c) as [o inv] eqn:E.
  destruct (cmp_tbl pbits obj_hash (fun _ _ => nil) o x y m _ _ Dx Dy) as [k G].
  exists k. intros fuel Hf. destruct (G fuel l r Hf Vl Vr eq_refl eq_refl) as ([b m1]&E1&_&E3).
  rewrite E1. cbn [bind]. eexists _, m1. split; [reflexivity|].
  assert (V: vis_same m m1).
  { apply E3. destruct H as [-> |[-> |[H|[H|H]]]]; auto; left; unfold no_retag; cbn in E; try injection E as <- _; auto. }
  destruct V as (V&V1). split; auto.
Qed.
Definition m_retag : mem := mem_of [(LStack 0, VRef (LGlobal 0)); (LStack 1, VFlt 1069547520); (LGlobal 0, VInt 1)] [].
Theorem comparison_modifies_operand_refuted : forall pbits obj_hash, exists m l r v,
  visible l /\ visible r /\ visible v /\ denotes m (mv m l) (NI 1) /\ denotes m (mv m r) (NF 1069547520) /\
  mv m l = VRef v /\ mv m v = VInt 1 /\
  exists K, forall fuel, (K <= fuel)%nat -> exists b m',
    eval_cmp pbits obj_hash CLt fuel l r m = Ok (b, m') /\ mv m' v = VFlt 1.
Proof.
  intros. exists m_retag, (LStack 0), (LStack 1), (LGlobal 0).
  do 3 (split; [exact I|]). split; [apply (D_ref m_retag (LGlobal 0)); [exact I|]; apply (D_num m_retag (NI 1)); cbn; unfold is_s32; lia|].
  split; [apply (D_num m_retag (NF 1069547520)); exact I|]. do 2 (split; [reflexivity|]).
  with_fuel 5%nat. eexists _, _. split; reflexivity.
Qed.

(* ============ C17: compound assignment ============ *)
(* `target op= operand`: the instruction's stack slots are [to] and [from]; the result is left
   in [from].  j references lead from [to] to the target, k from [from] to the operand. *)
Theorem compound_assign_partial pbits obj_hash as_string trap b x y z m to from j r c k w :
  visible to -> visible from -> to <> from ->
  reaches m from to j r -> cell_of m r (mv m r) c -> mv m c = of_number x -> number_ok x ->
  visible c -> c <> from -> (forall a s, mv m r = VMem a s -> a <> from) ->
  operand m (mv m from) k w y ->
  (* missing: container element op= anything but a temporary number, and operands reached through
     more references than the target *)
  (is_member (mv m r) = true -> w = of_number y /\ (k <= j)%nat) ->
  ((k <= j)%nat \/ k = S j /\ w = of_number y /\ (is_NI x = true \/ is_NI y = false)) ->
  (b = BDiv -> trap = true -> is_zero y = false) -> (b = BMul -> ~ overflows b x y) ->
  spec_bin b x y = Some z ->
  exists K, forall fuel, (K <= fuel)%nat -> exists m',
    eval_assign pbits obj_hash as_string trap b fuel to from m = Ok m' /\
    mv m' c = of_number z /\ unchanged_except [c; from] m m' /\
    ((0 < j)%nat \/ is_member (mv m r) = true \/ is_member w = true -> denotes m' (mv m' from) z).
Proof.
  intros Vt Vf Ntf R C Ex Hx Vc Ncf Hav (B&Dw&Hw) Hm Hk Htr Hov Hs.
  pose proof (denotes_ok _ _ _ Dw) as Hy.
  pose proof (spec_bin_ok b x y z Hx Hy Hs) as Hz.
  assert (P: plain m (mv m from) k w y) by (split; [now apply leads_vbehind|auto]).
  destruct (is_arith b) eqn:Ha.
  - assert (L: forall o, (o = op_of b \/ b = BMul /\ o = mul_assign_op) -> leaf trap o (type_of (of_number x)) (type_of (of_number y)) (bits pbits (of_number x)) (bits pbits (of_number y)) = Some (of_number z)).
    { intros o [-> |[-> ->]]; [now apply leaf_spec|].
      pose proof (c_leaf_spec pbits BMul x y z Hx Hy (Hov eq_refl) Hs) as L0. rewrite <- L0.
      destruct x, y; reflexivity. }
    destruct b; try discriminate; unfold eval_assign; cbn [op_of] in L;
      (refine (aa_main pbits obj_hash as_string trap _ _ x y z _ m from c Vf Hx Hz Ex Vc Ncf j to r R Vt Ntf C Hav k w P Hm Hk); apply L; auto).
  - destruct x as [a|], y as [b0|]; try (destruct b; discriminate).
    assert (E: exists d, spec_int b a b0 = Some d /\ z = NI d).
    { cbn [spec_bin] in Hs. destruct (spec_int b a b0) as [d|]; [|discriminate]. exists d. injection Hs as <-. auto. }
    destruct E as (d&E&->).
    assert (L: int_fn b (u32 a) (u32 b0) = Some (u32 d)) by (apply int_fn_spec; auto).
    assert (Hk': (k <= j)%nat \/ k = S j /\ w = of_number (NI b0) /\ True) by (destruct Hk as [Hk|(Hk&Hk1&_)]; auto).
    destruct (la_main pbits obj_hash (int_fn b) a b0 d L m from c Vf Hx Hz Ex Vc Ncf j to r R Vt Ntf C Hav k w P Hm Hk') as [K G].
    exists K. intros fuel Hf. destruct (G fuel Hf) as (M'&G1&G2). exists M'. split; [|exact G2].
    unfold eval_assign. destruct b; try discriminate; exact G1.
Qed.
Definition m_compound : mem := mem_of [(LStack 0, VRef (LGlobal 0)); (LStack 1, VRef (LGlobal 1)); (LGlobal 0, VInt 30); (LGlobal 1, VInt 5)] [].
Example compound_assign_case : 
  reaches m_compound (LStack 1) (LStack 0) 1 (LGlobal 0) /\ cell_of m_compound (LGlobal 0) (mv m_compound (LGlobal 0)) (LGlobal 0) /\
  mv m_compound (LGlobal 0) = of_number (NI 30) /\ operand m_compound (mv m_compound (LStack 1)) 1 (VInt 5) (NI 5) /\
  spec_bin BSub (NI 30) (NI 5) = Some (NI 25).
Proof.
  split. { apply (R_ref _ _ _ (LGlobal 0)); [reflexivity|exact I|discriminate|]. apply R_here. discriminate. }
  split; [apply (C_var _ _ (NI 30))|]. split; [reflexivity|]. split; [|reflexivity].
  split; [apply (L_ref _ (LGlobal 1)); [exact I|]; apply L_here; discriminate|]. split; [|left; reflexivity].
  apply (D_num _ (NI 5)). cbn; unfold is_s32; lia.
Qed.

Definition m_elem (from : value) : mem :=
  mem_of [(LStack 0, VMem (LGlobal 0) 0); (LStack 1, from); (LGlobal 0, VArr 7); (LGlobal 1, VInt 5);
          (LElem 7 0, VInt 30); (LElem 7 1, VInt 4)] [(7%nat, OVal 3)].
(* a[0] += y overwrites y *)
Theorem compound_assign_overwrites_variable_refuted : forall pbits obj_hash as_string trap,
  exists m to from a y, visible to /\ visible from /\ denotes m (mv m to) (NI 30) /\
    mv m to = VMem a 0 /\ mv m from = VRef y /\ visible y /\ mv m y = VInt 5 /\
    exists K, forall fuel, (K <= fuel)%nat -> exists m',
      eval_assign pbits obj_hash as_string trap BAdd fuel to from m = Ok m' /\ mv m' y = VInt 35.
Proof.
  intros. exists (m_elem (VRef (LGlobal 1))), (LStack 0), (LStack 1), (LGlobal 0), (LGlobal 1).
  do 2 (split; [exact I|]). split; [apply (D_elem _ (LGlobal 0) 0 7 3 (NI 30)); cbn; auto with arith; unfold is_s32; lia|].
  do 4 (split; [solve [reflexivity|exact I]|]). with_fuel 8%nat. run. lazy; reflexivity.
Qed.
(* a[0] -= a[1] with a = {30, 4, 0} leaves 0 in a[0] instead of 26 *)
Theorem compound_assign_elements_refuted : forall pbits obj_hash as_string trap,
  exists m to from a id, visible to /\ visible from /\ mv m to = VMem a 0 /\ mv m from = VMem a 1 /\
    visible a /\ mv m a = VArr id /\ mo m id = Some (OVal 3) /\
    mv m (LElem id 0) = VInt 30 /\ mv m (LElem id 1) = VInt 4 /\
    exists K, forall fuel, (K <= fuel)%nat -> exists m',
      eval_assign pbits obj_hash as_string trap BSub fuel to from m = Ok m' /\ mv m' (LElem id 0) = VInt 0.
Proof.
  intros. exists (m_elem (VMem (LGlobal 0) 1)), (LStack 0), (LStack 1), (LGlobal 0), 7%nat.
  do 9 (split; [solve [reflexivity|exact I]|]). with_fuel 8%nat. run. lazy; reflexivity.
Qed.
(* a[0] += a[1] overwrites a[1] as well *)
Theorem compound_assign_overwrites_element_refuted : forall pbits obj_hash as_string trap,
  exists m to from a id, visible to /\ visible from /\ mv m to = VMem a 0 /\ mv m from = VMem a 1 /\
    visible a /\ mv m a = VArr id /\ mo m id = Some (OVal 3) /\
    mv m (LElem id 0) = VInt 30 /\ mv m (LElem id 1) = VInt 4 /\
    exists K, forall fuel, (K <= fuel)%nat -> exists m',
      eval_assign pbits obj_hash as_string trap BAdd fuel to from m = Ok m' /\ mv m' (LElem id 1) = VInt 34.
Proof.
  intros. exists (m_elem (VMem (LGlobal 0) 1)), (LStack 0), (LStack 1), (LGlobal 0), 7%nat.
  do 9 (split; [solve [reflexivity|exact I]|]). with_fuel 8%nat. run. lazy; reflexivity.
Qed.
(* s[0] += 3 on a string leaves the string as it was *)
Theorem compound_assign_string_element_refuted : forall pbits obj_hash as_string trap,
  exists m to from a id, visible to /\ visible from /\ mv m to = VMem a 0 /\ mv m from = VInt 3 /\
    visible a /\ mv m a = VArr id /\ mo m id = Some (OChar [65; 66] false) /\
    exists K, forall fuel, (K <= fuel)%nat -> exists m',
      eval_assign pbits obj_hash as_string trap BAdd fuel to from m = Ok m' /\ mo m' id = Some (OChar [65; 66] false).
Proof.
  intros. exists (mem_of [(LStack 0, VMem (LGlobal 0) 0); (LStack 1, VInt 3); (LGlobal 0, VArr 7)] [(7%nat, OChar [65; 66] false)]), (LStack 0), (LStack 1), (LGlobal 0), 7%nat.
  do 7 (split; [solve [reflexivity|exact I]|]). with_fuel 8%nat. run. lazy; reflexivity.
Qed.
(* x *= y with an overflowing product is undefined behaviour, although x * y is not *)
Theorem multiply_assign_overflow_refuted : forall pbits obj_hash as_string trap,
  exists m to from x, visible to /\ visible from /\ mv m to = VRef x /\ visible x /\ mv m x = VInt 65536 /\ mv m from = VInt 65536 /\
    exists K, forall fuel, (K <= fuel)%nat ->
      eval_assign pbits obj_hash as_string trap BMul fuel to from m = UB /\
      exists m', eval_bin pbits obj_hash as_string trap BMul fuel to from to m = Ok m' /\ mv m' to = VInt 0.
Proof.
  intros. exists (mem_of [(LStack 0, VRef (LGlobal 0)); (LStack 1, VInt 65536); (LGlobal 0, VInt 65536)] []), (LStack 0), (LStack 1), (LGlobal 0).
  do 6 (split; [solve [reflexivity|exact I]|]). with_fuel 8%nat. split; [reflexivity|]. run. lazy; reflexivity.
Qed.

(* ============ C18: division by zero ============ *)
Theorem division_by_zero_is_zero pbits obj_hash as_string x y m l r t :
  visible l -> visible r -> denotes m (mv m l) x -> denotes m (mv m r) y -> is_zero y = true ->
  exists K, forall fuel, (K <= fuel)%nat -> exists m',
    eval_bin pbits obj_hash as_string false BDiv fuel l r t m = Ok m' /\
    mv m' t = (if is_NI x && is_NI y then VInt 0 else VFlt 0) /\ unchanged_except [t] m m'.
Proof.
  intros Vl Vr Dx Dy Hz.
  assert (S: spec_bin BDiv x y = Some (if is_NI x && is_NI y then NI 0 else NF 0)).
  { destruct x, y; cbn in *; rewrite Hz; reflexivity. }
  destruct (arithmetic_every_form pbits obj_hash as_string false BDiv x y _ m l r t eq_refl Vl Vr Dx Dy ltac:(discriminate) S) as [K G].
  exists K. intros fuel Hf. destruct (G fuel Hf) as (m'&E1&E2&E3). exists m'. split; auto. split; auto. rewrite E2.
  destruct (is_NI x && is_NI y); reflexivity.
Qed.
(* with the trap compiled in, the result is the invalid value the VM reports as an error *)
Theorem division_by_zero_traps pbits obj_hash as_string x y m l r t :
  visible l -> visible r -> denotes m (mv m l) x -> denotes m (mv m r) y -> is_zero y = true ->
  exists K, forall fuel, (K <= fuel)%nat -> exists m',
    eval_bin pbits obj_hash as_string true BDiv fuel l r t m = Ok m' /\
    mv m' t = VInvalid /\ unchanged_except [t] m m'.
Proof.
  intros Vl Vr Dx Dy Hz.
  pose proof (leaf_trap pbits x y (denotes_ok _ _ _ Dx) (denotes_ok _ _ _ Dy) Hz) as L.
  destruct (arith_table pbits obj_hash as_string true div_op x y VInvalid m t L _ _ Dx Dy) as [k G]. exists k.
  intros fuel Hf. destruct (G fuel l r Hf Vl Vr eq_refl eq_refl) as (q&E1&E2&E3). exists q. auto.
Qed.
(* x /= 0 stores 0 *)
Theorem divide_assign_by_zero_partial pbits obj_hash as_string x y m to from j r c k w :
  visible to -> visible from -> to <> from ->
  reaches m from to j r -> cell_of m r (mv m r) c -> mv m c = of_number x -> number_ok x ->
  visible c -> c <> from -> (forall a s, mv m r = VMem a s -> a <> from) ->
  operand m (mv m from) k w y ->
  (is_member (mv m r) = true -> w = of_number y /\ (k <= j)%nat) ->
  ((k <= j)%nat \/ k = S j /\ w = of_number y /\ (is_NI x = true \/ is_NI y = false)) ->
  is_zero y = true ->
  exists K, forall fuel, (K <= fuel)%nat -> exists m',
    eval_assign pbits obj_hash as_string false BDiv fuel to from m = Ok m' /\
    mv m' c = (if is_NI x && is_NI y then VInt 0 else VFlt 0) /\ unchanged_except [c; from] m m'.
Proof.
  intros Vt Vf Ntf R C Ex Hx Vc Ncf Hav P Hm Hk Hz.
  assert (S: spec_bin BDiv x y = Some (if is_NI x && is_NI y then NI 0 else NF 0)).
  { destruct x, y; cbn in *; rewrite Hz; reflexivity. }
  destruct (compound_assign_partial pbits obj_hash as_string false BDiv x y _ m to from j r c k w Vt Vf Ntf R C Ex Hx Vc Ncf Hav P Hm Hk ltac:(discriminate) ltac:(discriminate) S) as [K G].
  exists K. intros fuel Hf. destruct (G fuel Hf) as (m'&E1&E2&E3&_). exists m'. split; auto. split; auto. rewrite E2.
  destruct (is_NI x && is_NI y); reflexivity.
Qed.
Example division_by_zero_case : is_zero (NF 2147483648) = true /\ is_zero (NI 0) = true /\ is_zero (NF 1) = false.
Proof. repeat split. Qed.
(* x % 0 is undefined behaviour (SIGFPE) whatever x is, trap or not *)
Theorem mod_by_zero_refuted : forall pbits obj_hash as_string trap x, is_s32 x -> exists m l r,
  visible l /\ visible r /\ denotes m (mv m l) (NI x) /\ denotes m (mv m r) (NI 0) /\
  forall t fuel, (2 <= fuel)%nat -> eval_bin pbits obj_hash as_string trap BMod fuel l r t m = UB.
Proof.
  intros pbits obj_hash as_string trap x Hx. set (m := mem_of [(LStack 0, VInt (u32 x)); (LStack 1, VInt 0)] []).
  exists m, (LStack 0), (LStack 1). do 2 (split; [exact I|]).
  split; [apply (D_num m (NI x)); exact Hx|]. split; [apply (D_num m (NI 0)); cbn; unfold is_s32; lia|].
  intros t fuel Hf. destruct fuel as [|[|fuel]]; try lia. reflexivity.
Qed.
(* with the trap, `x /= 0` for a variable x stores the invalid value into x *)
Theorem divide_assign_trap_corrupts_refuted : forall pbits obj_hash as_string, exists m to from x,
  visible to /\ visible from /\ mv m to = VRef x /\ visible x /\ mv m x = VInt 9 /\ mv m from = VInt 0 /\
  exists K, forall fuel, (K <= fuel)%nat -> exists m',
    eval_assign pbits obj_hash as_string true BDiv fuel to from m = Ok m' /\ mv m' x = VInvalid.
Proof.
  intros. exists (mem_of [(LStack 0, VRef (LGlobal 0)); (LStack 1, VInt 0); (LGlobal 0, VInt 9)] []), (LStack 0), (LStack 1), (LGlobal 0).
  do 6 (split; [solve [reflexivity|exact I]|]). with_fuel 8%nat. run. lazy; reflexivity.
Qed.

(* ============ C19: the compact build ============ *)
Theorem compact_binary_agrees_partial pbits obj_hash as_string trap b x y z m l r t :
  visible l -> visible r -> denotes m (mv m l) x -> denotes m (mv m r) y ->
  (is_arith b = false -> ~ element_op_variable m (mv m l) (mv m r)) ->
  (b = BDiv -> trap = true -> is_zero y = false) -> ~ overflows b x y ->
  spec_bin b x y = Some z ->
  exists K, forall fuel, (K <= fuel)%nat -> exists m1 m2,
    eval_bin pbits obj_hash as_string trap b fuel l r t m = Ok m1 /\
    eval_bin_c pbits obj_hash as_string b fuel l r t m = Ok m2 /\
    mv m1 t = of_number z /\ mv m2 t = of_number z /\
    unchanged_except [t] m m1 /\ unchanged_except [t] m m2.
Proof.
  intros Vl Vr Dx Dy Hbad Htr Hov Hs.
  assert (F: exists K, forall fuel, (K <= fuel)%nat -> exists m',
    eval_bin pbits obj_hash as_string trap b fuel l r t m = Ok m' /\ mv m' t = of_number z /\ unchanged_except [t] m m').
  { destruct (is_arith b) eqn:Ha; [now apply (arithmetic_every_form pbits obj_hash as_string trap b x y z)|].
    destruct x as [a|], y as [b0|]; try (destruct b; discriminate).
    cbn [spec_bin] in Hs. destruct (spec_int b a b0) as [d|] eqn:E; [|discriminate]. injection Hs as <-.
    apply (integer_operators_partial pbits obj_hash as_string trap b a b0 d); auto. }
  pose proof (c_leaf_spec pbits b x y z (denotes_ok _ _ _ Dx) (denotes_ok _ _ _ Dy) Hov Hs) as L.
  destruct (cbin_table pbits obj_hash as_string _ x y z m t L _ _ Dx Dy) as [k2 G].
  destruct F as [k1 F]. exists (k1 + k2)%nat. intros fuel Hf.
  destruct (F fuel ltac:(lia)) as (m1&F1&F2&F3).
  destruct (G fuel l r ltac:(lia) Vl Vr eq_refl eq_refl) as (m2&G1&G2&G3). exists m1, m2. auto 10.
Qed.
Theorem compact_assign_agrees_partial pbits obj_hash as_string trap b x y z m to from j r c k w :
  visible to -> visible from -> to <> from ->
  reaches m from to j r -> cell_of m r (mv m r) c -> mv m c = of_number x -> number_ok x ->
  visible c -> c <> from -> (forall a s, mv m r = VMem a s -> a <> from) ->
  operand m (mv m from) k w y ->
  (is_member (mv m r) = true -> w = of_number y /\ (k <= j)%nat) ->
  ((k <= j)%nat \/ k = S j /\ w = of_number y /\ (is_NI x = true \/ is_NI y = false)) ->
  (b = BDiv -> trap = true -> is_zero y = false) -> ~ overflows b x y ->
  spec_bin b x y = Some z ->
  exists K, forall fuel, (K <= fuel)%nat -> exists m1 m2,
    eval_assign pbits obj_hash as_string trap b fuel to from m = Ok m1 /\
    eval_assign_c pbits obj_hash as_string b fuel to from m = Ok m2 /\
    mv m1 c = of_number z /\ mv m2 c = of_number z /\
    unchanged_except [c; from] m m1 /\ unchanged_except [c; from] m m2.
Proof.
  intros Vt Vf Ntf R C Ex Hx Vc Ncf Hav P Hm Hk Htr Hov Hs.
  destruct (compound_assign_partial pbits obj_hash as_string trap b x y z m to from j r c k w Vt Vf Ntf R C Ex Hx Vc Ncf Hav P Hm Hk Htr (fun _ => Hov) Hs) as [k1 F].
  destruct P as (B&Dw&Hw). pose proof (denotes_ok _ _ _ Dw) as Hy. pose proof (spec_bin_ok b x y z Hx Hy Hs) as Hz.
  assert (P: plain m (mv m from) k w y) by (split; [now apply leads_vbehind|auto]).
  assert (Hk': (k <= j)%nat \/ k = S j /\ w = of_number y /\ True) by (destruct Hk as [Hk|(Hk&Hk1&_)]; auto).
  destruct (ca_main pbits obj_hash as_string (call_of b) x y z (c_leaf_spec pbits b x y z Hx Hy Hov Hs) m from c Vf Hx Hz Ex Vc Ncf j to r R Vt Ntf C Hav k w P Hm Hk') as [k2 G].
  exists (k1 + k2)%nat. intros fuel Hf.
  destruct (F fuel ltac:(lia)) as (m1&F1&F2&F3&_). destruct (G fuel ltac:(lia)) as (m2&G1&G2&G3&_). exists m1, m2. auto 10.
Qed.
Theorem compact_comparison_agrees_partial pbits obj_hash stale c x y m l r :
  visible l -> visible r -> denotes m (mv m l) x -> denotes m (mv m r) y ->
  ((c <> CAnd /\ c <> COr) \/ (is_NI x = true /\ is_NI y = true)) ->
  exists K, forall fuel, (K <= fuel)%nat -> exists b m1 m2,
    eval_cmp pbits obj_hash c fuel l r m = Ok (b, m1) /\
    eval_cmp_c pbits obj_hash stale c fuel l r m = Ok (b, m2) /\ unchanged_except [] m m2.
Proof.
  intros Vl Vr Dx Dy Hc.
  destruct (comparison_every_form pbits obj_hash c x y m l r Vl Vr Dx Dy) as [k1 F].
  unfold eval_cmp_c. destruct (OpsModel.cmp_table c) as [o inv] eqn:E.
  destruct (ccmp_table pbits obj_hash (fun _ _ => nil) (c_ii o) (match c with CAnd | COr => stale | _ => c_ff o end) x y m _ _ Dx Dy) as [k2 G].
  exists (k1 + k2)%nat. intros fuel Hf. destruct (F fuel ltac:(lia)) as (m1&F1).
  destruct (G fuel l r ltac:(lia) Vl Vr eq_refl eq_refl) as ([b m2]&G1&G2&G3).
  exists (spec_cmp c x y), m1, m2. split; auto. rewrite G1. cbn [bind fst] in *.
  split; [|destruct G3 as (V&V1); split; auto].
  do 2 f_equal. rewrite <- (cmp_table_spec c x y o inv (denotes_ok _ _ _ Dx) (denotes_ok _ _ _ Dy) E), G2. f_equal.
  unfold cbres, bres. destruct Hc as [[H1 H2]|[H1 H2]].
  - destruct c; try congruence; cbn in E; injection E as <- <-; destruct x, y; reflexivity.
  - destruct x, y; try discriminate. reflexivity.
Qed.
(* 2147483647 + 1 : the full build wraps, the compact one overflows a signed int *)
Theorem compact_overflow_refuted : forall pbits obj_hash as_string trap, exists m l r, visible l /\ visible r /\
  denotes m (mv m l) (NI 2147483647) /\ denotes m (mv m r) (NI 1) /\
  forall t fuel, (2 <= fuel)%nat ->
    eval_bin_c pbits obj_hash as_string BAdd fuel l r t m = UB /\
    exists m', eval_bin pbits obj_hash as_string trap BAdd fuel l r t m = Ok m' /\ mv m' t = VInt 2147483648.
Proof.
  intros. set (m := mem_of [(LStack 0, VInt 2147483647); (LStack 1, VInt 1)] []).
  exists m, (LStack 0), (LStack 1). do 2 (split; [exact I|]).
  split; [apply (D_num m (NI 2147483647)); cbn; unfold is_s32; lia|]. split; [apply (D_num m (NI 1)); cbn; unfold is_s32; lia|].
  intros t fuel Hf. destruct fuel as [|[|fuel]]; try lia. split; [reflexivity|]. eexists. split; [reflexivity|].
  change (mv (wr m t (VInt 2147483648)) t = VInt 2147483648). apply wr_same.
Qed.
(* 1.0 % 1 : the full build leaves the result slot as it was, the compact one stores 0.0 *)
Theorem compact_float_mod_refuted : forall pbits obj_hash as_string trap, exists m l r t, visible l /\ visible r /\
  denotes m (mv m l) (NF 1065353216) /\ denotes m (mv m r) (NI 1) /\
  forall fuel, (2 <= fuel)%nat -> exists m1 m2,
    eval_bin pbits obj_hash as_string trap BMod fuel l r t m = Ok m1 /\ mv m1 t = VInt 1 /\
    eval_bin_c pbits obj_hash as_string BMod fuel l r t m = Ok m2 /\ mv m2 t = VFlt 0.
Proof.
  intros. set (m := mem_of [(LStack 0, VFlt 1065353216); (LStack 1, VInt 1)] []).
  exists m, (LStack 0), (LStack 1), (LStack 1). do 2 (split; [exact I|]).
  split; [apply (D_num m (NF 1065353216)); exact I|]. split; [apply (D_num m (NI 1)); cbn; unfold is_s32; lia|].
  intros fuel Hf. destruct fuel as [|[|fuel]]; try lia. eexists _, _.
  split; [reflexivity|]. split; [reflexivity|]. split; reflexivity.
Qed.
(* `a && b` with a float operand uses whichever float comparison was executed before it *)
Theorem compact_float_and_refuted : forall pbits obj_hash, exists m l r, visible l /\ visible r /\
  denotes m (mv m l) (NF 1065353216) /\ denotes m (mv m r) (NF 1065353216) /\
  forall stale, stale 1065353216 1065353216 = false ->
  exists K, forall fuel, (K <= fuel)%nat -> exists m1 m2,
    eval_cmp pbits obj_hash CAnd fuel l r m = Ok (true, m1) /\
    eval_cmp_c pbits obj_hash stale CAnd fuel l r m = Ok (false, m2).
Proof.
  intros. set (m := mem_of [(LStack 0, VFlt 1065353216); (LStack 1, VFlt 1065353216)] []).
  exists m, (LStack 0), (LStack 1). do 2 (split; [exact I|]).
  assert (D: forall i, (i <= 1)%nat -> denotes m (mv m (LStack i)) (NF 1065353216)).
  { intros i Hi. destruct i as [|[|i]]; try lia; apply (D_num m (NF 1065353216)); exact I. }
  split; [apply (D 0%nat); lia|]. split; [apply (D 1%nat); lia|]. intros stale Hs.
  destruct (comparison_every_form pbits obj_hash CAnd _ _ m (LStack 0) (LStack 1) I I (D 0%nat ltac:(lia)) (D 1%nat ltac:(lia))) as [k1 F].
  destruct (ccmp_table pbits obj_hash (fun _ _ => nil) (c_ii and_op) stale _ _ m _ _ (D 0%nat ltac:(lia)) (D 1%nat ltac:(lia))) as [k2 G].
  exists (k1 + k2)%nat. intros fuel Hf. destruct (F fuel ltac:(lia)) as (m1&F1).
  destruct (G fuel (LStack 0) (LStack 1) ltac:(lia) I I eq_refl eq_refl) as ([b m2]&G1&G2&_).
  exists m1, m2. split; [exact F1|]. unfold eval_cmp_c. cbn [OpsModel.cmp_table]. rewrite G1. cbn [bind fst cbres] in *. rewrite G2, Hs. reflexivity.
Qed.

(* ============ C47: plain assignment ============ *)
(* x = e for a number e: through any chain of references on both sides, into a variable (whatever it
   held), an array element or a hash table entry; nothing else changes *)
Theorem assign_every_form pbits y m to from j r k w c :
  visible to -> visible from -> reaches m LTemp2 to j r -> store_cell m r (mv m r) c ->
  operand m (mv m from) k w y ->
  exists K, forall fuel, (K <= fuel)%nat -> exists m',
    wr_assign pbits fuel (type_of (mv m to)) (type_of (mv m from)) to from m = Ok m' /\
    mv m' c = of_number y /\ unchanged_except [c] m m'.
Proof.
  intros Vt Vf R C (B&Dw&Hw).
  destruct (assign_chain pbits (fun _ _ => 0) m y (j + k) to j r k from w c (le_n _) R (leads_vbehind _ _ _ _ B) Vt Vf Dw Hw C) as [K G].
  exists K. intros fuel Hf. destruct (G fuel Hf) as (m'&E1&E2&E3&E4). exists m'. split; auto. split; auto. split; [|exact E4].
  intros l Vl N. apply E3; auto. intros ->. apply N. now left.
Qed.
Example assign_case :
  let m := mem_of [(LStack 0, VRef (LStack 4)); (LStack 4, VMem (LGlobal 0) 1); (LStack 1, VRef (LGlobal 1)); (LGlobal 1, VFlt 1065353216); (LGlobal 0, VArr 7)] [(7%nat, OVal 3)] in
  reaches m LTemp2 (LStack 0) 1 (LStack 4) /\ store_cell m (LStack 4) (mv m (LStack 4)) (LElem 7 1) /\
  operand m (mv m (LStack 1)) 1 (VFlt 1065353216) (NF 1065353216).
Proof.
  intros m. split; [apply (R_ref _ _ _ (LStack 4)); [reflexivity|exact I|discriminate|]; apply R_here; discriminate|].
  split; [apply (S_elem m (LStack 4) (LGlobal 0) 1 7 3); cbn; auto with arith|].
  split; [apply (L_ref m (LGlobal 1)); [exact I|]; apply L_here; discriminate|]. split; [|left; reflexivity].
  apply (D_num m (NF 1065353216)). exact I.
Qed.

(* ============ C48: ++ and -- ============ *)
(* d = 1 for ++, -1 for --; None when the integer leaves the 32-bit range *)
Definition spec_step (d : Z) (x : number) : option number :=
  match x with
  | NI n => if (-2147483648 <=? n + d) && (n + d <=? 2147483647) then Some (NI (n + d)) else None
  | NF b => Some (NF (if d =? 1 then f32_add b f32_one else f32_sub b f32_one))
  end.
Lemma step_incr d x z : number_ok x -> spec_step d x = Some z -> incr d (of_number x) = Some (of_number z).
Proof.
  destruct x as [n|b]; cbn; intros Hx H.
  - rewrite s32_u32_id by auto. unfold checked, int_min.
    destruct ((-2147483648 <=? n + d) && (n + d <=? 2147483647)); [|discriminate]. injection H as <-. reflexivity.
  - injection H as <-. reflexivity.
Qed.
Theorem post_increment pbits obj_hash d x z m l j r c :
  number_ok x -> spec_step d x = Some z -> visible l ->
  reaches m l l j r -> cell_of m r (mv m r) c -> mv m c = of_number x -> visible c -> c <> l ->
  exists K, forall fuel, (K <= fuel)%nat -> exists m',
    eval_post pbits obj_hash d fuel l m = Ok m' /\
    mv m' c = of_number z /\ mv m' l = of_number x /\ unchanged_except [c; l] m m'.
Proof.
  intros Hx Hz Vl R C Ex Vc Nc.
  destruct (post_main pbits obj_hash d x z Hx (step_incr d x z Hx Hz) m l Vl j l r c R Vl C Ex Vc Nc) as [K G].
  exists K. intros fuel Hf. destruct (G fuel Hf) as (m'&E1&E2&E3&E4&E5). exists m'. do 3 (split; [auto|]). split; [|exact E5].
  intros q Vq N. apply E4; auto; intros ->; apply N; cbn; auto.
Qed.
(* prefix form: at most one reference between the operand and its storage (see
   [pre_increment_reference_refuted] for more) *)
Theorem pre_increment_partial pbits obj_hash d x z m l j r c :
  number_ok x -> spec_step d x = Some z -> visible l ->
  reaches m l l j r -> (j <= 1)%nat -> cell_of m r (mv m r) c -> mv m c = of_number x -> visible c ->
  (j = 0%nat -> is_member (mv m l) = true) -> c <> l ->
  exists K, forall fuel, (K <= fuel)%nat -> exists m',
    eval_pre pbits obj_hash d fuel l m = Ok m' /\
    mv m' c = of_number z /\ unchanged_except [c; l] m m' /\
    (is_member (mv m r) = false -> mv m' l = of_number z).
Proof.
  intros Hx Hz Vl R Hj C Ex Vc H0 Nc.
  destruct (pre_main pbits obj_hash d x z Hx (step_incr d x z Hx Hz) m l j r c R Hj Vl C Ex Vc H0 Nc) as [K G].
  exists K. intros fuel Hf. destruct (G fuel Hf) as (m'&E1&E2&E3&E4&E5). exists m'. do 2 (split; [auto|]). split; [|auto]. split; [|exact E4].
  intros q Vq N. apply E3; auto; intros ->; apply N; cbn; auto.
Qed.
Example increment_case : reaches m_compound (LStack 0) (LStack 0) 1 (LGlobal 0) /\
  cell_of m_compound (LGlobal 0) (mv m_compound (LGlobal 0)) (LGlobal 0) /\ spec_step (-1) (NI 30) = Some (NI 29).
Proof.
  split; [|split; [apply (C_var _ _ (NI 30))|reflexivity]].
  apply (R_ref _ _ _ (LGlobal 0)); [reflexivity|exact I|discriminate|]. apply R_here. discriminate.
Qed.
(* ++p where p is a parameter bound to a variable of the caller: p stops being a reference *)
Theorem pre_increment_reference_refuted : forall pbits obj_hash, exists m l p v,
  visible l /\ visible p /\ visible v /\ mv m l = VRef p /\ mv m p = VRef v /\ mv m v = VInt 4 /\
  exists K, forall fuel, (K <= fuel)%nat -> exists m',
    eval_pre pbits obj_hash 1 fuel l m = Ok m' /\ mv m' v = VInt 5 /\ mv m' p = VInt 5.
Proof.
  intros. exists (mem_of [(LStack 0, VRef (LStack 3)); (LStack 3, VRef (LGlobal 0)); (LGlobal 0, VInt 4)] []), (LStack 0), (LStack 3), (LGlobal 0).
  do 6 (split; [solve [reflexivity|exact I]|]). with_fuel 6%nat. run. split; reflexivity.
Qed.
(* x++ at 2147483647 is signed overflow *)
Theorem increment_overflow_refuted : forall pbits obj_hash, exists m l v,
  visible l /\ visible v /\ mv m l = VRef v /\ mv m v = VInt 2147483647 /\
  forall fuel, (3 <= fuel)%nat -> eval_post pbits obj_hash 1 fuel l m = UB.
Proof.
  intros. exists (mem_of [(LStack 0, VRef (LGlobal 0)); (LGlobal 0, VInt 2147483647)] []), (LStack 0), (LGlobal 0).
  do 4 (split; [solve [reflexivity|exact I]|]). intros fuel Hf. destruct fuel as [|[|[|fuel]]]; try lia. reflexivity.
Qed.

(* ============ C49: unary operators ============ *)
Theorem negate_every_form pbits obj_hash x m l t :
  visible l -> denotes m (mv m l) x ->
  exists K, forall fuel, (K <= fuel)%nat -> exists m',
    negate pbits obj_hash fuel (type_of (mv m l)) l t m = Ok m' /\
    mv m' t = of_number (match x with NI a => NI (s32 (- a)) | NF b => NF (f32_neg b) end) /\ unchanged_except [t] m m'.
Proof.
  intros Vl D. destruct (unary_chain pbits obj_hash (fun _ _ => nil) m _ x D) as [K G].
  exists K. intros fuel Hf. destruct (G fuel l Hf eq_refl Vl) as (_&_&H). apply H.
Qed.
Theorem bitwise_not_every_form pbits obj_hash a m l :
  visible l -> denotes m (mv m l) (NI a) ->
  exists K, forall fuel, (K <= fuel)%nat -> exists m',
    bitwise_not pbits obj_hash fuel (type_of (mv m l)) l m = Ok (u32 (Z.lnot a), m') /\ unchanged_except [] m m'.
Proof.
  intros Vl D. destruct (unary_chain pbits obj_hash (fun _ _ => nil) m _ _ D) as [K G].
  exists K. intros fuel Hf. destruct (G fuel l Hf eq_refl Vl) as (_&(m'&H&H2)&_). exists m'. split; [|exact H2]. rewrite H. do 2 f_equal.
  unfold Z.lnot, u32. pose proof (denotes_ok _ _ _ D) as Ha. cbn in Ha. unfold is_s32 in Ha. lia.
Qed.
Theorem logical_not_partial pbits obj_hash x m l :
  visible l -> denotes m (mv m l) x -> x <> NF 2147483648 -> (forall b, x = NF b -> is_u32 b) ->
  exists K, forall fuel, (K <= fuel)%nat -> exists m',
    logical_not pbits obj_hash fuel (type_of (mv m l)) l m = Ok (is_zero x, m') /\ unchanged_except [] m m'.
Proof.
  intros Vl D Nz Hu. destruct (unary_chain pbits obj_hash (fun _ _ => nil) m _ x D) as [K G].
  exists K. intros fuel Hf. destruct (G fuel l Hf eq_refl Vl) as ((m'&H&H2)&_). exists m'. split; [|exact H2]. rewrite H. do 2 f_equal.
  pose proof (denotes_ok _ _ _ D) as Hx. destruct x as [a|b]; cbn [of_number bits is_zero number_ok] in *; [now apply u32_zero|].
  specialize (Hu b eq_refl). assert (Nb: b <> 2147483648) by congruence. unfold is_u32 in Hu. clear -Hu Nb.
  unfold f32_true, f32_decode.
  destruct (Z.eqb_spec ((b / 8388608) mod 256) 255).
  { destruct (Z.eqb_spec (b mod 8388608) 0); cbn; lia. }
  destruct (Z.eqb_spec ((b / 8388608) mod 256) 0).
  { destruct (b mod 8388608) as [|p|p] eqn:E; cbn; lia. }
  destruct (b mod 8388608 + 8388608) as [|p|p] eqn:E; cbn; lia.
Qed.
Example unary_case : s32 (- -2147483648) = -2147483648 /\ u32 (Z.lnot 0) = 4294967295 /\ is_zero (NI 0) = true.
Proof. repeat split. Qed.
(* -0.0 is false as a condition of && but !(-0.0) is false too *)
Theorem logical_not_negative_zero_refuted : forall pbits obj_hash, exists m l, visible l /\
  denotes m (mv m l) (NF 2147483648) /\ is_zero (NF 2147483648) = true /\
  forall fuel, (2 <= fuel)%nat -> exists m', logical_not pbits obj_hash fuel (type_of (mv m l)) l m = Ok (false, m').
Proof.
  intros. exists (mem_of [(LStack 0, VFlt 2147483648)] []), (LStack 0). split; [exact I|].
  split; [apply (D_num _ (NF 2147483648)); exact I|]. split; [reflexivity|].
  intros fuel Hf. destruct fuel as [|[|fuel]]; try lia. eexists. reflexivity.
Qed.

(* ============ C46: strings ============ *)
(* == on strings holds of equal contents, through any references; it compares 32-bit hashes *)
Theorem string_equality_partial pbits obj_hash m l r j k i1 b1 n1 i2 b2 n2 :
  visible l -> visible r -> leads m (mv m l) j (VArr i1) -> leads m (mv m r) k (VArr i2) ->
  mo m i1 = Some (OChar b1 n1) -> mo m i2 = Some (OChar b2 n2) ->
  exists K, forall fuel, (K <= fuel)%nat -> exists e m',
    eval_cmp pbits obj_hash CEq fuel l r m = Ok (e, m') /\ unchanged_except [] m m' /\
    (b1 = b2 -> e = true) /\ (wr_hash b1 0 <> wr_hash b2 0 -> e = false).
Proof.
  intros Vl Vr L1 L2 E1 E2. exists (j + k + 4)%nat. intros fuel Hf.
  destruct (str_eq pbits obj_hash (fun _ _ => nil) m i1 b1 n1 i2 b2 n2 E1 E2 (j + k) j k l r (le_n _) L1 L2 Vl Vr fuel Hf) as (m'&H&H2).
  unfold eval_cmp. cbn [OpsModel.cmp_table]. rewrite H. cbn [bind xorb]. exists (s32 (wr_hash b1 0) =? s32 (wr_hash b2 0)), m'. split; [now destruct (_ =? _)|]. split; [exact H2|].
  split; [intros ->; apply Z.eqb_refl|]. intros N. apply Z.eqb_neq. intros E. apply N.
  pose proof (wr_hash_u32 b1 0 ltac:(unfold is_u32; lia)). pose proof (wr_hash_u32 b2 0 ltac:(unfold is_u32; lia)).
  rewrite <- (u32_id (wr_hash b1 0)), <- (u32_id (wr_hash b2 0)) by auto. rewrite <- (u32_s32 (wr_hash b1 0)), <- (u32_s32 (wr_hash b2 0)). congruence.
Qed.

Definition costarring := [99;111;115;116;97;114;114;105;110;103].
Definition liquid := [108;105;113;117;105;100].
Definition m_str (b1 b2 : list Z) : mem :=
  mem_of [(LStack 0, VRef (LGlobal 0)); (LStack 1, VArr 8); (LGlobal 0, VArr 7)] [(7%nat, OChar b1 false); (8%nat, OChar b2 false)].
Example string_equality_case b1 b2 : leads (m_str b1 b2) (mv (m_str b1 b2) (LStack 0)) 1 (VArr 7) /\
  leads (m_str b1 b2) (mv (m_str b1 b2) (LStack 1)) 0 (VArr 8) /\ wr_hash [104;105] 0 <> wr_hash [104;111] 0.
Proof.
  split; [apply (L_ref _ (LGlobal 0)); [exact I|]; apply L_here; discriminate|]. split; [apply L_here; discriminate|].
  vm_compute. discriminate.
Qed.
Theorem string_equality_refuted : forall pbits obj_hash, exists m l r i1 i2,
  visible l /\ visible r /\ leads m (mv m l) 1 (VArr i1) /\ leads m (mv m r) 0 (VArr i2) /\
  mo m i1 = Some (OChar costarring false) /\ mo m i2 = Some (OChar liquid false) /\ costarring <> liquid /\
  exists K, forall fuel, (K <= fuel)%nat -> exists m', eval_cmp pbits obj_hash CEq fuel l r m = Ok (true, m').
Proof.
  intros. exists (m_str costarring liquid), (LStack 0), (LStack 1), 7%nat, 8%nat.
  destruct (string_equality_case costarring liquid) as (L1&L2&_).
  do 2 (split; [exact I|]). split; [exact L1|]. split; [exact L2|]. do 2 (split; [reflexivity|]). split; [discriminate|].
  exists 8%nat. intros fuel Hf.
  destruct (str_eq pbits obj_hash (fun _ _ => nil) (m_str costarring liquid) 7 costarring false 8 liquid false eq_refl eq_refl 1 1 0 (LStack 0) (LStack 1) (le_n _) L1 L2 I I fuel ltac:(lia)) as (m'&H&_).
  assert (E: s32 (wr_hash costarring 0) =? s32 (wr_hash liquid 0) = true) by (vm_compute; reflexivity).
  rewrite E in H. unfold eval_cmp. cbn [OpsModel.cmp_table]. rewrite H. exists m'. reflexivity.
Qed.
(* s + t is a new string with the contents of s followed by those of t *)
Theorem string_concatenation pbits obj_hash as_string trap m l r t j k i1 b1 i2 b2 :
  leads m (mv m l) j (VArr i1) -> leads m (mv m r) k (VArr i2) ->
  mo m i1 = Some (OChar b1 false) -> mo m i2 = Some (OChar b2 false) ->
  mo m (mnext m) = None ->
  exists K, forall fuel, (K <= fuel)%nat -> exists m' id,
    eval_bin pbits obj_hash as_string trap BAdd fuel l r t m = Ok m' /\
    mo m id = None /\ mv m' t = VArr id /\ mo m' id = Some (OChar (b1 ++ b2) false) /\
    (forall i, i <> id -> mo m' i = mo m i) /\ (forall q, q <> t -> mv m' q = mv m q) /\ mraw m' = mraw m.
Proof.
  intros L1 L2 E1 E2 F. exists (j + k + 1)%nat. intros fuel Hf. unfold eval_bin.
  rewrite (str_add pbits obj_hash as_string trap m i1 b1 i2 b2 t E1 E2 (j + k) j k l r (le_n _) L1 L2 fuel Hf).
  exists (new_string m (b1 ++ b2) t), (mnext m). split; [reflexivity|]. split; [exact F|].
  unfold new_string. rewrite wr_same. split; [reflexivity|].
  split; [cbn; now destruct (Nat.eq_dec (mnext m) (mnext m))|].
  split; [intros i Hi; cbn; now destruct (Nat.eq_dec i (mnext m))|]. split; [|reflexivity].
  intros q Hq. rewrite wr_other by auto. reflexivity.
Qed.
Example string_concatenation_case : mo (m_str [104] [105]) (mnext (m_str [104] [105])) = None.
Proof. reflexivity. Qed.
(* "a" + 1.5 is not a string: the full build adds the hash of "a" to 1.5 *)
Theorem string_plus_float_refuted : forall pbits obj_hash as_string trap, exists m l r t i,
  visible l /\ visible r /\ mv m l = VArr i /\ mo m i = Some (OChar [97] false) /\ mv m r = VFlt 1069547520 /\
  exists K, forall fuel, (K <= fuel)%nat -> exists m' b,
    eval_bin pbits obj_hash as_string trap BAdd fuel l r t m = Ok m' /\ mv m' t = VFlt b.
Proof.
  intros. exists (mem_of [(LStack 0, VArr 7); (LStack 1, VFlt 1069547520)] [(7%nat, OChar [97] false)]), (LStack 0), (LStack 1), (LStack 1), 7%nat.
  do 5 (split; [solve [reflexivity|exact I]|]). with_fuel 6%nat. eexists _, _. split; [lazy delta beta iota zeta; reflexivity|]. reflexivity.
Qed.

Print Assumptions arithmetic_every_form.
Print Assumptions integer_operators_partial.
Print Assumptions integer_operator_element_variable_refuted.
Print Assumptions comparison_every_form.
Print Assumptions comparison_coherent.
Print Assumptions float_equality_symmetric_refuted.
Print Assumptions comparison_pure_partial.
Print Assumptions comparison_modifies_operand_refuted.
Print Assumptions compound_assign_partial.
Print Assumptions compound_assign_overwrites_variable_refuted.
Print Assumptions compound_assign_elements_refuted.
Print Assumptions compound_assign_overwrites_element_refuted.
Print Assumptions compound_assign_string_element_refuted.
Print Assumptions multiply_assign_overflow_refuted.
Print Assumptions division_by_zero_is_zero.
Print Assumptions division_by_zero_traps.
Print Assumptions divide_assign_by_zero_partial.
Print Assumptions mod_by_zero_refuted.
Print Assumptions divide_assign_trap_corrupts_refuted.
Print Assumptions compact_binary_agrees_partial.
Print Assumptions compact_assign_agrees_partial.
Print Assumptions compact_comparison_agrees_partial.
Print Assumptions compact_overflow_refuted.
Print Assumptions compact_float_mod_refuted.
Print Assumptions compact_float_and_refuted.
Print Assumptions assign_every_form.
Print Assumptions post_increment.
Print Assumptions pre_increment_partial.
Print Assumptions pre_increment_reference_refuted.
Print Assumptions increment_overflow_refuted.
Print Assumptions negate_every_form.
Print Assumptions bitwise_not_every_form.
Print Assumptions logical_not_partial.
Print Assumptions logical_not_negative_zero_refuted.
Print Assumptions string_equality_partial.
Print Assumptions string_equality_refuted.
Print Assumptions string_concatenation.
Print Assumptions string_plus_float_refuted.
