(* The keyhole optimizer on instructions: what it makes of the bytes of the last instructions is one of
   the rules of FuseRules. *)
From Verif Require Import Base BaseLemmas HashModel FloatModel OpsModel VmModel VmSpec EmitModel JumpProofs FuseSpec FuseRules.

Inductive rule : list instr -> list instr -> Prop :=
| r_neg : forall v c v', is_num v = true -> v' = neg_of v -> rule [ILit v c; INeg] [ILit v' c]
| r_var2 : forall q0 a q1 b o, rule [ILoad q0 a; ILoad q1 b; IBin o] [IBin2 o q0 q1 a b]
| r_swap : forall a b o, o = BAdd \/ o = BMul -> rule [ILoad SG a; ILoad SL b; IBin o] [IBin2 o SL SG b a]
| r_skip : forall q0 a q1 b o, rule [ILoad q0 a; ILoad q1 b; IBin o] [IValues q0 q1 a b; IBinSkip o]
| r_cmp2 : forall q a b c, rule [ILoad q a; ILoad q b; ICmp c] [ICmp2 c q a b]
| r_cmpS : forall v c q a k, is_num v = true -> rule [ILit v c; ILoad q a; ICmp k] [ILit v c; ICmpS k q a]
| r_cmpI : forall v c q a k, is_num v = true -> match k with CAnd | COr => False | _ => True end ->
           rule [ILoad q a; ILit v c; ICmp k] [ILit v c; ICmpS (mirror k) q a]
| r_load_pop : forall q n, rule [ILoad q n; IPop] []
| r_lit_pop : forall v c, rule [ILit v c; IPop] []
| r_lib_pop : forall a h, rule [ILib false a h; IPop] [ILib true a h]
| r_inc_pre : forall d q n, rule [ILoad q n; IPre d; IPop] [IIncVar d q n]
| r_inc_post : forall d q n, rule [ILoad q n; IPost d; IPop] [IIncVar d q n]
| r_pre_pop : forall d, rule [IPre d; IPop] [IPrePop d]
| r_post_pop : forall d, rule [IPost d; IPop] [IPrePop d]
| r_lit_to : forall v c q n, is_num v = true -> rule [ILit v c; ILoad q n; IAssign; IPop] [ILitTo q n v]
| r_assign_to : forall q n, rule [ILoad q n; IAssign; IPop] [IAssignTo q n]
| r_bin_store : forall o q n, o = BAdd \/ o = BSub \/ o = BMul \/ o = BDiv -> rule [IBin o; ILoad q n; IAssign; IPop] [IBinStore o q n]
| r_assign_pop : rule [IAssign; IPop] [IAssignPop]
| r_compound_pop : forall b, rule [ICompound b; IPop] [ICompoundPop b].

(* the chunks, last first, and their bytes, last first *)
Definition rbytes (cs : list chunk) : list Z := flat_map (fun c => rev (chunk_bytes c)) cs.
Definition reads (cs : list chunk) (is : list instr) : Prop := Forall2 (fun c i => instr_at c = Some i) cs is.
Definition good (c : chunk) : Prop := Forall is_byte (snd c) /\ exists i, instr_at c = Some i.
Fixpoint covered (ops : list opcode) (cs : list chunk) : Prop :=
  match ops with
  | [] => True
  | o :: r => match cs with
              | [] => False
              | c :: cs' => fst c = o /\ (looks_below o = true -> covered r cs')
              end
  end.

(* operands *)
Lemma lenZ_cons {A} (x : A) l : lenZ (x :: l) = 1 + lenZ l.
Proof. unfold lenZ. cbn [length]. lia. Qed.
Lemma lenZ_nonneg {A} (l : list A) : 0 <= lenZ l.
Proof. unfold lenZ. lia. Qed.
Lemma instr_at_inv o d i : instr_at (o, d) = Some i -> byte_of o < 250 -> exists n, decode_op o (byte_of o :: d) 1 = Some (i, n) /\ n = 1 + lenZ d.
Proof.
  intros H B. unfold instr_at, decode, chunk_bytes in H. cbn [fst snd] in H.
  change (rd8 (byte_of o :: d) 0) with (Some (byte_of o)) in H. cbv beta iota in H. rewrite opcode_of_byte_of in H by exact B. cbv beta iota in H. cbn [Z.add] in H.
  destruct (decode_op o (byte_of o :: d) 1) as [[j n]|]; [|discriminate]. destruct (n =? _) eqn:E; [|discriminate].
  apply Z.eqb_eq in E. injection H as ->. exists n. rewrite lenZ_cons in E. auto.
Qed.
Lemma lenZ_0 {A} (d : list A) : lenZ d = 0 -> d = [].
Proof. destruct d; auto. rewrite lenZ_cons. pose proof (lenZ_nonneg d). lia. Qed.
Ltac len_cases d := repeat (let x := fresh "x" in destruct d as [|x d]; [|]).
Lemma len_1 {A} (d : list A) : lenZ d = 1 -> exists x, d = [x].
Proof. destruct d as [|x d]; [discriminate|]. rewrite lenZ_cons. intros H. rewrite (lenZ_0 d) by lia. eauto. Qed.
Lemma len_2 {A} (d : list A) : lenZ d = 2 -> exists x y, d = [x; y].
Proof. destruct d as [|x d]; [discriminate|]. rewrite lenZ_cons. intros H. destruct (len_1 d) as [y ->]; [lia|]. eauto. Qed.
Lemma len_4 {A} (d : list A) : lenZ d = 4 -> exists x y z w, d = [x; y; z; w].
Proof.
  destruct d as [|x [|y d]]; [discriminate|discriminate|]. rewrite !lenZ_cons. intros H. destruct (len_2 d) as [z [w ->]]; [lia|]. eauto.
Qed.
Lemma len_5 {A} (d : list A) : lenZ d = 5 -> exists x y z w u, d = [x; y; z; w; u].
Proof.
  destruct d as [|x d]; [discriminate|]. rewrite !lenZ_cons. intros H. destruct (len_4 d) as [y [z [w [u ->]]]]; [lia|]. eauto 6.
Qed.
Lemma at_n0 o j d i : (forall code p, decode_op o code p = n0 j p) -> byte_of o < 250 -> instr_at (o, d) = Some i -> d = [] /\ i = j.
Proof.
  intros E B H. apply instr_at_inv in H; auto. destruct H as [n [H N]]. rewrite E in H. unfold n0 in H. injection H as H1 H2. split; [|auto]. apply lenZ_0. lia.
Qed.
Lemma at_load o q d i : load_of o = Some q -> instr_at (o, d) = Some i -> exists x, d = [x] /\ i = ILoad q (Z.to_nat x).
Proof.
  intros L H. assert (B : byte_of o < 250) by (destruct o; try discriminate; reflexivity).
  apply instr_at_inv in H; auto. destruct H as [n [H N]].
  assert (E : decode_op o (byte_of o :: d) 1 = v1 (ILoad q) (byte_of o :: d) 1) by (destruct o; try discriminate; injection L as <-; reflexivity).
  rewrite E in H. unfold v1 in H. destruct (rd8 _ 1) as [x|] eqn:R; [|discriminate]. injection H as H1 H2.
  destruct (len_1 d) as [y ->]; [lia|]. cbn in R. injection R as ->. eauto.
Qed.
(* the literals *)
Definition lit_val (o : opcode) (d : list Z) : option value :=
  match o, d with
  | O_LiteralZero, [] => Some (VInt 0)
  | O_LiteralInt8, [x] => Some (VInt (u32 (VmModel.s8 x)))
  | O_LiteralInt16, [x; y] => Some (VInt (u32 (VmModel.s16 (x + 256 * y))))
  | O_LiteralInt32, [x; y; z; w] => Some (VInt ((x + 256 * y) + 65536 * (z + 256 * w)))
  | O_LiteralFloat, [x; y; z; w] => Some (VFlt ((x + 256 * y) + 65536 * (z + 256 * w)))
  | _, _ => None
  end.
Definition lit_chk (o : opcode) : bool := match o with O_LiteralInt32 | O_LiteralFloat => false | _ => true end.
Lemma at_lit o d i : is_literal o = true -> instr_at (o, d) = Some i -> exists v, i = ILit v (lit_chk o) /\ lit_val o d = Some v /\ is_num v = true.
Proof.
  intros L H. assert (B : byte_of o < 250) by (destruct o; try discriminate; reflexivity).
  apply instr_at_inv in H; auto. destruct H as [n [H N]]. destruct o; try discriminate; cbn [decode_op] in H.
  - unfold lInt32 in H. destruct (rd32 _ 1) as [x|] eqn:R; [|discriminate]. injection H as H1 H2. destruct (len_4 d) as [x0 [x1 [x2 [x3 ->]]]]; [lia|].
    cbn in R. injection R as <-. eauto.
  - unfold n0 in H. injection H as H1 H2. rewrite (lenZ_0 d) by lia. eauto.
  - unfold lFloat in H. destruct (rd32 _ 1) as [x|] eqn:R; [|discriminate]. injection H as H1 H2. destruct (len_4 d) as [x0 [x1 [x2 [x3 ->]]]]; [lia|].
    cbn in R. injection R as <-. eauto.
  - unfold lInt8 in H. destruct (rd8 _ 1) as [x|] eqn:R; [|discriminate]. injection H as H1 H2. destruct (len_1 d) as [x0 ->]; [lia|].
    cbn in R. injection R as <-. eauto.
  - unfold lInt16 in H. destruct (rd16 _ 1) as [x|] eqn:R; [|discriminate]. injection H as H1 H2. destruct (len_2 d) as [x0 [x1 ->]]; [lia|].
    cbn in R. injection R as <-. eauto.
Qed.

Lemma some_inj {A} (a b : A) : Some a = Some b -> a = b.
Proof. congruence. Qed.
(* the form of a rewriting *)
Definition rewrites (o : opcode) (d : list Z) (cs : list chunk) (rp : list Z) (ops' : list opcode) (rl' : list Z) : Prop :=
  d = [] /\ exists old new rest is js i,
    cs = old ++ rest /\ rl' = rbytes (new ++ rest) ++ rp /\ covered ops' (new ++ rest) /\ Forall good new /\
    reads (rev old) is /\ instr_at (o, d) = Some i /\ reads (rev new) js /\ rule (is ++ [i]) js.

Lemma byte_u8 x : is_byte (u8 x).
Proof. unfold is_byte, u8. lia. Qed.
Lemma f32_neg_range a : 0 <= a < 4294967296 -> 0 <= f32_neg a < 4294967296.
Proof.
  intros H. unfold f32_neg. split; [apply Z.lxor_nonneg; lia|].
  destruct (Z.eq_dec (Z.lxor a 2147483648) 0) as [->|N]; [lia|].
  change 4294967296 with (2 ^ 32). apply Z.log2_lt_pow2; [pose proof (proj2 (Z.lxor_nonneg a 2147483648)); lia|].
  eapply Z.le_lt_trans; [apply Z.log2_lxor; lia|]. apply Z.max_lub_lt.
  - destruct (Z.eq_dec a 0) as [->|]; [reflexivity|]. apply Z.log2_lt_pow2; lia.
  - reflexivity.
Qed.
Lemma four_bytes be : 0 <= be < 4294967296 ->
  u8 be + 256 * u8 (be / 256) + 65536 * (u8 (be / 65536) + 256 * u8 (be / 16777216)) = be.
Proof. intros. unfold u8. lia. Qed.

Ltac bytes_of G := let F := fresh in pose proof (proj1 G) as F; cbn [snd] in F; repeat (let b := fresh "IB" in apply Forall_cons_iff in F; destruct F as [b F]); clear F.

Lemma negate_rule o0 rest cs rp ops' rl' : covered (o0 :: rest) cs -> Forall good cs ->
  (forall c r, cs = c :: r -> ~ at_edge c) ->
  fuse_negate o0 rest (rbytes cs ++ rp) = Fuse ops' rl' -> rewrites O_Negate [] cs rp ops' rl'.
Proof.
  intros C G NE H. destruct cs as [|[o d] cs]; [destruct C|]. specialize (NE _ _ eq_refl). cbn [covered fst] in C. destruct C as [-> C]. apply Forall_cons_iff in G. destruct G as [G GS].
  destruct (is_literal o0) eqn:L; [|destruct o0; discriminate].
  destruct (proj2 G) as [i0 I0]. destruct (at_lit _ _ _ L I0) as [v [-> [LV NV]]]. set (c := lit_chk o0) in *.
  assert (DO : forall d' v', Forall is_byte d' -> instr_at (o0, d') = Some (ILit v' c) -> v' = neg_of v ->
    ops' = o0 :: rest -> rl' = rev (chunk_bytes (o0, d')) ++ rbytes cs ++ rp -> rewrites O_Negate [] ((o0, d) :: cs) rp ops' rl').
  { intros d' v' FD ID HV -> ->. split; [reflexivity|]. exists [(o0, d)], [(o0, d')], cs, [ILit v c], [ILit v' c], INeg.
    split; [reflexivity|]. split; [cbn [rbytes flat_map app]; now rewrite app_assoc|]. split; [cbn; auto|].
    split; [constructor; [split; [exact FD|eauto]|constructor]|]. split; [repeat constructor; exact I0|]. split; [reflexivity|].
    split; [repeat constructor; exact ID|]. now constructor. }
  unfold fuse_negate in H. destruct o0; try discriminate; cbn [lit_val] in LV.
  - (* 32 *) destruct d as [|x [|y [|z [|w [|]]]]]; try discriminate. apply some_inj in LV; subst v. bytes_of G.
    cbn [rbytes flat_map chunk_bytes rev app fst snd] in H. injection H as <- <-. set (be := u32 (0 - (x + 256 * y + 65536 * z + 16777216 * w))) in *.
    assert (R : 0 <= be < 4294967296) by (unfold be, u32; lia).
    eapply (DO [u8 be; u8 (be / 256); u8 (be / 65536); u8 (be / 16777216)]); [repeat constructor; apply byte_u8|reflexivity| |reflexivity|reflexivity].
    cbn [neg_of]. f_equal. rewrite four_bytes by exact R. unfold be, u32. f_equal. lia.
  - (* float *) destruct d as [|x [|y [|z [|w [|]]]]]; try discriminate. apply some_inj in LV; subst v. bytes_of G.
    cbn [rbytes flat_map chunk_bytes rev app fst snd] in H. injection H as <- <-. set (be := f32_neg (x + 256 * y + 65536 * z + 16777216 * w)) in *.
    assert (R : 0 <= be < 4294967296) by (unfold be, is_byte in *; apply f32_neg_range; lia).
    eapply (DO [u8 be; u8 (be / 256); u8 (be / 65536); u8 (be / 16777216)]); [repeat constructor; apply byte_u8|reflexivity| |reflexivity|reflexivity].
    cbn [neg_of]. f_equal. rewrite four_bytes by exact R. unfold be. f_equal. lia.
  - (* 8 *) destruct d as [|x [|]]; try discriminate. apply some_inj in LV; subst v. bytes_of G.
    cbn [rbytes flat_map chunk_bytes rev app fst snd] in H. injection H as <- <-.
    eapply (DO [u8 (- x)]); [repeat constructor; apply byte_u8|reflexivity| |reflexivity|reflexivity].
    cbn [neg_of]. f_equal. unfold is_byte in *.
    assert (x <> 128) by (intros ->; apply NE; now left). clear - IB H. unfold VmModel.s8, u8, u32.
    destruct (x <? 128) eqn:A; destruct ((- x) mod 256 <? 128) eqn:B; apply Z.ltb_lt in A || apply Z.ltb_ge in A; apply Z.ltb_lt in B || apply Z.ltb_ge in B; lia.
  - (* 16 *) destruct d as [|x [|y [|]]]; try discriminate. apply some_inj in LV; subst v. bytes_of G.
    destruct (2 <? _); [|discriminate].
    cbn [rbytes flat_map chunk_bytes rev app fst snd] in H. injection H as <- <-. set (be := Base.s16 (- Base.s16 (x + 256 * y))) in *.
    eapply (DO [u8 be; u8 (be / 256)]); [repeat constructor; apply byte_u8|reflexivity| |reflexivity|reflexivity].
    cbn [neg_of]. f_equal. unfold is_byte in *.
    assert (N : x + 256 * y <> 32768) by (intros Q; assert (x = 0 /\ y = 128) as [-> ->] by lia; apply NE; now right).
    assert (E1 : Base.s16 (x + 256 * y) = VmModel.s16 (x + 256 * y)).
    { unfold Base.s16, VmModel.s16, u16. rewrite Z.mod_small by lia. reflexivity. }
    assert (R : - 32768 < VmModel.s16 (x + 256 * y) <= 32767) by (unfold VmModel.s16; destruct (x + 256 * y <? 32768) eqn:A; apply Z.ltb_lt in A || apply Z.ltb_ge in A; lia).
    assert (E2 : be = - VmModel.s16 (x + 256 * y)).
    { unfold be. rewrite E1. set (q := VmModel.s16 _) in *. clearbody q. unfold Base.s16, u16.
      destruct ((- q) mod 65536 <? 32768) eqn:B; apply Z.ltb_lt in B || apply Z.ltb_ge in B; lia. }
    rewrite E2. set (q := VmModel.s16 (x + 256 * y)) in *. clearbody q. clear - R.
    assert (E3 : VmModel.s16 (u8 (- q) + 256 * u8 (- q / 256)) = - q).
    { unfold VmModel.s16, u8. destruct (_ <? 32768) eqn:B; apply Z.ltb_lt in B || apply Z.ltb_ge in B; lia. }
    rewrite E3. unfold u32. lia.
Qed.

Lemma make_rw o old new rest is js i ops' rl' rp : instr_at (o, []) = Some i -> reads (rev old) is -> reads (rev new) js ->
  Forall good new -> covered ops' (new ++ rest) -> rl' = rbytes (new ++ rest) ++ rp -> rule (is ++ [i]) js ->
  rewrites o [] (old ++ rest) rp ops' rl'.
Proof. intros. split; [reflexivity|]. exists old, new, rest, is, js, i. auto 12. Qed.
Lemma load_looks o q : load_of o = Some q -> looks_below o = true.
Proof. intros H. destruct o; try discriminate; reflexivity. Qed.
Lemma lit_looks o : is_literal o = true -> looks_below o = true.
Proof. intros H. destruct o; try discriminate; reflexivity. Qed.
Lemma top_load o q rest cs : covered (o :: rest) cs -> Forall good cs -> load_of o = Some q ->
  exists x cs', cs = (o, [x]) :: cs' /\ instr_at (o, [x]) = Some (ILoad q (Z.to_nat x)) /\ is_byte x /\ covered rest cs' /\ Forall good cs'.
Proof.
  intros C G L. destruct cs as [|[o' d] cs]; [destruct C|]. cbn [covered fst] in C. destruct C as [-> C]. apply Forall_cons_iff in G. destruct G as [G GS].
  destruct (proj2 G) as [i I0]. pose proof I0 as I1. apply (at_load _ q) in I1; auto. destruct I1 as [x [-> ->]].
  exists x, cs. bytes_of G. split; [reflexivity|]. split; [exact I0|]. split; [exact IB|]. split; [|exact GS]. eapply C, load_looks; eauto.
Qed.
Lemma top_lit o rest cs : covered (o :: rest) cs -> Forall good cs -> is_literal o = true ->
  exists d v cs', cs = (o, d) :: cs' /\ instr_at (o, d) = Some (ILit v (lit_chk o)) /\ lit_val o d = Some v /\ is_num v = true /\
    good (o, d) /\ covered rest cs' /\ Forall good cs'.
Proof.
  intros C G L. destruct cs as [|[o' d] cs]; [destruct C|]. cbn [covered fst] in C. destruct C as [-> C]. apply Forall_cons_iff in G. destruct G as [G GS].
  destruct (proj2 G) as [i I0]. pose proof I0 as I1. apply at_lit in I1; auto. destruct I1 as [v [-> [LV NV]]].
  exists d, v, cs. repeat match goal with |- _ /\ _ => split end; auto using lit_looks.
Qed.
Lemma reads_cons c cs i is : instr_at c = Some i -> reads cs is -> reads (c :: cs) (i :: is).
Proof. intros. now constructor. Qed.
Lemma reads_nil : reads [] []. Proof. constructor. Qed.
Lemma good_of o d i : instr_at (o, d) = Some i -> Forall is_byte d -> good (o, d).
Proof. intros. split; eauto. Qed.
#[local] Hint Resolve reads_cons reads_nil good_of : fuse.

Lemma var2_rule o b o0 rest cs rp ops' rl' : instr_at (o, []) = Some (IBin b) ->
  (forall s1 s0, match var2_form o s1 s0 with
     | Some (op, sw) => if sw : bool then s1 = SG /\ s0 = SL /\ (b = BAdd \/ b = BMul) /\ forall x y, instr_at (op, [x; y]) = Some (IBin2 b SL SG (Z.to_nat x) (Z.to_nat y))
                        else forall x y, instr_at (op, [x; y]) = Some (IBin2 b s1 s0 (Z.to_nat x) (Z.to_nat y))
     | None => False end) ->
  covered (o0 :: rest) cs -> Forall good cs ->
  fuse_var2 o o0 rest (rbytes cs ++ rp) = Fuse ops' rl' -> rewrites o [] cs rp ops' rl'.
Proof.
  intros IO V C G H. unfold fuse_var2 in H. destruct (_ <=? 3); [discriminate|]. destruct (op_eqb _ _ && _); [discriminate|].
  destruct (load_of o0) as [s0|] eqn:L0; [|discriminate]. destruct rest as [|o1 rest]; [discriminate|].
  destruct (load_of o1) as [s1|] eqn:L1; [|discriminate].
  destruct (top_load _ _ _ _ C G L0) as [x0 [cs1 [-> [I0 [B0 [C1 G1]]]]]]. destruct (top_load _ _ _ _ C1 G1 L1) as [x1 [cs2 [-> [I1 [B1 [C2 G2]]]]]].
  specialize (V s1 s0). destruct (var2_form o s1 s0) as [[op sw]|]; [|contradiction].
  cbn [rbytes flat_map chunk_bytes rev app fst snd] in H. injection H as <- <-.
  destruct sw.
  - destruct V as [-> [-> [HB V]]].
    apply (make_rw o [(o0, [x0]); (o1, [x1])] [(op, [x0; x1])] cs2 [ILoad SG (Z.to_nat x1); ILoad SL (Z.to_nat x0)] [IBin2 b SL SG (Z.to_nat x0) (Z.to_nat x1)] (IBin b)); cbn [rev app covered]; auto with fuse.
    + constructor; [|constructor]. eapply good_of; eauto.
    + now constructor.
  - apply (make_rw o [(o0, [x0]); (o1, [x1])] [(op, [x1; x0])] cs2 [ILoad s1 (Z.to_nat x1); ILoad s0 (Z.to_nat x0)] [IBin2 b s1 s0 (Z.to_nat x1) (Z.to_nat x0)] (IBin b)); cbn [rev app covered]; auto with fuse.
    + constructor; [|constructor]. eapply good_of; eauto.
    + constructor.
Qed.
Lemma skip_rule o b op o0 rest cs rp ops' rl' : instr_at (o, []) = Some (IBin b) -> instr_at (op, []) = Some (IBinSkip b) -> looks_below op = false ->
  covered (o0 :: rest) cs -> Forall good cs ->
  fuse_skip op o0 rest (rbytes cs ++ rp) = Fuse ops' rl' -> rewrites o [] cs rp ops' rl'.
Proof.
  intros IO IS LB C G H. unfold fuse_skip in H. destruct (_ <=? 3); [discriminate|]. destruct rest as [|o1 rest]; [discriminate|].
  destruct (load_of o0) as [s0|] eqn:L0; [|discriminate]. destruct (load_of o1) as [s1|] eqn:L1; [|discriminate].
  destruct (top_load _ _ _ _ C G L0) as [x0 [cs1 [-> [I0 [B0 [C1 G1]]]]]]. destruct (top_load _ _ _ _ C1 G1 L1) as [x1 [cs2 [-> [I1 [B1 [C2 G2]]]]]].
  cbn [rbytes flat_map chunk_bytes rev app fst snd] in H. injection H as <- <-.
  assert (IV : instr_at (values_op s1 s0, [x1; x0]) = Some (IValues s1 s0 (Z.to_nat x1) (Z.to_nat x0))) by (destruct s1, s0; reflexivity).
  apply (make_rw o [(o0, [x0]); (o1, [x1])] [(op, []); (values_op s1 s0, [x1; x0])] cs2 [ILoad s1 (Z.to_nat x1); ILoad s0 (Z.to_nat x0)]
    [IValues s1 s0 (Z.to_nat x1) (Z.to_nat x0); IBinSkip b] (IBin b)); cbn [rev app covered fst]; auto with fuse.
  - constructor; [|constructor; [|constructor]]; eapply good_of; eauto.
  - split; [reflexivity|]. rewrite LB. discriminate.
  - constructor.
Qed.

Definition cmp_ok (k : cmpop) (f : cmp_forms) : Prop :=
  match k with CAnd | COr => False | _ => True end /\
  (forall x y, instr_at (cf_ll f, [x; y]) = Some (ICmp2 k SL (Z.to_nat x) (Z.to_nat y))) /\
  (forall x y, instr_at (cf_gg f, [x; y]) = Some (ICmp2 k SG (Z.to_nat x) (Z.to_nat y))) /\
  (forall x, instr_at (cf_ls f, [x]) = Some (ICmpS k SL (Z.to_nat x))) /\
  (forall x, instr_at (cf_gs f, [x]) = Some (ICmpS k SG (Z.to_nat x))) /\
  (forall x, instr_at (cf_ils f, [x]) = Some (ICmpS (mirror k) SL (Z.to_nat x))) /\
  (forall x, instr_at (cf_igs f, [x]) = Some (ICmpS (mirror k) SG (Z.to_nat x))) /\
  looks_below (cf_ls f) = false /\ looks_below (cf_gs f) = false /\ looks_below (cf_ils f) = false /\ looks_below (cf_igs f) = false /\
  looks_below (cf_ll f) = false /\ looks_below (cf_gg f) = false.
Lemma compare_rule o k f o0 rest cs rp ops' rl' : instr_at (o, []) = Some (ICmp k) -> cmp_ok k f ->
  covered (o0 :: rest) cs -> Forall good cs ->
  fuse_compare f o0 rest (rbytes cs ++ rp) = Fuse ops' rl' -> rewrites o [] cs rp ops' rl'.
Proof.
  intros IO [NK [ILL [IGG [ILS [IGS [IILS [IIGS [B1 [B2 [B3 [B4 [B5 B6]]]]]]]]]]]] C G H. unfold fuse_compare in H.
  destruct rest as [|o1 rest]; [discriminate|].
  assert (TWO : forall q op, load_of o0 = Some q -> load_of o1 = Some q -> (forall x y, instr_at (op, [x; y]) = Some (ICmp2 k q (Z.to_nat x) (Z.to_nat y))) ->
     looks_below op = false ->
     match rbytes cs ++ rp with p0 :: _ :: p2 :: _ :: r => Fuse [op] (p0 :: p2 :: byte_of op :: r) | _ => FuseUB end = Fuse ops' rl' ->
     rewrites o [] cs rp ops' rl').
  { intros q op L0 L1 IP LB E.
    destruct (top_load _ _ _ _ C G L0) as [x0 [cs1 [-> [I0 [Y0 [C1 G1]]]]]]. destruct (top_load _ _ _ _ C1 G1 L1) as [x1 [cs2 [-> [I1 [Y1 [C2 G2]]]]]].
    cbn [rbytes flat_map chunk_bytes rev app fst snd] in E. injection E as <- <-.
    apply (make_rw o [(o0, [x0]); (o1, [x1])] [(op, [x1; x0])] cs2 [ILoad q (Z.to_nat x1); ILoad q (Z.to_nat x0)] [ICmp2 k q (Z.to_nat x1) (Z.to_nat x0)] (ICmp k)); cbn [rev app covered fst]; auto with fuse.
    - constructor; [|constructor]; eapply good_of; eauto.
    - constructor. }
  assert (ONE : fuse_compare_s f o0 o1 rest (rbytes cs ++ rp) = Fuse ops' rl' -> rewrites o [] cs rp ops' rl').
  { clear H. intros H. unfold fuse_compare_s in H. destruct (is_literal o1) eqn:L1.
    - destruct (load_of o0) as [q|] eqn:L0; [|discriminate].
      destruct (top_load _ _ _ _ C G L0) as [x0 [cs1 [-> [I0 [Y0 [C1 G1]]]]]]. destruct (top_lit _ _ _ C1 G1 L1) as [d [v [cs2 [-> [I1 [LV [NV [GD [C2 G2]]]]]]]]].
      cbn [rbytes flat_map chunk_bytes rev app fst snd] in H. rewrite <- !app_assoc in H. cbv zeta in H. injection H as <- <-.
      set (op := match q with SG => cf_gs f | SL => cf_ls f end).
      assert (IP : instr_at (op, [x0]) = Some (ICmpS k q (Z.to_nat x0))) by (unfold op; destruct q; auto).
      assert (LB : looks_below op = false) by (unfold op; destruct q; auto).
      apply (make_rw o [(o0, [x0]); (o1, d)] [(op, [x0]); (o1, d)] cs2 [ILit v (lit_chk o1); ILoad q (Z.to_nat x0)] [ILit v (lit_chk o1); ICmpS k q (Z.to_nat x0)] (ICmp k)); cbn [rev app covered fst]; auto with fuse.
      + constructor; [|constructor; [exact GD|constructor]]; eapply good_of; eauto.
      + cbn [rbytes flat_map chunk_bytes rev app fst snd]. now rewrite <- !app_assoc.
      + now constructor.
    - destruct (is_literal o0) eqn:L0; [|discriminate]. destruct (load_of o1) as [q|] eqn:L1'; [|discriminate]. cbv zeta in H.
      set (op := match q with SG => cf_igs f | SL => cf_ils f end) in *.
      assert (IP : forall x, instr_at (op, [x]) = Some (ICmpS (mirror k) q (Z.to_nat x))) by (unfold op; destruct q; auto).
      assert (LB : looks_below op = false) by (unfold op; destruct q; auto).
      destruct (top_lit _ _ _ C G L0) as [d [v [cs1 [-> [I0 [LV [NV [GD [C1 G1]]]]]]]]]. destruct (top_load _ _ _ _ C1 G1 L1') as [x1 [cs2 [-> [I1 [Y1 [C2 G2]]]]]].
      assert (E : ops' = op :: o1 :: rest /\ rl' = rbytes ((op, [x1]) :: (o0, d) :: cs2) ++ rp).
      { destruct o0; try discriminate; cbn [lit_val] in LV;
        [ destruct d as [|x [|y [|z [|w [|]]]]] | destruct d | destruct d as [|x [|y [|z [|w [|]]]]] | destruct d as [|x [|]] | destruct d as [|x [|y [|]]] ];
        try discriminate; cbn [rbytes flat_map chunk_bytes rev app fst snd] in *; injection H as <- <-; auto. }
      destruct E as [-> ->].
      apply (make_rw o [(o0, d); (o1, [x1])] [(op, [x1]); (o0, d)] cs2 [ILoad q (Z.to_nat x1); ILit v (lit_chk o0)] [ILit v (lit_chk o0); ICmpS (mirror k) q (Z.to_nat x1)] (ICmp k)); cbn [rev app covered fst]; auto with fuse.
      + constructor; [|constructor; [exact GD|constructor]]; eapply good_of; eauto.
      + split; [reflexivity|]. rewrite LB. discriminate.
      + now constructor. }
  destruct (load_of o0) as [[|]|] eqn:L0, (load_of o1) as [[|]|] eqn:L1; eauto.
Qed.

(* PopOne *)
Lemma top_n0 o j rest cs : covered (o :: rest) cs -> Forall good cs -> (forall code p, decode_op o code p = n0 j p) -> byte_of o < 250 ->
  exists cs', cs = (o, []) :: cs' /\ instr_at (o, []) = Some j /\ (looks_below o = true -> covered rest cs') /\ Forall good cs'.
Proof.
  intros C G D B. destruct cs as [|[o' d] cs]; [destruct C|]. cbn [covered fst] in C. destruct C as [-> C]. apply Forall_cons_iff in G. destruct G as [G GS].
  destruct (proj2 G) as [i I0]. destruct (at_n0 _ j _ _ D B I0) as [-> ->]. eauto.
Qed.
Lemma incdec_rule o0 j d g l pl rest cs rp ops' rl' : covered (o0 :: rest) cs -> Forall good cs ->
  (forall code p, decode_op o0 code p = n0 j p) -> byte_of o0 < 250 -> looks_below o0 = true -> j = IPre d \/ j = IPost d ->
  (forall x, instr_at (g, [x]) = Some (IIncVar d SG (Z.to_nat x))) -> (forall x, instr_at (l, [x]) = Some (IIncVar d SL (Z.to_nat x))) ->
  instr_at (pl, []) = Some (IPrePop d) -> looks_below pl = false ->
  fuse_incdec_pop g l pl rest (rbytes cs ++ rp) = Fuse ops' rl' -> rewrites O_PopOne [] cs rp ops' rl'.
Proof.
  intros C G D B LO J IG IL IP LP H. destruct (top_n0 _ _ _ _ C G D B) as [cs1 [-> [I0 [C1 G1]]]]. specialize (C1 LO). unfold fuse_incdec_pop in H.
  destruct (match rest with o1 :: _ => load_of o1 | [] => None end) as [q|] eqn:L.
  - destruct rest as [|o1 rest]; [discriminate|]. destruct (top_load _ _ _ _ C1 G1 L) as [x1 [cs2 [-> [I1 [Y1 [C2 G2]]]]]].
    cbn [rbytes flat_map chunk_bytes rev app fst snd] in H. injection H as <- <-.
    assert (IQ : instr_at (lit_to q g l, [x1]) = Some (IIncVar d q (Z.to_nat x1))) by (destruct q; cbn; auto).
    apply (make_rw O_PopOne [(o0, []); (o1, [x1])] [(lit_to q g l, [x1])] cs2 [ILoad q (Z.to_nat x1); j] [IIncVar d q (Z.to_nat x1)] IPop); cbn [rev app covered fst]; auto with fuse.
    + constructor; [|constructor]; eapply good_of; eauto.
    + destruct J as [-> | ->]; constructor.
  - cbn [rbytes flat_map chunk_bytes rev app fst snd] in H. injection H as <- <-.
    apply (make_rw O_PopOne [(o0, [])] [(pl, [])] cs1 [j] [IPrePop d] IPop); cbn [rev app covered fst]; auto with fuse.
    + constructor; [|constructor]; eapply good_of; eauto.
    + destruct J as [-> | ->]; constructor.
Qed.
Lemma single_pop o0 j op i2 rest cs rp : covered (o0 :: rest) cs -> Forall good cs ->
  (forall code p, decode_op o0 code p = n0 j p) -> byte_of o0 < 250 -> instr_at (op, []) = Some i2 -> looks_below op = false ->
  rule [j; IPop] [i2] -> forall ops' rl',
  match rbytes cs ++ rp with _ :: r => Fuse (op :: rest) (byte_of op :: r) | _ => FuseUB end = Fuse ops' rl' -> rewrites O_PopOne [] cs rp ops' rl'.
Proof.
  intros C G D B IP LP R ops' rl' H. destruct (top_n0 _ _ _ _ C G D B) as [cs1 [-> [I0 [C1 G1]]]].
  cbn [rbytes flat_map chunk_bytes rev app fst snd] in H. injection H as <- <-.
  apply (make_rw O_PopOne [(o0, [])] [(op, [])] cs1 [j] [i2] IPop); cbn [rev app covered fst]; auto with fuse.
  - constructor; [|constructor]; eapply good_of; eauto.
  - split; [reflexivity|]. rewrite LP. discriminate.
Qed.
Lemma assign_pop_rule q o1 rest cs rp ops' rl' : covered (O_Assign :: o1 :: rest) cs -> Forall good cs -> load_of o1 = Some q ->
  fuse_assign_pop q rest O_Assign o1 (rbytes cs ++ rp) = Fuse ops' rl' -> rewrites O_PopOne [] cs rp ops' rl'.
Proof.
  intros C G L H. destruct (top_n0 _ IAssign _ _ C G (fun _ _ => eq_refl) eq_refl) as [cs1 [-> [I0 [C1 G1]]]]. specialize (C1 eq_refl).
  destruct (top_load _ _ _ _ C1 G1 L) as [x1 [cs2 [-> [I1 [Y1 [C2 G2]]]]]].
  assert (DEF : ops' = [] \/ (exists r, ops' = O_AssignToGlobalAndPop :: r) /\ q = SG ->
     rl' = rbytes ((lit_to q O_AssignToGlobalAndPop O_AssignToLocalAndPop, [x1]) :: cs2) ++ rp ->
     rewrites O_PopOne [] ((O_Assign, []) :: (o1, [x1]) :: cs2) rp ops' rl').
  { intros HO ->. set (op := lit_to q O_AssignToGlobalAndPop O_AssignToLocalAndPop).
    assert (IQ : instr_at (op, [x1]) = Some (IAssignTo q (Z.to_nat x1))) by (unfold op; destruct q; reflexivity).
    apply (make_rw O_PopOne [(O_Assign, []); (o1, [x1])] [(op, [x1])] cs2 [ILoad q (Z.to_nat x1); IAssign] [IAssignTo q (Z.to_nat x1)] IPop); cbn [rev app covered fst]; auto with fuse.
    - constructor; [|constructor]; eapply good_of; eauto.
    - destruct HO as [-> |[[r ->] ->]]; [exact I|]. cbn. split; [reflexivity|discriminate].
    - constructor. }
  assert (LIT : forall o2 rest2 op d', rest = o2 :: rest2 -> is_literal o2 = true ->
     (forall d v, lit_val o2 d = Some v -> Forall is_byte d -> instr_at (op, x1 :: d' d) = Some (ILitTo q (Z.to_nat x1) v) /\ Forall is_byte (d' d)) ->
     ops' = [] -> (forall d v cs3, lit_val o2 d = Some v -> cs2 = (o2, d) :: cs3 -> rl' = rbytes ((op, x1 :: d' d) :: cs3) ++ rp) ->
     rewrites O_PopOne [] ((O_Assign, []) :: (o1, [x1]) :: cs2) rp ops' rl').
  { intros o2 rest2 op d' -> L2 IQ -> HR. destruct (top_lit _ _ _ C2 G2 L2) as [d [v [cs3 [-> [I2 [LV [NV [GD [C3 G3]]]]]]]]].
    specialize (HR d v cs3 LV eq_refl). subst rl'. destruct (IQ d v LV (proj1 GD)) as [IQ1 IQ2].
    apply (make_rw O_PopOne [(O_Assign, []); (o1, [x1]); (o2, d)] [(op, x1 :: d' d)] cs3 [ILit v (lit_chk o2); ILoad q (Z.to_nat x1); IAssign] [ILitTo q (Z.to_nat x1) v] IPop); cbn [rev app covered fst]; auto with fuse.
    - constructor; [|constructor]; eapply good_of; eauto.
    - now constructor. }
  assert (STO : forall o2 rest2 b g l, rest = o2 :: rest2 -> (forall code p, decode_op o2 code p = n0 (IBin b) p) -> byte_of o2 < 250 ->
     b = BAdd \/ b = BSub \/ b = BMul \/ b = BDiv ->
     (forall x, instr_at (g, [x]) = Some (IBinStore b SG (Z.to_nat x))) -> (forall x, instr_at (l, [x]) = Some (IBinStore b SL (Z.to_nat x))) ->
     match rbytes ((O_Assign, []) :: (o1, [x1]) :: cs2) ++ rp with _ :: p1 :: _ :: _ :: r => Fuse [] (p1 :: byte_of (lit_to q g l) :: r) | _ => FuseUB end = Fuse ops' rl' ->
     rewrites O_PopOne [] ((O_Assign, []) :: (o1, [x1]) :: cs2) rp ops' rl').
  { intros o2 rest2 b g l -> D2 B2 HB IG IL E. destruct (top_n0 _ _ _ _ C2 G2 D2 B2) as [cs3 [-> [I2 [_ G3]]]].
    cbn [rbytes flat_map chunk_bytes rev app fst snd] in E. injection E as <- <-.
    assert (IQ : instr_at (lit_to q g l, [x1]) = Some (IBinStore b q (Z.to_nat x1))) by (destruct q; cbn; auto).
    apply (make_rw O_PopOne [(O_Assign, []); (o1, [x1]); (o2, [])] [(lit_to q g l, [x1])] cs3 [IBin b; ILoad q (Z.to_nat x1); IAssign] [IBinStore b q (Z.to_nat x1)] IPop); cbn [rev app covered fst]; auto with fuse.
    - constructor; [|constructor]; eapply good_of; eauto.
    - now constructor. }
  unfold fuse_assign_pop in H. cbv zeta in H.
  destruct rest as [|o2 rest]; [cbn [rbytes flat_map chunk_bytes rev app fst snd] in H; injection H as <- <-; apply DEF; auto|].
  assert (ELSE : match rbytes ((O_Assign, []) :: (o1, [x1]) :: cs2) ++ rp with
      | _ :: p1 :: _ :: r => Fuse [] (p1 :: byte_of (lit_to q O_AssignToGlobalAndPop O_AssignToLocalAndPop) :: r) | _ => FuseUB end = Fuse ops' rl' ->
      rewrites O_PopOne [] ((O_Assign, []) :: (o1, [x1]) :: cs2) rp ops' rl').
  { clear H. intros H. cbn [rbytes flat_map chunk_bytes rev app fst snd] in H. injection H as <- <-. apply DEF; auto. }
  destruct o2; try (apply ELSE; exact H); clear ELSE.
  - (* Int32 *) eapply (LIT O_LiteralInt32 rest (lit_to q O_LiteralInt32ToGlobal O_LiteralInt32ToLocal) (fun d => d)); auto.
    + intros d v LV FD. split; [|exact FD]. destruct d as [|x [|y [|z [|w [|]]]]]; try discriminate. cbn [lit_val] in LV; apply some_inj in LV; subst v; destruct q; reflexivity.
    + destruct (top_lit _ _ _ C2 G2 eq_refl) as [d [v [cs3 [-> [I2 [LV _]]]]]]. destruct d as [|x [|y [|z [|w [|]]]]]; try discriminate.
      cbn [rbytes flat_map chunk_bytes rev app fst snd] in H. now injection H as <- _.
    + intros d v cs3 LV ->. destruct d as [|x [|y [|z [|w [|]]]]]; try discriminate.
      cbn [rbytes flat_map chunk_bytes rev app fst snd] in *. now injection H as _ <-.
  - (* Zero *) eapply (LIT O_LiteralZero rest (lit_to q O_LiteralInt8ToGlobal O_LiteralInt8ToLocal) (fun d => [0])); auto.
    + intros d v LV FD. destruct d; try discriminate. split; [|repeat constructor; discriminate]. cbn [lit_val] in LV; apply some_inj in LV; subst v; destruct q; reflexivity.
    + destruct (top_lit _ _ _ C2 G2 eq_refl) as [d [v [cs3 [-> [I2 [LV _]]]]]]. destruct d; try discriminate.
      cbn [rbytes flat_map chunk_bytes rev app fst snd] in H. now injection H as <- _.
    + intros d v cs3 LV ->. destruct d; try discriminate.
      cbn [rbytes flat_map chunk_bytes rev app fst snd] in *. now injection H as _ <-.
  - (* float *) eapply (LIT O_LiteralFloat rest (lit_to q O_LiteralFloatToGlobal O_LiteralFloatToLocal) (fun d => d)); auto.
    + intros d v LV FD. split; [|exact FD]. destruct d as [|x [|y [|z [|w [|]]]]]; try discriminate. cbn [lit_val] in LV; apply some_inj in LV; subst v; destruct q; reflexivity.
    + destruct (top_lit _ _ _ C2 G2 eq_refl) as [d [v [cs3 [-> [I2 [LV _]]]]]]. destruct d as [|x [|y [|z [|w [|]]]]]; try discriminate.
      cbn [rbytes flat_map chunk_bytes rev app fst snd] in H. now injection H as <- _.
    + intros d v cs3 LV ->. destruct d as [|x [|y [|z [|w [|]]]]]; try discriminate.
      cbn [rbytes flat_map chunk_bytes rev app fst snd] in *. now injection H as _ <-.
  - eapply (STO O_BinaryMultiplication rest BMul); try exact H; auto; reflexivity.
  - eapply (STO O_BinarySubtraction rest BSub); try exact H; auto; reflexivity.
  - eapply (STO O_BinaryDivision rest BDiv); try exact H; auto; reflexivity.
  - eapply (STO O_BinaryAddition rest BAdd); try exact H; auto; reflexivity.
  - (* Int8 *) eapply (LIT O_LiteralInt8 rest (lit_to q O_LiteralInt8ToGlobal O_LiteralInt8ToLocal) (fun d => d)); auto.
    + intros d v LV FD. split; [|exact FD]. destruct d as [|x [|]]; try discriminate. cbn [lit_val] in LV; apply some_inj in LV; subst v; destruct q; reflexivity.
    + destruct (top_lit _ _ _ C2 G2 eq_refl) as [d [v [cs3 [-> [I2 [LV _]]]]]]. destruct d as [|x [|]]; try discriminate.
      cbn [rbytes flat_map chunk_bytes rev app fst snd] in H. now injection H as <- _.
    + intros d v cs3 LV ->. destruct d as [|x [|]]; try discriminate.
      cbn [rbytes flat_map chunk_bytes rev app fst snd] in *. now injection H as _ <-.
  - (* Int16 *) eapply (LIT O_LiteralInt16 rest (lit_to q O_LiteralInt16ToGlobal O_LiteralInt16ToLocal) (fun d => d)); auto.
    + intros d v LV FD. split; [|exact FD]. destruct d as [|x [|y [|]]]; try discriminate. cbn [lit_val] in LV; apply some_inj in LV; subst v; destruct q; reflexivity.
    + destruct (top_lit _ _ _ C2 G2 eq_refl) as [d [v [cs3 [-> [I2 [LV _]]]]]]. destruct d as [|x [|y [|]]]; try discriminate.
      cbn [rbytes flat_map chunk_bytes rev app fst snd] in H. now injection H as <- _.
    + intros d v cs3 LV ->. destruct d as [|x [|y [|]]]; try discriminate.
      cbn [rbytes flat_map chunk_bytes rev app fst snd] in *. now injection H as _ <-.
  - (* placeholder *) destruct q; cbn [rbytes flat_map chunk_bytes rev app fst snd] in H; injection H as <- <-; apply DEF; eauto.
Qed.
Lemma pop_rule o0 rest cs rp ops' rl' : covered (o0 :: rest) cs -> Forall good cs ->
  fuse_pop o0 rest (rbytes cs ++ rp) = Fuse ops' rl' -> rewrites O_PopOne [] cs rp ops' rl'.
Proof.
  intros C G H. unfold fuse_pop in H.
  assert (LOAD : forall q, load_of o0 = Some q -> match rbytes cs ++ rp with _ :: _ :: r => Fuse [] r | _ => FuseUB end = Fuse ops' rl' ->
    rewrites O_PopOne [] cs rp ops' rl').
  { clear H. intros q L H. destruct (top_load _ _ _ _ C G L) as [x1 [cs2 [-> [I1 [Y1 [C2 G2]]]]]].
    cbn [rbytes flat_map chunk_bytes rev app fst snd] in H. injection H as <- <-.
    apply (make_rw O_PopOne [(o0, [x1])] [] cs2 [ILoad q (Z.to_nat x1)] [] IPop); cbn [rev app covered fst]; auto with fuse. constructor. }
  destruct o0; cbn [pop_form] in H; try discriminate H;
  try (eapply LOAD; [reflexivity|exact H]); clear LOAD;
  try (eapply (incdec_rule _ _ 1 O_IncGlobal O_IncLocal O_PreIncrementAndPop); [exact C|exact G|reflexivity|reflexivity|reflexivity|first [left; reflexivity|right; reflexivity]|reflexivity|reflexivity|reflexivity|reflexivity|exact H]);
  try (eapply (incdec_rule _ _ (-1) O_DecGlobal O_DecLocal O_PreDecrementAndPop); [exact C|exact G|reflexivity|reflexivity|reflexivity|first [left; reflexivity|right; reflexivity]|reflexivity|reflexivity|reflexivity|reflexivity|exact H]);
  try (eapply single_pop; [ | | | | | | |exact H]; [exact C|exact G|reflexivity|reflexivity|reflexivity|reflexivity|constructor]).
  - (* LiteralZero *) destruct (top_lit _ _ _ C G eq_refl) as [d [v [cs2 [-> [I2 [LV [NV [GD [C2 G2]]]]]]]]]. destruct d; [|discriminate].
    cbn [rbytes flat_map chunk_bytes rev app fst snd] in H. injection H as <- <-.
    apply (make_rw O_PopOne [(O_LiteralZero, [])] [] cs2 [ILit v (lit_chk O_LiteralZero)] [] IPop); cbn [rev app covered fst]; auto with fuse. constructor.
  - (* CallLib *) destruct (5 <? _); [|discriminate]. destruct cs as [|[o' d] cs]; [destruct C|]. cbn [covered fst] in C. destruct C as [-> C].
    apply Forall_cons_iff in G. destruct G as [G GS]. destruct (proj2 G) as [i I0]. pose proof I0 as I1. apply instr_at_inv in I1; [|reflexivity]. destruct I1 as [n [D N]].
    assert (L5 : lenZ d = 5).
    { cbn [decode_op] in D. unfold lib in D. destruct (rd8 _ _); [|discriminate]. destruct (rd32 _ _); [|discriminate].
      injection D as _ D. lia. }
    destruct (len_5 d L5) as [x [y [z [w [u ->]]]]]. cbn [rbytes flat_map chunk_bytes rev app fst snd Base.upd] in H. injection H as <- <-.
    assert (II : exists a h, i = ILib false a h /\ instr_at (O_CallLibFunctionAndPop, [x; y; z; w; u]) = Some (ILib true a h)).
    { unfold instr_at in I0. cbn in I0. injection I0 as <-. eexists. eexists. split; [reflexivity|]. reflexivity. }
    destruct II as [a [h [-> I2]]].
    apply (make_rw O_PopOne [(O_CallLibFunction, [x; y; z; w; u])] [(O_CallLibFunctionAndPop, [x; y; z; w; u])] cs [ILib false a h] [ILib true a h] IPop); cbn [rev app covered fst]; auto with fuse.
    + constructor; [|constructor]. eapply good_of; [exact I2|]. exact (proj1 G).
    + constructor.
  - (* Assign *) destruct rest as [|o1 rest]; [|destruct (load_of o1) as [q|] eqn:L]; try (eapply assign_pop_rule; eauto; fail);
    (eapply single_pop; [ | | | | | | |exact H]; [exact C|exact G|reflexivity|reflexivity|reflexivity|reflexivity|constructor]).
  - (* placeholder *) exfalso. destruct cs as [|[o' d] cs]; [destruct C|]. cbn [covered fst] in C. destruct C as [-> C].
    apply Forall_cons_iff in G. destruct G as [[_ [i I0]] _]. discriminate I0.
Qed.

Theorem fuse_rule o d ops cs rp ops' rl' : covered ops cs -> Forall good cs -> source (o, d) ->
  (o = O_Negate -> forall c r, cs = c :: r -> ~ at_edge c) ->
  fuse o ops (rbytes cs ++ rp) = Fuse ops' rl' -> rewrites o d cs rp ops' rl'.
Proof.
  intros C G [BD [i [IO ST]]] NE H. destruct ops as [|o0 rest]; [discriminate|]. cbn [fuse] in H.
  assert (N0 : forall j, (forall code p, decode_op o code p = n0 j p) -> byte_of o < 250 -> instr_at (o, []) = Some j -> rewrites o [] cs rp ops' rl' -> rewrites o d cs rp ops' rl').
  { intros j D B I0 R. destruct (at_n0 _ _ _ _ D B IO) as [-> _]. exact R. }
  destruct o; cbn [compare_forms skip_form] in H; try discriminate H.
  all: try (eapply N0; [intros; reflexivity|reflexivity|reflexivity|]; clear N0).
  all: try (eapply negate_rule; eauto; fail).
  all: try (eapply pop_rule; eauto; fail).
  all: try (eapply skip_rule; [| | |exact C|exact G|exact H]; reflexivity).
  all: try (eapply compare_rule; [| |exact C|exact G|exact H]; [reflexivity|]; repeat split; reflexivity).
  all: try (eapply var2_rule; [| |exact C|exact G|exact H]; [reflexivity|]; intros [|] [|]; cbn; repeat split; auto; reflexivity).
  - destruct (at_n0 O_Return IReturn _ _ (fun _ _ => eq_refl) eq_refl IO) as [_ ->]. discriminate.
  - destruct (at_n0 O_Index IIndex _ _ (fun _ _ => eq_refl) eq_refl IO) as [_ ->]. discriminate.
  - exfalso. apply instr_at_inv in IO; [|reflexivity]. destruct IO as [n [D _]]. cbn [decode_op] in D. unfold b0 in D.
    destruct (rd16 _ _); [|discriminate]. injection D as <- _. discriminate ST.
Qed.
