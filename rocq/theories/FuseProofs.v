(* Straight-line code and the keyhole optimizer: from the rules of FuseRules and the chunks of FuseChunks
   to the bytes the machine runs. *)
From Verif Require Import Base BaseLemmas HashModel FloatModel OpsModel VmModel VmSpec EmitModel VmProofs JumpProofs FuseSpec FuseRules FuseChunks.

(* what the optimizer's output consists of *)
Definition flatline (i : instr) : bool :=
  match i with
  | IBin2 _ _ _ _ _ | IValues _ _ _ _ | IBinSkip _ | ICmp2 _ _ _ _ | ICmpS _ _ _ | ILib _ _ _ | IIncVar _ _ _ | IPrePop _
  | ILitTo _ _ _ | IAssignTo _ _ | IBinStore _ _ _ | IAssignPop | ICompoundPop _ => true
  | _ => straight i
  end.
Lemma straight_flat i : straight i = true -> flatline i = true.
Proof. destruct i; cbn; auto; discriminate. Qed.
Lemma rule_flat is js : rule is js -> forallb flatline js = true.
Proof. destruct 1; reflexivity. Qed.

(* ---- decoding does not depend on where the instruction is ---- *)
Definition sub_at (c code : list Z) (B : Z) : Prop := forall x v, nthZ c x = Some v -> nthZ code (B + x) = Some v.
Section Sub.
Variables (c code : list Z) (B : Z).
Hypothesis S : sub_at c code B.
Lemma rd8_sub p v : rd8 c p = Some v -> rd8 code (B + p) = Some v.
Proof. apply S. Qed.
Lemma rdu16_sub p v : rdu16 c p = Some v -> rdu16 code (B + p) = Some v.
Proof.
  unfold rdu16. intros H. destruct (rd8 c p) eqn:E; [|discriminate]. destruct (rd8 c (p + 1)) eqn:E1; [|discriminate].
  rewrite <- Z.add_assoc, (rd8_sub _ _ E), (rd8_sub _ _ E1). exact H.
Qed.
Lemma rd16_sub p v : rd16 c p = Some v -> rd16 code (B + p) = Some v.
Proof. unfold rd16. intros H. destruct (rdu16 c p) eqn:E; [|discriminate]. now rewrite (rdu16_sub _ _ E). Qed.
Lemma rd32_sub p v : rd32 c p = Some v -> rd32 code (B + p) = Some v.
Proof.
  unfold rd32. intros H. destruct (rdu16 c p) eqn:E; [|discriminate]. destruct (rdu16 c (p + 2)) eqn:E1; [|discriminate].
  rewrite <- Z.add_assoc, (rdu16_sub _ _ E), (rdu16_sub _ _ E1). exact H.
Qed.
Lemma rd_bytes_sub n : forall p v, rd_bytes c p n = Some v -> rd_bytes code (B + p) n = Some v.
Proof.
  induction n as [|n IH]; intros p v; cbn [rd_bytes]; [auto|]. intros H. destruct (rd8 c p) eqn:E; [|discriminate].
  destruct (rd_bytes c (p + 1) n) eqn:E1; [|discriminate]. rewrite <- Z.add_assoc, (rd8_sub _ _ E), (IH _ _ E1). exact H.
Qed.
Lemma decode_op_sub o p i n : decode_op o c p = Some (i, n) -> flatline i = true -> decode_op o code (B + p) = Some (i, B + n).
Proof.
  intros D F.
  destruct o; cbn [decode_op] in D |- *;
  unfold n0, v1, v1q, v2, vb1, vb2, b0, lInt8, lInt16, lInt32, lFloat, lU8, lS16, lString, call, lib in D |- *;
  repeat match type of D with
         | match ?x with _ => _ end = _ => let E := fresh "E" in destruct x eqn:E; [|discriminate D]
         | (if ?x then _ else _) = _ => let E := fresh "E" in destruct x eqn:E
         end; try discriminate D; apply some_inj in D; injection D as D1 D2;
  try (rewrite <- D1 in F; discriminate F);
  rewrite <- ?Z.add_assoc;
  repeat match goal with
         | E : rd8 c _ = Some _ |- _ => apply rd8_sub in E
         | E : rdu16 c _ = Some _ |- _ => apply rdu16_sub in E
         | E : rd16 c _ = Some _ |- _ => apply rd16_sub in E
         | E : rd32 c _ = Some _ |- _ => apply rd32_sub in E
         | E : rd_bytes c _ _ = Some _ |- _ => apply rd_bytes_sub in E
         end;
  repeat match goal with
         | E : _ = Some _ |- _ => rewrite E; clear E
         end; rewrite <- D1, <- D2; rewrite <- ?Z.add_assoc; reflexivity.
Qed.
End Sub.

Lemma nthZ_some {A} (l : list A) x v : nthZ l x = Some v -> 0 <= x < lenZ l.
Proof.
  unfold nthZ, lenZ. destruct (x <? 0) eqn:E; [discriminate|]. intros H. assert (N : nth_error l (Z.to_nat x) <> None) by congruence.
  apply nth_error_Some in N. lia.
Qed.
Lemma sub_mid pre c post : sub_at c (pre ++ c ++ post) (lenZ pre).
Proof.
  intros x v H. pose proof (nthZ_some _ _ _ H) as R. revert H. unfold nthZ, lenZ in *.
  destruct (x <? 0) eqn:E; [lia|]. destruct (Z.of_nat (length pre) + x <? 0) eqn:E1; [lia|]. intros H.
  rewrite nth_error_app2 by lia. rewrite nth_error_app1 by lia. rewrite <- H. f_equal. lia.
Qed.
Lemma decode_chunk pre c post i : instr_at c = Some i -> flatline i = true ->
  decode (pre ++ chunk_bytes c ++ post) (lenZ pre) = Some (i, lenZ pre + lenZ (chunk_bytes c)).
Proof.
  intros H F. unfold instr_at in H. pose proof (sub_mid pre (chunk_bytes c) post) as S. unfold decode in *.
  destruct (rd8 (chunk_bytes c) 0) as [b|] eqn:E; [|discriminate]. apply (rd8_sub _ _ _ S) in E. rewrite Z.add_0_r in E. rewrite E.
  destruct (opcode_of b) as [o|]; [|discriminate]. destruct (decode_op o (chunk_bytes c) (0 + 1)) as [[j n]|] eqn:D; [|discriminate].
  destruct (n =? lenZ (chunk_bytes c)) eqn:N; [|discriminate]. apply Z.eqb_eq in N. injection H as ->.
  apply (decode_op_sub _ _ _ S) in D; auto. rewrite Z.add_0_l in D. rewrite D, N. reflexivity.
Qed.
Lemma chunk_pos c : 0 < lenZ (chunk_bytes c).
Proof. unfold chunk_bytes. rewrite lenZ_cons. pose proof (lenZ_nonneg (snd c)). lia. Qed.
Lemma lenZ_app' {A} (a b : list A) : lenZ (a ++ b) = lenZ a + lenZ b.
Proof. unfold lenZ. rewrite app_length. lia. Qed.

(* what one pass of the optimizer can make of a sequence *)
Inductive derives : list instr -> list instr -> Prop :=
| d_nil : derives [] []
| d_snoc : forall is js i, straight i = true -> derives is js -> derives (is ++ [i]) (js ++ [i])
| d_rule : forall is a b c, derives is (a ++ b) -> rule b c -> derives is (a ++ c).
Lemma derives_flat is js : derives is js -> forallb flatline js = true.
Proof.
  induction 1 as [|is js i SI D IH|is a b c D IH R]; [reflexivity| |].
  - rewrite forallb_app, IH. cbn [forallb andb]. rewrite straight_flat; auto.
  - rewrite forallb_app in *. apply andb_prop in IH. rewrite (proj1 IH). cbn [andb]. eapply rule_flat; eauto.
Qed.

(* ---- the emitter ---- *)
Lemma rev_rbytes cs : rev (rbytes cs) = plain_bytes (rev cs).
Proof.
  induction cs as [|c cs IH]; [reflexivity|]. cbn [rbytes flat_map rev]. fold (rbytes cs). rewrite rev_app_distr, rev_involutive, IH.
  unfold plain_bytes. rewrite map_app, concat_app. cbn [map concat]. now rewrite app_nil_r.
Qed.
Lemma reads_app a b is : reads (a ++ b) is -> exists i1 i2, is = i1 ++ i2 /\ reads a i1 /\ reads b i2.
Proof. intros H. apply Forall2_app_inv_l in H. destruct H as [i1 [i2 [H1 [H2 ->]]]]. eauto 6. Qed.
Lemma reads_app2 a b i1 i2 : reads a i1 -> reads b i2 -> reads (a ++ b) (i1 ++ i2).
Proof. apply Forall2_app. Qed.
Lemma reads_fun a i1 i2 : reads a i1 -> reads a i2 -> i1 = i2.
Proof.
  intros H. revert i2. induction H as [|c i cs is H1 H2 IH]; intros i2 H3; inversion H3; subst; [reflexivity|]. f_equal; [congruence|auto].
Qed.
(* no rule but the one for Negate leaves a literal on top *)
Definition top_ok (ops : list opcode) : Prop := match ops with o :: _ => is_literal o = false | [] => True end.
Ltac cases H := repeat (match type of H with match ?x with _ => _ end = _ => destruct x eqn:?; try discriminate H end).
Lemma var2_top o o0 rest rl ops' rl' : fuse_var2 o o0 rest rl = Fuse ops' rl' -> top_ok ops'.
Proof.
  unfold fuse_var2. intros H. destruct (_ <=? 3); [discriminate|]. destruct (op_eqb _ _ && _); [discriminate|].
  destruct (load_of o0); [|discriminate]. destruct rest as [|o1 rest]; [discriminate|]. destruct (load_of o1); [|discriminate].
  destruct (var2_form _ _ _) as [[? ?]|]; [|discriminate]. cases H; injection H as <- <-; exact I.
Qed.
Lemma skip_top op o0 rest rl ops' rl' : is_literal op = false -> fuse_skip op o0 rest rl = Fuse ops' rl' -> top_ok ops'.
Proof.
  unfold fuse_skip. intros L H. destruct (_ <=? 3); [discriminate|]. destruct rest as [|o1 rest]; [discriminate|].
  destruct (load_of o0); [|discriminate]. destruct (load_of o1); [|discriminate]. cases H; injection H as <- <-; exact L.
Qed.
Definition forms_ok (f : cmp_forms) : Prop :=
  is_literal (cf_ll f) = false /\ is_literal (cf_gg f) = false /\ is_literal (cf_ls f) = false /\ is_literal (cf_gs f) = false /\
  is_literal (cf_ils f) = false /\ is_literal (cf_igs f) = false.
Lemma compare_top f o0 rest rl ops' rl' : forms_ok f -> fuse_compare f o0 rest rl = Fuse ops' rl' -> top_ok ops'.
Proof.
  intros [F1 [F2 [F3 [F4 [F5 F6]]]]] H. unfold fuse_compare in H. destruct rest as [|o1 rest]; [discriminate|].
  assert (ONE : fuse_compare_s f o0 o1 rest rl = Fuse ops' rl' -> top_ok ops').
  { clear H. unfold fuse_compare_s. intros H. destruct (is_literal o1).
    - destruct (load_of o0) as [q|]; [|discriminate]. cbv zeta in H. cases H; injection H as <- <-; destruct q; assumption.
    - destruct (is_literal o0) eqn:L; [|discriminate]. destruct (load_of o1) as [q|]; [|discriminate]. cbv zeta in H.
      destruct o0; try discriminate; cases H; injection H as <- <-; destruct q; assumption. }
  destruct (load_of o0) as [[|]|], (load_of o1) as [[|]|]; auto; cases H; injection H as <- <-; assumption.
Qed.
Lemma pop_top o0 rest rl ops' rl' : fuse_pop o0 rest rl = Fuse ops' rl' -> top_ok ops'.
Proof.
  intros H. destruct (is_literal o0) eqn:L0.
  { destruct o0; try discriminate; cbn [fuse_pop pop_form] in H; try discriminate. cases H; injection H as <- <-; exact I. }
  destruct o0; cbn [fuse_pop pop_form] in H; try discriminate H; unfold fuse_incdec_pop in H;
  try (cases H; injection H as <- <-; first [exact I|reflexivity]; fail).
  destruct rest as [|o1 rest]; [cases H; injection H as <- <-; reflexivity|]. destruct (load_of o1) as [q|]; [|cases H; injection H as <- <-; reflexivity].
  unfold fuse_assign_pop in H. cbv zeta in H. destruct rest as [|o2 rest]; [cases H; injection H as <- <-; exact I|].
  destruct o2; cases H; injection H as <- <-; first [exact I|reflexivity].
Qed.
Lemma fuse_top o d ops rl ops' rl' : fuse o ops rl = Fuse ops' rl' -> source (o, d) -> o <> O_Negate -> top_ok ops'.
Proof.
  intros H [_ [i [IO ST]]] N. destruct ops as [|o0 rest]; [discriminate|]. cbn [fuse] in H.
  destruct o; try congruence; cbn [compare_forms skip_form] in H; try discriminate H;
  try (eapply var2_top; exact H); try (eapply pop_top; exact H); try (eapply skip_top; [|exact H]; reflexivity);
  try (eapply compare_top; [|exact H]; repeat split; reflexivity).
  - destruct (at_n0 O_Return IReturn _ _ (fun _ _ => eq_refl) eq_refl IO) as [_ ->]. discriminate.
  - destruct (at_n0 O_Index IIndex _ _ (fun _ _ => eq_refl) eq_refl IO) as [_ ->]. discriminate.
  - exfalso. apply instr_at_inv in IO; [|reflexivity]. destruct IO as [n [D _]]. cbn [decode_op] in D. unfold b0 in D.
    destruct (rd16 _ _); [|discriminate]. injection D as <- _. discriminate ST.
Qed.
Lemma negate_keeps o0 rest rl ops' rl' : fuse_negate o0 rest rl = Fuse ops' rl' -> ops' = o0 :: rest.
Proof. unfold fuse_negate. intros H. destruct o0; try discriminate; cases H; now injection H as <- <-. Qed.
Lemma edge_op c : at_edge c -> is_literal (fst c) = true.
Proof. intros [-> | ->]; reflexivity. Qed.
Lemma edge16 z : 4294934528 = u32 (- u32 (VmModel.s16 z)) -> 0 <= z < 65536 -> z = 32768.
Proof.
  intros I2 RZ. unfold VmModel.s16, u32 in I2. destruct (z <? 32768) eqn:A; [apply Z.ltb_lt in A|apply Z.ltb_ge in A].
  - rewrite (Z.mod_small z) in I2 by lia. exfalso. destruct (Z.eq_dec z 0) as [-> |]; [discriminate|]. rewrite Z.mod_opp_l_nz in I2; rewrite ?Z.mod_small in * by lia; lia.
  - replace (z - 65536) with (z + 4294901760 + (-1) * 4294967296) in I2 by lia. rewrite Z.mod_add, (Z.mod_small (z + _)) in I2 by lia.
    exfalso. rewrite Z.mod_opp_l_nz in I2; rewrite ?Z.mod_small in * by lia; lia.
Qed.
(* negation does not make a literal one at the edge *)
Lemma edge_neg o d d' v c : Forall is_byte d -> instr_at (o, d) = Some (ILit v c) -> instr_at (o, d') = Some (ILit (neg_of v) c) -> at_edge (o, d') -> at_edge (o, d).
Proof.
  intros FD I1 I2 [E|E]; injection E as -> ->.
  - apply at_lit in I1; [|reflexivity]. destruct I1 as [v1 [E1 [LV _]]]. injection E1 as <- _. destruct d as [|x [|]]; try discriminate. cbn [lit_val] in LV. injection LV as <-.
    cbn in I2. injection I2 as I2. apply Forall_inv in FD. unfold is_byte in FD. left. f_equal. f_equal.
    change (u32 (VmModel.s8 128)) with 4294967168 in I2. unfold VmModel.s8, u32 in I2. destruct (x <? 128) eqn:A; [apply Z.ltb_lt in A|apply Z.ltb_ge in A]; lia.
  - apply at_lit in I1; [|reflexivity]. destruct I1 as [v1 [E1 [LV _]]]. injection E1 as <- _. destruct d as [|x [|y [|]]]; try discriminate. cbn [lit_val] in LV. injection LV as <-.
    assert (J : Some (ILit (VInt 4294934528) true) = Some (ILit (VInt (u32 (- u32 (VmModel.s16 (x + 256 * y))))) c)) by exact I2. clear I2. injection J as I2 _. pose proof (Forall_inv FD) as X. pose proof (Forall_inv (Forall_inv_tail FD)) as Y. unfold is_byte in *. right.
    assert (x + 256 * y = 32768).
    { apply edge16; [exact I2|lia]. }
    assert (x = 0 /\ y = 128) as [-> ->] by lia. reflexivity.
Qed.

Lemma rule_negates is js : rule (is ++ [INeg]) js -> exists v c, is = [ILit v c] /\ js = [ILit (neg_of v) c].
Proof.
  intros H. remember (is ++ [INeg]) as l eqn:E. destruct H as [v c v' NV EV| | | | | | | | | | | | | | | | | |];
  destruct is as [|x [|y [|z [|w is]]]]; try discriminate E; try (destruct is; discriminate E).
  injection E as <-. subst v'. eauto.
Qed.
Lemma reads_single cs i : reads (rev cs) [i] -> exists c, cs = [c] /\ instr_at c = Some i.
Proof.
  intros H. inversion H as [|c ? ? ? IC R E1 E2]; subst. inversion R; subst. symmetry in E1. apply (f_equal (@rev _)) in E1. rewrite rev_involutive in E1. cbn in E1. eauto.
Qed.

(* [dn] are the instructions so far *)
Definition emitted (start : list Z) (b : bcode) (dn : list chunk) (is : list instr) : Prop :=
  exists cs js, b_all b = start ++ plain_bytes (rev cs) /\ covered (b_ops b) cs /\ Forall good cs /\ reads (rev cs) js /\ derives is js /\
  (forall c r, cs = c :: r -> b_ops b <> [] -> at_edge c -> exists dn', dn = dn' ++ [c]).
Lemma emit_one start b dn is c i b1 : emitted start b dn is -> source c -> instr_at c = Some i -> negations_fit (dn ++ [c]) -> push_opcode (fst c) b = COk b1 ->
  emitted start (push_data (snd c) b1) (dn ++ [c]) (is ++ [i]).
Proof.
  intros [cs [js [EB [CV [G [R [D ED]]]]]]] SC IC NF H. destruct c as [o d]. cbn [fst snd] in *.
  assert (NE : o = O_Negate -> b_ops b <> [] -> forall c r, cs = c :: r -> ~ at_edge c).
  { intros -> NO c r E HE. destruct (ED c r E NO HE) as [dn' ->]. apply (NF dn' c d []); [|exact HE]. now rewrite <- app_assoc. }
  assert (SI : straight i = true) by (destruct SC as [_ [j [IJ SJ]]]; congruence).
  unfold push_opcode in H. destruct (fuse o (b_ops b) (rev (b_all b))) as [ops rl| |] eqn:F; [| |discriminate]; injection H as <-.
  - pose proof F as F0. rewrite EB, rev_app_distr, <- rev_rbytes, rev_involutive in F.
    assert (NO : b_ops b <> []) by (intros E; rewrite E in F; discriminate).
    destruct (fuse_rule _ d _ _ _ _ _ CV G SC (fun E => NE E NO) F) as [-> [old [new [rest [is1 [js1 [j W]]]]]]].
    destruct W as [-> [-> [CV' [GN [RO [IJ [RN RU]]]]]]]. assert (j = i) by congruence. subst j.
    rewrite rev_app_distr in R. apply reads_app in R. destruct R as [j1 [j2 [-> [R1 R2]]]]. assert (j2 = is1) by (eapply reads_fun; eauto). subst j2.
    exists (new ++ rest), (j1 ++ js1). unfold push_data. cbn [b_all b_ops set_code]. rewrite app_nil_r.
    split; [now rewrite rev_app_distr, rev_involutive, rev_rbytes|]. split; [exact CV'|]. split; [apply Forall_app in G; apply Forall_app; tauto|].
    split; [rewrite rev_app_distr; now apply reads_app2|]. split; [eapply d_rule; [|exact RU]; rewrite app_assoc; now constructor|].
    intros c r E NO' HE. exfalso. destruct ops as [|o' ops]; [now apply NO'|]. rewrite E in CV'. cbn [covered] in CV'. destruct CV' as [EO _].
    destruct (op_eqb o O_Negate) eqn:EN.
    + assert (o = O_Negate) by (destruct o; try discriminate; reflexivity). subst o. assert (i = INeg) by (assert (Q : instr_at (O_Negate, []) = Some INeg) by reflexivity; congruence). subst i.
      destruct (rule_negates _ _ RU) as [v [k [-> ->]]]. apply reads_single in RN. destruct RN as [c' [-> IN]]. apply reads_single in RO. destruct RO as [o1 [-> IO]].
      cbn [app] in *. injection E as -> ->.
      destruct (b_ops b) as [|o2 rest2] eqn:EB2; [now apply NO|]. cbn [fuse] in F0. apply negate_keeps in F0. injection F0 as -> ->.
      cbn [covered] in CV. destruct CV as [EO2 _]. destruct c as [oc dc], o1 as [od dd]. cbn [fst] in *. subst.
      apply (NE eq_refl ltac:(discriminate) _ _ eq_refl). eapply edge_neg; eauto. apply Forall_inv in G. exact (proj1 G).
    + apply (fuse_top _ []) in F0; [|exact SC|intros ->; discriminate EN]. cbn in F0. rewrite <- EO, (edge_op _ HE) in F0. discriminate.
  - exists ((o, d) :: cs), (js ++ [i]). unfold push_data. cbn [b_all b_ops set_code covered rev].
    split; [|split; [auto|split; [|split; [|split; [now constructor|]]]]].
    + rewrite EB. unfold plain_bytes. rewrite map_app, concat_app. cbn [map concat chunk_bytes fst snd]. now rewrite app_nil_r, <- !app_assoc.
    + constructor; auto. split; [exact (proj1 SC)|eauto].
    + apply reads_app2; [exact R|]. constructor; [exact IC|constructor].
    + intros c r E _ _. injection E as <- _. now exists dn.
Qed.
Lemma negations_none cs : forallb (fun c => negb (op_eqb (fst c) O_Negate)) cs = true -> negations_fit cs.
Proof.
  intros H a c d b ->. rewrite forallb_app in H. apply andb_prop in H. destruct H as [_ H]. cbn in H. apply andb_prop in H. now destruct H.
Qed.
Lemma negations_left a b : negations_fit (a ++ b) -> negations_fit a.
Proof. intros H x c d y ->. apply (H x c d (y ++ b)). now rewrite <- app_assoc. Qed.
Lemma emit_seq cs : forall start b dn is b' iss, emitted start b dn is -> Forall source cs -> reads cs iss -> negations_fit (dn ++ cs) -> emit_all cs b = COk b' -> emitted start b' (dn ++ cs) (is ++ iss).
Proof.
  induction cs as [|c cs IH]; intros start b dn is b' iss E SC R NF H; cbn [emit_all] in H.
  - injection H as <-. inversion R. now rewrite !app_nil_r.
  - apply Forall_cons_iff in SC. destruct SC as [SC SS]. inversion R as [|? i ? is' IC R']; subst. destruct (push_opcode (fst c) b) as [b1|e|] eqn:P; try discriminate. cbn [cbind] in H.
    change (i :: is') with ([i] ++ is'). change (c :: cs) with ([c] ++ cs) in *. rewrite app_assoc in NF. rewrite !app_assoc.
    eapply IH; [|exact SS|exact R'|exact NF|exact H]. eapply emit_one; eauto. eapply negations_left; eauto.
Qed.
Lemma source_reads cs : Forall source cs -> exists is, reads cs is /\ forallb straight is = true.
Proof.
  induction 1 as [|c cs [_ [i [IC SI]]] _ [is [R S]]]; [exists []; split; [constructor|reflexivity]|].
  exists (i :: is). split; [now constructor|]. cbn [forallb]. now rewrite SI.
Qed.
Theorem emit_derives cs b b' : Forall source cs -> negations_fit cs -> b_ops b = [] -> emit_all cs b = COk b' ->
  exists cs' is js, b_all b' = b_all b ++ plain_bytes cs' /\ reads cs is /\ forallb straight is = true /\ reads cs' js /\ derives is js.
Proof.
  intros SC NF O H. destruct (source_reads cs SC) as [is [R SI]].
  assert (E : emitted (b_all b) b [] []). { exists [], []. cbn. rewrite O, app_nil_r. repeat split; try constructor. discriminate. }
  destruct (emit_seq _ _ _ _ _ _ _ E SC R NF H) as [cs' [js [EB [_ [_ [RJ [D _]]]]]]]. exists (rev cs'), is, js. auto.
Qed.

Section Seq.
Variable pbits : value -> Z.
Variable obj_hash : mem -> value -> Z.
Variable as_string : mem -> value -> list Z.
Variable trap : bool.
Variable hash_index : loc -> loc -> loc -> mem -> res mem.
Variable new_table : loc -> mem -> mem.
Variable lib_fn : Z -> option (nat -> nat -> mem -> res (mem * bool)).
Variable native_fn : Z -> option (nat -> nat -> mem -> res mem).
Variable ext : opcode -> vm -> res outcome.
Variable funs : list fn.
Variable base limit : nat.
Variable protect slices : bool.
Variable depth : nat.
Variable fw : nat.
Hypothesis OH : local_fn obj_hash.
Hypothesis AS : local_fn as_string.
Hypothesis LL : lib_local lib_fn.
Notation exec := (exec pbits obj_hash as_string trap hash_index new_table lib_fn native_fn ext).
Notation step := (step pbits obj_hash as_string trap hash_index new_table lib_fn native_fn ext).
Notation does c := (does pbits obj_hash as_string trap hash_index new_table lib_fn native_fn ext c funs base limit protect slices depth).
Notation runs c := (runs pbits obj_hash as_string trap hash_index new_table lib_fn native_fn ext c funs base limit protect slices depth fw).
Notation fits c := (fits pbits obj_hash as_string trap hash_index new_table lib_fn native_fn ext c funs base limit protect slices depth fw).
Notation goes c := (goes pbits obj_hash as_string trap hash_index new_table lib_fn native_fn ext c funs base limit protect slices depth).
Notation calm := (calm fw).
Notation tame := (tame fw).

Lemma rule_fits code is js : rule is js -> fits code is js.
Proof.
  destruct 1; eauto using fit_negate, fit_var2, fit_var2_swap, fit_skip, fit_cmp2, fit_cmpS, fit_cmpI, fit_load_pop, fit_lit_pop, fit_lib_pop,
    fit_inc_pre, fit_inc_post, fit_pre_pop, fit_post_pop, fit_lit_to, fit_assign_to, fit_bin_store, fit_assign_pop, fit_compound_pop.
Qed.
Lemma bin_sp code b s t : does code (IBin b) s (Run t) -> vsp t = (vsp s - 1)%nat /\ (2 <= vsp s)%nat.
Proof.
  intros [fuel [LE E]]. cbn [VmModel.exec] in E. apply need_inv in E. destruct E as [N E]. apply bind_inv in E. destruct E as [m1 [E1 E2]].
  unfold trapped in E2. destruct (_ && _); inversion E2. split; [reflexivity|exact N].
Qed.
Lemma cmp_sp code c s t : does code (ICmp c) s (Run t) -> (2 <= vsp s)%nat.
Proof. intros [fuel [LE E]]. cbn [VmModel.exec] in E. apply need_inv in E. tauto. Qed.
Lemma tame_same code i s s' t t' : straight i = true -> does code i s (Run t) -> same s s' -> same t t' -> calm s -> tame i s t -> tame i s' t'.
Proof.
  intros SI D SS ST [C _] T. pose proof (same_mem _ _ SS) as A. pose proof (same_sp _ _ SS) as SP.
  assert (T1 : top1 s' = top1 s) by (unfold top1; now rewrite SP). assert (T2 : top2 s' = top2 s) by (unfold top2; now rewrite SP).
  destruct i; try discriminate SI; unfold FuseSpec.tame in *; cbv zeta in *; rewrite ?T1, ?T2; try exact T; try exact I.
  - (* IBin *) destruct (bin_sp _ _ _ _ D) as [PT PS].
    assert (L1 : live (vsp s) (top1 s)) by (cbn; lia). assert (L2 : live (vsp s) (top2 s)) by (cbn; lia).
    assert (L3 : live (vsp t) (top2 s)) by (cbn; lia).
    rewrite <- (ag_mv _ _ _ (same_mem _ _ ST) _ L3), <- !(ag_mv _ _ _ A _ L1), <- !(ag_mv _ _ _ A _ L2).
    destruct T as [T0 T]. split; [exact T0|]. destruct b; auto; intros k n E1 E2; destruct (T k n E1 E2) as [N1 N2];
    (split; [|eapply leads_agree; eauto; exact I]; eapply leads_agree; eauto;
     pose proof (C _ L1) as V; rewrite E1 in V; exact V).
  - (* ICmp *) pose proof (cmp_sp _ _ _ _ D) as PS.
    assert (L1 : live (vsp s) (top1 s)) by (cbn; lia). assert (L2 : live (vsp s) (top2 s)) by (cbn; lia).
    rewrite <- !(ag_mv _ _ _ A _ L1), <- !(ag_mv _ _ _ A _ L2). intros x N1 E2. specialize (T x N1 E2).
    assert (LX : live (vsp s) x) by (pose proof (C _ L2) as V; rewrite E2 in V; exact V).
    destruct c; try (intros TF; specialize (T TF); eapply leads_agree; eauto); destruct T as [TI T]; (split; [exact TI|eapply leads_agree; eauto]).
  - (* IPost *) destruct D as [fuel [LE E]]. cbn [VmModel.exec] in E. apply need_inv in E. destruct E as [N _]. cbn [vsp upd] in N.
    assert (L1 : live (vsp s) (top1 s)) by (cbn; lia). rewrite <- !(ag_mv _ _ _ A _ L1).
    destruct T as [T|[x [E1 T]]]; [now left|right; exists x; split; [exact E1|]].
    rewrite <- (ag_mv _ _ _ A); [exact T|]. pose proof (C _ L1) as V. rewrite E1 in V. exact V.
  - (* IAssign *) destruct D as [fuel [LE E]]. cbn [VmModel.exec] in E. apply need_inv in E. destruct E as [N _]. cbn [vsp upd] in N.
    assert (L1 : live (vsp s) (top1 s)) by (cbn; lia). assert (L2 : live (vsp s) (top2 s)) by (cbn; lia).
    rewrite <- !(ag_mv _ _ _ A _ L1), <- !(ag_mv _ _ _ A _ L2). intros x E1. specialize (T x E1).
    assert (LX : live (vsp s) x) by (pose proof (C _ L1) as V; rewrite E1 in V; exact V). rewrite <- !(ag_mv _ _ _ A _ LX).
    assert (K : (exists y, mv (vmem s) (top2 s) = VRef y /\ type_of (mv (vmem s) y) <> TR) ->
                 exists y, mv (vmem s) (top2 s) = VRef y /\ type_of (mv (vmem s') y) <> TR).
    { intros [y [E2 TY]]. exists y. split; [exact E2|]. rewrite <- (ag_mv _ _ _ A); [exact TY|]. pose proof (C _ L2) as V. rewrite E2 in V. exact V. }
    destruct (mv (vmem s) x); auto.
Qed.

(* ---- sequences ---- *)
Lemma fits_refl code is : fits code is is.
Proof. intros s t H. exists t. split; auto using same_refl. Qed.
Lemma fits_trans code a b c : fits code a b -> fits code b c -> fits code a c.
Proof.
  intros H1 H2 s t R. destruct (H1 s t R) as [t1 [R1 S1]]. destruct (H2 s t1 R1) as [t2 [R2 S2]]. exists t2. split; [exact R2|].
  eapply same_trans; eauto.
Qed.
Lemma fits_suffix code a b c : fits code b c -> fits code (a ++ b) (a ++ c).
Proof.
  intros H s t R. apply runs_app in R. destruct R as [u [R1 R2]]. destruct (H u t R2) as [t' [R3 S]]. exists t'. split; [|exact S].
  apply runs_app. eauto.
Qed.
Lemma fits_snoc code is js i : straight i = true -> fits code is js -> fits code (is ++ [i]) (js ++ [i]).
Proof.
  intros SI H s t R. apply runs_app in R. destruct R as [u [R1 R2]]. destruct (H s u R1) as [u' [R3 S]].
  apply runs_inv in R2. destruct R2 as [w [C [T [D R2]]]]. apply runs_nil_inv in R2. destruct R2 as [-> CT].
  destruct (congr pbits obj_hash as_string trap hash_index new_table lib_fn native_fn ext code funs base limit protect slices depth fw OH AS LL i u u' t SI S C D) as [t' [D' S']].
  exists t'. split; [|exact S']. apply runs_app. exists u'. split; [exact R3|].
  apply runs_one; auto; [exact (same_calm fw u u' S C)|eapply (tame_same code i u u' t t'); eauto|exact (same_calm fw t t' S' CT)].
Qed.
Lemma derives_fits code is js : derives is js -> fits code is js.
Proof.
  induction 1 as [|is js i SI D IH|is a b c D IH R].
  - apply fits_refl.
  - now apply fits_snoc.
  - eapply fits_trans; [exact IH|]. apply fits_suffix, rule_fits; auto.
Qed.

(* ---- the byte level ---- *)
Lemma exec_pc code code' fuel i s t p : flatline i = true -> exec code funs base limit protect slices fuel i s = Ok (Run t) ->
  vpc t = vpc s /\ exec code' funs base limit protect slices fuel i (at_pc s p) = Ok (Run (at_pc t p)).
Proof.
  intros F H. destruct s as [m pc sp fb r0 r1 sl]. unfold at_pc. unfold VmModel.exec in *. cbn [vmem vpc vsp vfb vr0 vr1 vslice] in *.
  destruct i; try discriminate F; cbn [vmem vpc vsp vfb vr0 vr1 vslice upd push copy_down] in *;
  unfold need, trapped, checked_run, push, copy_down, bind in *; cbn [vmem vpc vsp vfb vr0 vr1 vslice upd] in *;
  repeat match type of H with
         | context [match ?x with _ => _ end] => let E := fresh "E" in destruct x eqn:E; try discriminate H
         end; try (injection H as <-; cbn; split; reflexivity);
  cbn [vmem vpc vsp vfb vr0 vr1 vslice upd] in *;
  (match goal with E : protect && _ = false |- _ => rewrite E end; injection H as <-; split; reflexivity).
Qed.
Lemma goes_runs code cs : forall pre post is s t P, code = pre ++ plain_bytes cs ++ post -> reads cs is -> forallb straight is = true ->
  vpc s = lenZ pre -> goes code P (lenZ (pre ++ plain_bytes cs)) s t -> (forall i s t, P i s t -> calm s /\ tame i s t) -> calm t ->
  forall q, runs code is (at_pc s q) (at_pc t q).
Proof.
  induction cs as [|c cs IH]; intros pre post is s t P EC R SI VP G HP CT q.
  - inversion R; subst is. cbn [plain_bytes map concat] in G. rewrite app_nil_r in G. inversion G; subst; [|congruence]. constructor. exact CT.
  - inversion R as [|? i ? is' IC R']; subst. cbn [forallb] in SI. apply andb_prop in SI. destruct SI as [SI SS].
    change (plain_bytes (c :: cs)) with (chunk_bytes c ++ plain_bytes cs) in *.
    pose proof (decode_chunk pre c (plain_bytes cs ++ post) i IC (straight_flat _ SI)) as DC. rewrite <- app_assoc in G |- *. rewrite <- (app_assoc (chunk_bytes c)) in IH.
    inversion G as [? STOP|? u ? j n fuel NS DJ LF ST PJ G']; subst.
    + exfalso. rewrite VP, !lenZ_app' in STOP. pose proof (chunk_pos c). pose proof (lenZ_nonneg (plain_bytes cs)). lia.
    + rewrite VP, DC in DJ. injection DJ as -> <-. unfold VmModel.step in ST. rewrite VP, DC in ST.
      destruct (HP _ _ _ PJ) as [CS TS].
      change (mkVm _ _ _ _ _ _ _) with (at_pc s (lenZ pre + lenZ (chunk_bytes c))) in ST.
      destruct (exec_pc _ (pre ++ chunk_bytes c ++ plain_bytes cs ++ post) _ _ _ _ q (straight_flat _ SI) ST) as [PU EX].
      econstructor; [exact CS| |exists fuel; split; [exact LF|exact EX]|].
      * exact TS.
      * eapply (IH (pre ++ chunk_bytes c) post is' u t P); auto.
        -- now rewrite <- !app_assoc.
        -- rewrite PU, lenZ_app'. reflexivity.
        -- now rewrite <- app_assoc.
Qed.
Lemma runs_goes code0 cs : forall pre post js s t, reads cs js -> forallb flatline js = true ->
  runs code0 js s t -> goes (pre ++ plain_bytes cs ++ post) (fun _ _ _ => True) (lenZ (pre ++ plain_bytes cs)) (at_pc s (lenZ pre)) (at_pc t (lenZ (pre ++ plain_bytes cs))).
Proof.
  induction cs as [|c cs IH]; intros pre post js s t R F H.
  - inversion R; subst js. apply runs_nil_inv in H. destruct H as [-> _]. cbn [plain_bytes map concat]. rewrite app_nil_r. now constructor.
  - inversion R as [|? i ? js' IC R']; subst. cbn [forallb] in F. apply andb_prop in F. destruct F as [F FS].
    apply runs_inv in H. destruct H as [u [C [T [[fuel [LF D]] H]]]].
    change (plain_bytes (c :: cs)) with (chunk_bytes c ++ plain_bytes cs) in *.
    pose proof (decode_chunk pre c (plain_bytes cs ++ post) i IC F) as DC. rewrite <- !app_assoc.
    destruct (exec_pc _ (pre ++ chunk_bytes c ++ plain_bytes cs ++ post) _ _ _ _ (lenZ pre + lenZ (chunk_bytes c)) F D) as [PU EX].
    eapply goes_step with (i := i) (fuel := fuel).
    + cbn [vpc at_pc]. rewrite !lenZ_app'. pose proof (chunk_pos c). pose proof (lenZ_nonneg (plain_bytes cs)). lia.
    + exact DC.
    + exact LF.
    + unfold VmModel.step. cbn [vpc at_pc]. rewrite DC. exact EX.
    + exact I.
    + specialize (IH (pre ++ chunk_bytes c) post js' u t R' FS H). rewrite <- !app_assoc in IH. rewrite (lenZ_app' pre (chunk_bytes c)) in IH. exact IH.
Qed.
Theorem derived_runs cs cs' is js code code' pre post pre' post' s t : reads cs is -> forallb straight is = true -> reads cs' js -> derives is js ->
  code = pre ++ plain_bytes cs ++ post -> code' = pre' ++ plain_bytes cs' ++ post' -> vpc s = lenZ pre ->
  goes code (fun i u v => calm u /\ tame i u v) (lenZ (pre ++ plain_bytes cs)) s t -> calm t ->
  exists t', goes code' (fun _ _ _ => True) (lenZ (pre' ++ plain_bytes cs')) (at_pc s (lenZ pre')) t' /\ same (at_pc t (lenZ (pre' ++ plain_bytes cs'))) t'.
Proof.
  intros R SI R' D EC -> VP G CT. pose proof (goes_runs _ _ _ _ _ _ _ _ EC R SI VP G (fun _ _ _ H => H) CT (lenZ pre')) as RU.
  destruct (derives_fits code is js D _ _ RU) as [t' [RJ S]]. exists (at_pc t' (lenZ (pre' ++ plain_bytes cs'))). split.
  - apply (runs_goes _ cs' pre' post' js _ _ R' (derives_flat _ _ D)) in RJ. exact RJ.
  - destruct S as [S1 S2 S3 S4 S5]. constructor; cbn in *; auto.
Qed.
End Seq.
