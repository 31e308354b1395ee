(* Proofs for C61: the tokens of a source file spell its program (TextSpec), and the image made of its text
   contains the code of the program. *)
From Coq Require Import String.
From Verif Require Import Base BaseLemmas HashModel OpsModel VmModel VmSpec VmProofs OpsLocal EmitModel CcModel ExprModel ExprSpec ExprNest ExprStack LinkModel LinkSpec LinkProps
  FuseSpec EvalSpec EvalProofs EvalRun EvalProps ProgSpec ProgCode ProgCtl ProgRun CallRun ProgMean ProgCall CallCode ProgProps
  TokenModel TokenSpec TokenProofs TokenProps ParseModel ParseSpec ParseProofs ParseRun ParseProps TextModel TextSpec TextProps ScriptSpec.
From Verif Require LayProofs TextBlocks CtlSpec CtlSem CtlUnit CtlProps VmProps WholeProps.
Open Scope string_scope. Open Scope list_scope. Open Scope Z_scope.

(* ---------------------------------------------------------------- spelling *)
Definition at_depth (f : option (list (list Z))) (d : nat) : place := option_map (fun ls => (ls, d)) f.
Lemma at_depth_locals f d : TextSpec.locals_of (at_depth f d) = f.
Proof. now destruct f. Qed.
Lemma at_depth_braced f d : braced (at_depth f d) = at_depth f (S d).
Proof. now destruct f. Qed.
Section Names.
Variable names : list (list Z).
Lemma spells_says g f d e b ts l w G us : says g f e ts -> compile e = COk b ->
  spells names g (at_depth f d) l w G us -> spells names g (at_depth f d) (T_expr b :: l) (ts ++ w) G us.
Proof. intros (t & T & D & C) E H. eapply SP_expression; eauto. now rewrite at_depth_locals. Qed.
Lemma spells_sign g f k s l w G us : In (k, s) word_or_sign -> spells names g f l w G us -> spells names g f (k :: l) (sign s :: w) G us.
Proof. apply SP_sign. Qed.
Lemma spells_settings g f d a ts : settings_say g f a ts -> forall bs l w G us, compile_settings a = COk bs ->
  spells names g (at_depth f d) l w G us -> spells names g (at_depth f d) (CtlSpec.comma bs ++ l) (ts ++ w) G us.
Proof.
  induction 1 as [|a ts S1|a b r ts w S1 S2 IH]; intros bs l w' G us E H.
  - injection E as <-. exact H.
  - cbn [compile_settings] in E. unfold compile_setting in E. destruct (compile (setting_tree a)) as [x| |] eqn:X; [|discriminate E..]. cbn [cbind] in E. injection E as <-.
    cbn [CtlSpec.comma app]. eapply spells_says; eauto.
  - cbn [compile_settings] in E. unfold compile_setting in E at 1. destruct (compile (setting_tree a)) as [x| |] eqn:X; [|discriminate E..]. cbn [cbind] in E.
    change (y <~ compile_setting b ;; ys <~ compile_settings r ;; COk (y :: ys)) with (compile_settings (b :: r)) in E.
    destruct (compile_settings (b :: r)) as [ys| |] eqn:Y; [|discriminate E..]. cbn [cbind] in E. injection E as <-.
    assert (Z0 : exists y z, ys = y :: z).
    { cbn [compile_settings] in Y. destruct (compile_setting b) as [y| |]; [|discriminate Y..]. cbn [cbind] in Y. destruct (compile_settings r) as [z| |]; [|discriminate Y..]. injection Y as <-. eauto. }
    destruct Z0 as (y & z & ->). specialize (IH _ _ _ _ _ eq_refl H). cbn [CtlSpec.comma app]. rewrite <- app_assoc.
    eapply spells_says; [exact S1|exact X|]. cbn [app]. apply spells_sign; [cbn; tauto|]. exact IH.
Qed.
Lemma spells_option g f d e ts : option_says g f e ts -> forall b l w G us, compile_option e = COk b ->
  spells names g (at_depth f d) l w G us -> spells names g (at_depth f d) (match b with Some c => [T_expr c] | None => [] end ++ l) (ts ++ w) G us.
Proof.
  intros S1 b l w G us E H. destruct e as [e|]; cbn [option_says compile_option] in *.
  - destruct (compile e) as [x| |] eqn:X; [|discriminate E..]. cbn [cbind] in E. injection E as <-. cbn [app]. eapply spells_says; eauto.
  - injection E as <-. now rewrite S1.
Qed.
Ltac got E := match type of E with (_ <~ ?x ;; _) = _ => let X := fresh "X" in destruct x eqn:X; [|discriminate E..]; cbn [cbind] in E end.
Ltac ends E := injection E as <-.
Ltac sgn := apply spells_sign; [cbn; tauto|].
Lemma spells_statement ret wide g f s w g1 f1 : statement_says names g f s w g1 f1 -> forall c d l w' G us,
  usable_prog ret wide s -> statement s = COk c -> spells names g1 (at_depth f1 d) l w' G us ->
  spells names g (at_depth f d) (CtlSpec.tk c ++ l) (w ++ w') G us.
Proof.
  induction 1 as [g f|g f a b v w g1 f1 g2 f2 _ IH1 _ IH2|g f a ts S1|g x e ts I1 I2 I3 S1|g ls x e ts I1 I2 I3 S1|g f to tt n args tss TG I1 NY FA|g x n args tss I1 I2 I3 I4 NY FA|g ls x n args tss I1 I2 I3 I4 NY FA|g f c s ts w g1 f1 S1 _ IH|g f c a b ts v w g1 f1 g2 f2 S1 _ IH1 _ IH2|
    g f c s ts w g1 f1 S1 _ IH|g f c s ts w g1 f1 _ IH S1|g f i c p s ti tc tp w g1 f1 SI SC SP _ IH|g f|g f|g f e ts S1|g f e s ts w g1 f1 S1 _ IH|g f t v q|g f|g f s w g1 f1 _ IH];
    intros k d l w' G us U E H; cbn [statement usable_prog] in U, E; repeat got E; try ends E; cbn [CtlSpec.tk]; repeat (rewrite <- ?app_assoc; cbn [app]).
  - exact H.
  - apply IH1; [apply U|reflexivity|]. apply IH2; [apply U|reflexivity|exact H].
  - eapply spells_says; [exact S1|exact X|]. sgn. exact H.
  - destruct S1 as (t & T & D & C). destruct U as ((_ & FI & _ & LO & _) & _). eapply (SP_var_global names g x t ts e); eauto.
  - destruct S1 as (t & T & D & C). destruct U as ((_ & FI & _ & LO & _) & _). eapply (SP_var_local names g ls d x t ts e); eauto.
  - eapply (SP_call names g (at_depth f d)); rewrite ?at_depth_locals; eauto. sgn. exact H.
  - eapply (SP_var_call_global names g x n args tss); eauto.
  - eapply (SP_var_call_local names g ls d x n args tss); eauto.
  - sgn. sgn. eapply spells_says; [exact S1|eassumption|]. sgn. apply IH; [apply U|reflexivity|exact H].
  - sgn. sgn. eapply spells_says; [exact S1|eassumption|]. sgn. apply IH1; [apply U|reflexivity|]. sgn. apply IH2; [apply U|reflexivity|exact H].
  - sgn. sgn. eapply spells_says; [exact S1|eassumption|]. sgn. apply IH; [apply U|reflexivity|exact H].
  - sgn. apply IH; [apply U|reflexivity|]. sgn. sgn. eapply spells_says; [exact S1|eassumption|]. sgn. sgn. exact H.
  - sgn. sgn. eapply spells_settings; [exact SI|eassumption|]. sgn. eapply spells_option; [exact SC|eassumption|]. sgn. eapply spells_settings; [exact SP|eassumption|]. sgn.
    apply IH; [apply U|reflexivity|exact H].
  - sgn. sgn. exact H.
  - sgn. sgn. exact H.
  - destruct a as [a|]; cbn [app]; sgn.
    + apply (spells_option g f d e ts S1 (Some a) _ _ _ _ X). sgn. exact H.
    + apply (spells_option g f d e ts S1 None _ _ _ _ X). sgn. exact H.
  - sgn. sgn. eapply spells_says; [exact S1|eassumption|]. sgn. apply SP_open. rewrite at_depth_braced. apply IH; [apply U|reflexivity|].
    rewrite <- at_depth_braced. apply SP_close. exact H.
  - replace (u32 (s32 v)) with (u32 v); [apply SP_case; exact H|]. symmetry. apply u32_s32.
  - apply SP_default. exact H.
  - apply SP_open. rewrite at_depth_braced. apply IH; [apply U|reflexivity|]. rewrite <- at_depth_braced. apply SP_close. exact H.
Qed.
Lemma spells_file wide l items : Forall2 (item_for wide) l items -> forall g w g2 us, file_says names g l w g2 us ->
  spells names g None (CtlSem.source items) w g2 us.
Proof.
  intros F g w g2 us H. revert items F. induction H as [g|g s v g1 l w g2 us S1 _ IH|g n params s v ls l w g2 us I1 I2 I3 I4 S1 _ IH]; intros items F.
  - inversion F; subst. apply SP_end.
  - inversion F as [|i x l' items' IF F']; subst. inversion IF as [s' c U E T|]; subst. cbn [CtlSem.source flat_map CtlSem.tk_item].
    exact (spells_statement _ _ _ None _ _ _ None S1 _ 0%nat _ _ _ _ U E (IH _ F')).
  - inversion F as [|i x l' items' IF F']; subst. inversion IF as [|h ps s' c U E T]; subst. cbn [CtlSem.source flat_map CtlSem.tk_item app]. apply SP_function; auto.
    rewrite <- app_assoc. cbn [app].
    refine (spells_statement _ _ _ (Some params) _ _ _ (Some ls) S1 _ 0%nat _ _ _ _ U E _). apply SP_close_function. exact (IH _ F').
Qed.
Lemma locals_there g l w g2 us : file_says names g l w g2 us ->
  Forall2 (fun r ls => (length (snd (fst r)) <= length ls)%nat) (routines l) us.
Proof.
  assert (G : forall g f s w g1 f1, statement_says names g f s w g1 f1 -> forall ps, f = Some ps -> exists ls, f1 = Some ls /\ (length ps <= length ls)%nat).
  { induction 1; intros ps E; subst; try discriminate E; eauto.
    - destruct (IHstatement_says1 _ eq_refl) as (l1 & -> & L1). destruct (IHstatement_says2 _ eq_refl) as (l2 & -> & L2). exists l2. split; [reflexivity|lia].
    - injection E as <-. eexists. split; [reflexivity|]. rewrite app_length. lia.
    - injection E as <-. eexists. split; [reflexivity|]. rewrite app_length. lia.
    - destruct (IHstatement_says1 _ eq_refl) as (l1 & -> & L1). destruct (IHstatement_says2 _ eq_refl) as (l2 & -> & L2). exists l2. split; [reflexivity|lia]. }
  induction 1 as [|g s v g1 l w g2 us S1 F IH|g n params s v ls l w g2 us _ _ _ _ S1 F IH]; cbn; [constructor|exact IH|]. constructor; [|exact IH].
  cbn. rewrite map_length. destruct (G _ _ _ _ _ _ S1 _ eq_refl) as (ls' & [= <-] & L). exact L.
Qed.
End Names.

(* ---------------------------------------------------------------- braces match *)
Lemma bal_app a b : TextBlocks.bal (a ++ b) = TextBlocks.bal a + TextBlocks.bal b.
Proof. rewrite !bal_count, !filter_app, !app_length. lia. Qed.
Lemma comma_bal l : TextBlocks.bal (CtlSpec.comma l) = 0.
Proof. induction l as [|e [|e' r] IH]; try reflexivity. change (TextBlocks.bal (CtlSpec.comma (e :: e' :: r))) with (TextBlocks.bal (CtlSpec.comma (e' :: r))). exact IH. Qed.
Lemma tk_bal s : TextBlocks.bal (CtlSpec.tk s) = 0.
Proof.
  induction s; cbn [CtlSpec.tk TextBlocks.bal]; repeat (rewrite ?bal_app, ?comma_bal; cbn [TextBlocks.bal]); try lia; try reflexivity.
  - destruct c; cbn [TextBlocks.bal]; lia.
  - destruct e; reflexivity.
Qed.
Lemma source_balanced l : balanced (CtlSem.source l).
Proof.
  assert (G : TextBlocks.bal (CtlSem.source l) = 0); [|rewrite bal_count in G; unfold balanced; lia].
  induction l as [|i l IH]; [reflexivity|]. unfold CtlSem.source in *. cbn [flat_map]. rewrite bal_app, IH.
  destruct i; cbn [CtlSem.tk_item TextBlocks.bal]; rewrite ?bal_app, tk_bal; reflexivity.
Qed.

(* ---------------------------------------------------------------- the image *)
(* as WholeProps.c52_compile_link_load_run_partial, for units that have other names in their name spaces *)
Definition renames (u u' : cunit) : Prop := exists l, u' = named_unit l u.
Lemma renamed_link l n g0 us0 gl us flags symbols text img :
  Forall CtlSem.item_ok l -> compile_units n (CtlSem.source l) = COk (g0, us0) -> Forall2 renames us0 us -> link (named_space gl g0) us flags symbols text = COk img ->
  0 <= flags < 256 -> lenZ text < 2147483648 -> lenZ img <= 65535 -> Forall unit_fits us ->
  Forall (fun u => lenZ (b_all (u_code u)) < 32768) us -> lenZ (b_all g0) < 32768 ->
  (forall h ps s, In (h, ps, s) (CtlSem.functions l) -> h <> yield_hash) ->
  exists c, create_context img = Some c /\ c_globals c = lenZ gl /\
    length (c_funs c) = length (CtlSem.functions l) /\
    (forall i h ps s f, nth_error (CtlSem.functions l) i = Some (h, ps, s) -> nth_error (c_funs c) i = Some f ->
       l_hash f = h /\ l_args f = lenZ ps /\ 0 <= l_frame f /\ l_adjust f = 1 + l_args f + l_frame f /\ l_adjust f < 256 /\
       (forall u, nth_error us i = Some u -> l_args f + l_frame f = lenZ (b_locals (u_code u))) /\
       forall k, CtlSem.follows k (WholeProps.loaded us (c_funs c) img) O_Return s (l_off f)
                   (fun q => WholeProps.function_end img q \/ CtlSpec.tail CtlSpec.InBlock s = Some CtlSpec.LReturn)) /\
    (forall k, CtlSem.follows k (WholeProps.loaded us (c_funs c) img) O_GlobalStop (CtlSem.global_code l) (c_start c)
                 (fun q => WholeProps.global_end img q \/ CtlSpec.tail CtlSpec.Body (CtlSem.global_code l) = Some CtlSpec.LReturn)).
Proof.
  intros OK H RN LK FL LT LI UF US GS NY.
  destruct (CtlUnit.compiled_source l n g0 us0 OK H) as [G F]. destruct (CtlProps.c35_structured_partial l n g0 us0 OK H) as (LEN & FUN & GLO).
  assert (F' : Forall2 (fun f u => u_hash u = fst (fst f)) (CtlSem.functions l) us).
  { clear - F RN. revert us RN. induction F as [|f u fs us' (E & _) F IH]; intros us RN; inversion RN as [|? ? ? ? (nl & ->) RN']; subst; constructor; auto. }
  assert (UY : unnamed us yield_hash).
  { clear - F' NY. unfold unnamed. induction F' as [|f u fs us' E F IH]; constructor.
    - rewrite E. destruct f as ((h & ps) & s). apply (NY h ps s). now left.
    - apply IH. intros h ps s I. apply (NY h ps s). now right. }
  assert (IG : LayProofs.inv g0) by (destruct G as [G|[_ G]]; exact (WholeProps.finished_inv _ _ _ _ _ G)).
  assert (IU0 : Forall (fun u => LayProofs.inv (u_code u)) us0).
  { clear - F. induction F as [|f u fs us' (_ & _ & FC) F IH]; constructor; auto. destruct FC as [FC|[_ FC]]; exact (WholeProps.finished_inv _ _ _ _ _ FC). }
  assert (CU : Forall (fun u => completable (u_code u) /\ names_fit (u_code u)) us).
  { clear - IU0 RN. induction RN as [|u u' us0 us (nl & ->) RN IH]; constructor; [|apply IH; now inversion IU0]. inversion IU0; subst. exact (WholeProps.inv_completable (u_code u) ltac:(assumption)). }
  assert (G1 : 1 <= lenZ (b_all g0)) by (destruct G as [G|[_ G]]; (eapply WholeProps.finished_some; [exact G|discriminate])).
  destruct (WholeProps.inv_completable _ IG) as [CG NG].
  destruct (c39_link_partial (named_space gl g0) us flags symbols text img LK FL LT LI UF UY CG NG CU G1) as (c & CC & GL & FS & LM).
  exists c. split; [exact CC|]. split; [exact GL|]. pose proof (CtlProps.Forall2_length' _ _ _ FS) as LFS. pose proof (CtlProps.Forall2_length' _ _ _ F') as LF'. split; [congruence|].
  rewrite Forall_forall in *. split.
  - intros i h ps s f N1 N2. destruct (nth_error us i) as [u|] eqn:NU.
    2: { apply nth_error_None in NU. assert (X : (i < length (c_funs c))%nat) by (apply nth_error_Some; rewrite N2; discriminate). lia. }
    destruct (paired_back _ _ _ _ _ RN NU) as (u0 & NU0 & nl & EU).
    destruct (FUN i h ps s u0 N1 NU0) as (EH & EA & RUN). destruct (CtlProps.Forall2_nth _ _ _ _ _ _ FS NU N2) as ((D1 & D2 & D3 & D4) & LA).
    pose proof (nth_error_In _ _ NU) as IN. pose proof (nth_error_In _ _ NU0) as IN0. destruct (UF u IN) as (_ & UA & UL).
    assert (XA : u_args u = u_args u0) by (now rewrite EU). assert (XH : u_hash u = u_hash u0) by (now rewrite EU).
    split; [congruence|]. split; [congruence|]. split; [lia|]. split; [exact D4|]. split; [lia|]. split.
    { intros u' [= <-]. lia. }
    intros k. rewrite EU in LA. pose proof (US u IN) as SZ. rewrite EU in SZ.
    pose proof (WholeProps.linked_placed us _ img _ (u_code u0) UY (LayProofs.inv_sites _ (IU0 u0 IN0)) LA) as PL. specialize (RUN k _ _ SZ PL).
    intros M V R RO a o a1 st FREE HM PC HR. specialize (RUN M V R RO a o a1 st FREE HM PC HR). destruct o; auto.
    destruct RUN as (q & Q & AR). exists q. split; [|exact AR]. destruct Q as [(_ & Q)|(TR & _)]; [left|now right].
    specialize (Q 0 ltac:(cbn; lia)). rewrite Z.add_0_r in Q. exact Q.
  - intros k. pose proof (WholeProps.linked_placed us _ img _ g0 UY (LayProofs.inv_sites _ IG) LM) as PL. specialize (GLO k _ _ GS PL).
    intros M V R RO a o a1 st FREE HM PC HR. specialize (GLO M V R RO a o a1 st FREE HM PC HR). destruct o; auto.
    destruct GLO as (q & Q & AR). exists q. split; [|exact AR]. destruct Q as [(_ & Q)|(TR & _)]; [left|now right].
    pose proof (Q 0 ltac:(cbn; lia)) as Q0. rewrite Z.add_0_r in Q0. split; [exact Q0|]. split; [exact (Q 1 ltac:(cbn; lia))|exact (Q 2 ltac:(cbn; lia))].
Qed.
Lemma combined locals : forall units, length locals = length units ->
  Forall2 renames units (map (fun '(l, u) => named_unit (map name_hash l) u) (combine locals units)) /\
  Forall2 (fun ls u => length (b_locals (u_code u)) = length ls) locals (map (fun '(l, u) => named_unit (map name_hash l) u) (combine locals units)).
Proof.
  induction locals as [|l ls IH]; intros [|u us] L; try discriminate L; [split; constructor|]. injection L as L. destruct (IH _ L) as [A B]. cbn [combine map]. split; constructor; auto.
  - eexists. reflexivity.
  - cbn. apply map_length.
Qed.
Lemma script_code a wide l src globals locals img c : (wide <= 254)%nat -> built_from_text a wide l src globals locals img c ->
  exists C : CtlSpec.image, CtlSpec.bytes C = img /\ code_of wide l c C /\ c_globals c = lenZ globals /\ length locals = length (routines l) /\
    (forall i ls f, nth_error locals i = Some ls -> nth_error (vm_funs c) i = Some f -> (fn_args f + fn_frame f)%nat = length ls).
Proof.
  intros W (LB & CN & names & words & AD & FS & WR & items & n & [g0 us0] & F & CU & g & us & flags & symbols & text & TC & LK & CC & FL & LT & LI & UF & US & GS & NY).
  pose proof (c60_program_partial (u_bits a) (u_atof a) (u_consts0 a) (u_consts a) (u_strict a) names _ words src globals locals n g0 us0 LB CN AD
    (spells_file names wide l items F [] words globals locals FS) (source_balanced items) WR CU) as TX.
  unfold text_compiles in TC. rewrite TX in TC. injection TC as <- <-.
  assert (IOK : Forall CtlSem.item_ok items) by (clear -F W; induction F; constructor; eauto using item_for_ok).
  destruct (CtlUnit.compiled_source items n g0 us0 IOK CU) as [_ FU].
  pose proof (routines_functions _ _ _ F) as RF. destruct (outside_code _ _ _ F) as [OS OU]. pose proof (locals_there _ _ _ _ _ _ FS) as LO.
  assert (LR : length (routines l) = length (CtlSem.functions items)) by (clear -RF; induction RF; cbn; congruence).
  assert (LL : length locals = length us0).
  { pose proof (CtlProps.Forall2_length' _ _ _ FU). pose proof (CtlProps.Forall2_length' _ _ _ LO). congruence. }
  destruct (combined locals us0 LL) as [RN LC]. set (us := map (fun '(l, u) => named_unit (map name_hash l) u) (combine locals us0)) in *.
  destruct (renamed_link items n g0 us0 (map qualified globals) us flags symbols text img) as (c' & CC' & CG & LEN & FUN & GLO); auto.
  - intros h ps s I. clear -RF I NY. revert I NY. generalize (routines l) (CtlSem.functions items) RF. clear. induction 1 as [|[[h1 p1] s1] b la lb (E & _) F IH]; intros I NY; [destruct I|].
    destruct I as [->|I]; [cbn in E; injection E as -> ->; apply (NY h ps s1); now left|]. apply IH; auto. intros h2 p2 s2 I2. apply (NY h2 p2 s2). now right.
  - rewrite CC in CC'. injection CC' as <-. exists (WholeProps.loaded us (c_funs c) img). split; [reflexivity|].
    split; [|split; [|split]].
    2: { rewrite CG. unfold lenZ. now rewrite map_length. }
    2: { pose proof (CtlProps.Forall2_length' _ _ _ LO). congruence. }
    2: { intros i ls f N1 N2. unfold vm_funs in N2. rewrite nth_error_map in N2. destruct (nth_error (c_funs c) i) as [lf|] eqn:N3; [|discriminate]. injection N2 as <-. cbn [fn_args fn_frame].
      destruct (paired _ _ _ _ _ LC N1) as (u & NU & LU). destruct (paired_back _ _ _ _ _ LO N1) as ([[h ps] s] & N5 & _).
      destruct (paired _ _ _ _ _ RF N5) as ([[h' ps'] b] & N4 & _).
      destruct (FUN i h' ps' b lf N4 N3) as (_ & LA & LF & _ & _ & LX & _). specialize (LX u NU). assert (0 <= lenZ ps') by (unfold lenZ; lia).
      unfold lenZ in *. lia. }
    unfold code_of. split; [unfold vm_funs; rewrite map_length; congruence|]. split; [|split].
    + intros i h ps s f N1 N2. unfold vm_funs in N2. rewrite nth_error_map in N2. destruct (nth_error (c_funs c) i) as [lf|] eqn:N3; [|discriminate]. injection N2 as <-.
      destruct (paired _ _ _ _ _ RF N1) as ([[h' ps'] b] & N4 & EH & UX & ST). cbn in EH, UX, ST. injection EH as -> ->. destruct (FUN i h' ps' b lf N4 N3) as (_ & LA & LF & LJ & LB' & _ & RUN).
      exists b. split; [exact UX|]. split; [exact ST|]. cbn [fn_args fn_frame fn_adjust fn_off]. assert (0 <= lenZ ps') by (unfold lenZ; lia).
      split; [rewrite LA; unfold lenZ; lia|]. split; [unfold frame_ok; cbn; lia|]. split; [lia|exact RUN].
    + exists (CtlSem.global_code items). auto.
    + intros h q a0 drop i ps s LK1 [N1 N2]. destruct LK1 as (a' & [= <-] & X & _). apply X. split.
      * destruct (paired _ _ _ _ _ RF N1) as ([[h1 p1] b] & M1 & Q1 & _). cbn in Q1. injection Q1 as <- <-.
        destruct (paired _ _ _ _ _ FU M1) as (u & M2 & Q2 & _). destruct (paired _ _ _ _ _ RN M2) as (u' & M3 & nl & ->). eexists. split; [exact M3|exact Q2].
      * intros j u J U. destruct (paired_back _ _ _ _ _ RN U) as (u0 & U0 & nl & ->). destruct (paired_back _ _ _ _ _ FU U0) as ([[h1 p1] b] & M1 & Q1 & _). cbn in Q1. cbn [named_unit u_hash]. rewrite Q1.
        destruct (paired_back _ _ _ _ _ RF M1) as ([[h2 p2] s2] & M2 & Q2 & _). cbn in Q2. injection Q2 as -> ->. intros ->. exact (N2 _ _ _ J M2).
Qed.
