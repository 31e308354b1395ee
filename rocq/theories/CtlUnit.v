(* The code of whole functions and of the global unit. *)
From Verif Require Import Base BaseLemmas HashModel OpsModel VmModel VmSpec EmitModel CcModel JumpSpec JumpProofs JumpProps LinkSpec CtlSpec CtlSem LayProofs AppendProofs StepProofs TableProofs CtlProofs CtlSim.

(* ---- the machine ---- *)
Section Machine.
Variables (pbits : value -> Z) (obj_hash : mem -> value -> Z) (as_string : mem -> value -> list Z) (trap : bool)
  (hash_index : loc -> loc -> loc -> mem -> res mem) (new_table : loc -> mem -> mem)
  (lib_fn : Z -> option (nat -> nat -> mem -> res (mem * bool))) (native_fn : Z -> option (nat -> nat -> mem -> res mem))
  (ext : opcode -> vm -> res outcome) (C : image) (funs : list fn) (base limit : nat) (protect slices : bool) (fuel : nat) (ips : Z).
Let machine := resumed ips (step pbits obj_hash as_string trap hash_index new_table lib_fn native_fn ext C funs base limit protect slices fuel).
Let top_hash := fun sp m => get_hash pbits obj_hash fuel (LStack (sp - 1)) m.
Variables (M : Type) (R : M -> vm -> Prop).
Hypothesis FREE : position_free R.

Lemma machine_jump p t s a : jumps C p t -> vpc s = p -> R a s ->
  exists s1, machine s = Ok (Run s1) /\ vpc s1 = t /\ R a s1 /\ vsp s1 = vsp s /\ vfb s1 = vfb s /\
    (vmem s1 = vmem s \/ vmem s1 = wr (vmem s) (LStack (vsp s)) (VInt 0)).
Proof.
  intros J E H. unfold machine, resumed, step. rewrite E, J. cbn [VmModel.exec]. unfold force_yield.
  cbn [VmModel.upd set_pc vmem vpc vsp vfb vslice]. destruct ((vslice s - 1 =? 0) && slices).
  - unfold do_yield, resume. cbn [vmem vpc vsp vfb vslice Nat.eqb]. rewrite Nat.sub_0_r. eexists. split; [reflexivity|]. split; [reflexivity|].
    cbn [vmem vpc vsp vfb]. split; [|split; [reflexivity|split; [reflexivity|right; reflexivity]]].
    apply (FREE a s); auto.
  - eexists. split; [reflexivity|]. split; [reflexivity|]. cbn [vmem vpc vsp vfb]. split; [|split; [reflexivity|split; [reflexivity|left; reflexivity]]].
    apply (FREE a s); auto.
Qed.
Lemma machine_JUMP p t s a : jumps C p t -> vpc s = p -> R a s -> exists s1, machine s = Ok (Run s1) /\ vpc s1 = t /\ R a s1.
Proof. intros J E H. destruct (machine_jump _ _ _ _ J E H) as (s1 & A & B & D & _). eauto. Qed.
Lemma machine_jump0 p t s : jumps C p t -> vpc s = p ->
  exists s1, machine s = Ok (Run s1) /\ vpc s1 = t /\ vsp s1 = vsp s /\ vfb s1 = vfb s /\
    (vmem s1 = vmem s \/ vmem s1 = wr (vmem s) (LStack (vsp s)) (VInt 0)).
Proof.
  intros J E. unfold machine, resumed, step. rewrite E, J. cbn [VmModel.exec]. unfold force_yield.
  cbn [VmModel.upd set_pc vmem vpc vsp vfb vslice]. destruct ((vslice s - 1 =? 0) && slices).
  - unfold do_yield, resume. cbn [vmem vpc vsp vfb vslice Nat.eqb]. rewrite Nat.sub_0_r. eexists. split; [reflexivity|]. split; [reflexivity|].
    cbn [vmem vpc vsp vfb]. auto.
  - eexists. split; [reflexivity|]. split; [reflexivity|]. cbn [vmem vpc vsp vfb]. auto.
Qed.
Lemma machine_switch rt dst h s m1 : switch_at C rt dst -> 0 <= h < 4294967296 -> vpc s = rt -> (1 <= vsp s)%nat ->
  top_hash (vsp s) (vmem s) = Ok (h, m1) ->
  exists s1, machine s = Ok (Run s1) /\ vpc s1 = dst h /\ vsp s1 = (vsp s - 1)%nat /\ vfb s1 = vfb s /\ vmem s1 = m1.
Proof.
  intros SW HR E SP TH. unfold machine, resumed, step. unfold top_hash in TH. rewrite E.
  destruct SW as [[D SW]|[D SW]]; rewrite D; cbn [VmModel.exec]; unfold need; cbn [VmModel.upd vmem vpc vsp vfb vslice];
    (destruct (Nat.ltb_spec (vsp s) 1) as [LT|_]; [lia|]); rewrite TH; cbn [bind]; rewrite SW by (auto; reflexivity);
    eexists; (split; [reflexivity|]); cbn; auto.
Qed.
Lemma machine_SELECT e P p rt q s a h a1 (dst : Z -> Z) : sel_means machine top_hash C M R e a h a1 -> pushes e P -> placed C p P e ->
  jumps C (p + lenZ P) rt -> switch_at C rt dst -> vpc s = p -> R a s -> q = dst h ->
  arrives machine M R s q a1.
Proof.
  intros (HH & SM) PU PL J SW E HR ->. destruct (SM P p s PU PL E HR) as (s1 & m1 & X & E1 & SP & TH & R1 & m2 & TH2 & R2).
  destruct (machine_jump0 _ _ _ J E1) as (s2 & A2 & E2 & SP2 & FB2 & MM).
  assert (Q : exists m3, top_hash (vsp s2) (vmem s2) = Ok (h, m3) /\ R a1 (VmModel.upd s1 m3 (vsp s1 - 1))).
  { destruct MM as [-> | ->]; rewrite SP2; eauto. }
  destruct Q as (m3 & TH3 & R3).
  destruct (machine_switch _ _ _ _ _ SW HH E2 ltac:(rewrite SP2; exact SP) TH3) as (s3 & A3 & E3 & SP3 & FB3 & M3).
  exists s3. split; [|split; [exact E3|]].
  - eapply reaches_trans; [exact X|]. eapply reaches_step; [exact A2|]. eapply reaches_step; [exact A3|]. apply reaches_refl.
  - eapply FREE; [exact R3| | |]; cbn [VmModel.upd vsp vfb vmem]; [rewrite SP3, SP2; reflexivity|congruence|left; exact M3].
Qed.
End Machine.

(* ---- placing a finished block ---- *)
Lemma realised C B b : inv b -> resolved b -> placed C B (b_all b) b ->
  realises C B (fun t => B + match nth_error (b_jumps b) t with Some j => j_off j | None => 0 end) b.
Proof.
  intros I0 RS [P1 P2]. split; [|split; [|exact P2]].
  - intros i IR _ NP. apply P1; auto.
  - intros t ref k t0 n S J. pose proof S as (j & N & IJ). rewrite N.
    rewrite <- (RS _ _ _ _ _ _ N IJ J). apply (jump_at_shift (b_all b)); [exact J|].
    intros x X. apply P1.
    + destruct (site_jump _ _ _ (inv_wl _ I0) S) as (k1 & t1 & n1 & J1 & N1). rewrite J in J1. injection J1 as <- <- <-.
      pose proof (jump_at_range _ _ _ _ _ J). fold (size b). lia.
    + intros Q. apply (inv_sep _ I0 _ Q). exists t, ref, k, t0, n. split; [exact S|]. split; [exact J|lia].
Qed.
Lemma inv_start l : inv (mkB [] [] l [] [] [] []).
Proof.
  constructor.
  - split; constructor.
  - repeat split; constructor.
  - reflexivity.
  - intros i P. inversion P.
Qed.
Lemma resolved_start l : resolved (mkB [] [] l [] [] [] []).
Proof. intros t j ref k t0 n N. destruct t; discriminate N. Qed.

(* b is the finished code of s: the code of s, then P *)
Record finished (ret : opcode) (w : place) (s : stmt) (P : list Z) (b : bcode) : Prop := {
  fin_from : exists l b0, emitted ret w s [] [] (mkB [] [] l [] [] [] []) b0 /\ appended b0 empty_bc P b
}.
Lemma finished_shape ret w s P b C B : finished ret w s P b -> size b < 32768 -> placed C B (b_all b) b ->
  exists q, q + lenZ P = B + size b /\ (forall i, 0 <= i < lenZ P -> nthZ C (q + i) = nthZ P i) /\
    exists db dc, shape C ret s B q db dc (fun _ => None) None.
Proof.
  intros [(l & b0 & E & A)] SZ PL. destruct E as [X1 X2 X3 X4 X5 X6].
  pose proof (step_code _ _ _ _ (sd_inv _ _ _ X1) A) as S1. pose proof (ap_size _ _ _ _ A) as SZ1. pose proof (lenZ_nonneg P) as LP.
  pose proof (resolved_appended _ _ _ _ (sd_inv _ _ _ X1) A (X5 eq_refl eq_refl (resolved_start l))) as RS.
  pose proof (realised C B b (sd_inv _ _ _ S1) RS PL) as R.
  exists (B + size b0). split; [lia|]. split.
  - apply placed_nthZ. eapply placed_code; eauto. apply (sd_inv _ _ _ X1).
  - eexists _, _. rewrite <- (Z.add_0_r B) at 1. change 0 with (size (mkB [] [] l [] [] [] [])) at 1.
    eapply X6; [lia|eapply real_pre; [exact S1|exact R]|].
    intros t j T N. rewrite <- (ap_jumps _ _ _ _ A) in N. now rewrite N.
Qed.

(* ---- the parser on functions and on the whole source ---- *)
Lemma push_none o b : match o with O_ReturnZero | O_LiteralZero | O_GlobalStop | O_Stop => True | _ => False end ->
  push_opcode o b = COk (set_code b (b_all b ++ [byte_of o]) (o :: b_ops b)).
Proof. intros H. unfold push_opcode, fuse. destruct (b_ops b); destruct o; try destruct H; reflexivity. Qed.
Lemma appended_nil b : appended b empty_bc [] b.
Proof. apply appended_data. rewrite app_nil_r. destruct b. reflexivity. Qed.
Lemma appended_app b P b1 Q b2 : appended b empty_bc P b1 -> appended b1 empty_bc Q b2 -> appended b empty_bc (P ++ Q) b2.
Proof.
  intros [A1 A2 A3 A4 A5 A6] [B1 B2 B3 B4 B5 B6]. constructor.
  - rewrite B1, A1, app_assoc. reflexivity.
  - congruence.
  - rewrite B3. cbn [map intervals empty_bc b_fns b_objs b_gotos call_sites object_sites sites flat_map app] in *.
    now rewrite app_nil_r.
  - congruence.
  - intros fn h r. rewrite B5, A5. split; [intros [H|H]; [exact H|destruct (empty_refers _ _ _ H)]|auto].
  - apply empty_sites.
Qed.
Definition function_code (s : stmt) (b : bcode) : Prop :=
  finished O_Return InBlock s [byte_of O_ReturnZero] b \/ (tail InBlock s = Some LReturn /\ finished O_Return InBlock s [] b).
Lemma not_return o b b1 : o <> Some LReturn -> b_ops b = [] -> ended o b b1 ->
  last_op_is O_Return b1 || last_op_is O_ReturnZero b1 = false.
Proof.
  intros NR EB E. destruct o as [[]|]; cbn [ended] in E.
  - unfold last_op_is in *. destruct (b_ops b1) as [|x r]; [reflexivity|]. destruct x; try discriminate E; reflexivity.
  - congruence.
  - destruct E as (_ & -> & -> & _). reflexivity.
  - unfold last_op_is. rewrite E, EB. reflexivity.
Qed.
Lemma tail_dec (o : option last_instr) : {o = Some LReturn} + {o <> Some LReturn}.
Proof. destruct o as [[]|]; ((left; reflexivity) || (right; discriminate)). Qed.
Lemma unit_ok n h args s st st' r : tidy InBlock s -> good O_Return s ->
  p_brk st = [] -> p_cont st = [] -> p_toks st = T_lbrace :: tk s ++ T_rbrace :: r ->
  parse_unit (parse_statement n) h args st = COk st' ->
  p_toks st' = r /\ p_fn st' = p_fn st /\ p_brk st' = [] /\ p_cont st' = [] /\ p_glob st' = p_glob st /\
  exists b, function_code s b /\ p_units st' = p_units st ++ [mkU h (lenZ args) false b].
Proof.
  intros TD GD PB PC TT H. unfold parse_unit in H. set (b0 := mkB [] [] (merge_locals [] args) [] [] [] []) in *.
  unfold expect in H. cbn [p_toks] in H. rewrite TT in H. cbn [tok_eqb cbind] in H.
  set (base := mkP [] (p_glob st) (Some b0) (p_units st) [] [] (p_fe st)).
  match type of H with context [parse_statement n O_Return T_rbrace ?x] => set (st0 := x) in H end.
  assert (V : view st0 (tk s ++ T_rbrace :: r) b0 [] [] base).
  { unfold st0, base, view, set_toks, cur, glob_of. cbn. rewrite PB, PC. auto 10. }
  destruct (parse_statement n O_Return T_rbrace st0) as [st1| |] eqn:E; cbn [cbind] in H; try discriminate H.
  destruct (compiled O_Return s InBlock TD GD n st0 st1 (T_rbrace :: r) b0 [] [] base I V (inv_start _) I E) as (n' & st2 & b2 & V2 & EM & E2).
  assert (ST : st1 = set_toks r st2).
  { destruct n'; [discriminate E2|]. cbn [parse_statement] in E2. rewrite (proj1 V2) in E2. cbn [tok_eqb] in E2. injection E2 as <-. reflexivity. }
  assert (V1 : view st1 r b2 [] [] base) by (subst st1; eapply view_toks; eauto). clear V V2 E2 ST.
  assert (CB : cur st1 = b2) by apply V1. rewrite CB in H.
  assert (GL : forall x b3, view x r b3 [] [] base -> p_glob x = p_glob st).
  { intros x b3 (_ & _ & _ & _ & _ & _ & G). unfold glob_of, base in G. cbn in G. destruct (p_fn x); [injection G as ->; reflexivity|discriminate G]. }
  assert (FIN : forall x b3, view x r b3 [] [] base -> function_code s b3 ->
     COk (mkP (p_toks x) (p_glob x) (p_fn st) (p_units x ++ [mkU h (lenZ args) false (cur x)]) (p_brk x) (p_cont x) (p_fe x)) = COk st' ->
     p_toks st' = r /\ p_fn st' = p_fn st /\ p_brk st' = [] /\ p_cont st' = [] /\ p_glob st' = p_glob st /\
     exists b, function_code s b /\ p_units st' = p_units st ++ [mkU h (lenZ args) false b]).
  { intros x b3 VX FC HE. injection HE as <-. pose proof (GL _ _ VX) as GX. destruct VX as (A1 & A2 & A3 & A4 & A5 & A6 & A7). cbn.
    repeat (split; [assumption || reflexivity|]). exists b3. split; [exact FC|]. rewrite A5, A2. reflexivity. }
  destruct (tail_dec (tail InBlock s)) as [TR|TR].
  - destruct (last_op_is O_Return b2 || last_op_is O_ReturnZero b2) eqn:LO; cbn [cbind] in H.
    + apply (FIN _ _ V1); [|exact H]. right. split; [exact TR|]. constructor. exists (merge_locals [] args), b2. split; [exact EM|apply appended_nil].
    + vemit H V1 b3 E3. rewrite (push_none O_ReturnZero _ I) in E3. injection E3 as <-. eapply FIN; [exact V1| |exact H].
      left. constructor. exists (merge_locals [] args), b2. split; [exact EM|]. apply appended_data. reflexivity.
  - rewrite (not_return _ b0 _ TR eq_refl (em_tail _ _ _ _ _ _ _ EM)) in H. vemit H V1 b3 E3.
    rewrite (push_none O_ReturnZero _ I) in E3. injection E3 as <-. eapply FIN; [exact V1| |exact H].
    left. constructor. exists (merge_locals [] args), b2. split; [exact EM|]. apply appended_data. reflexivity.
Qed.

Lemma source_not_else l : not_else (source l).
Proof.
  induction l as [|i l IH]; [exact I|]. cbn [source flat_map]. fold (source l). destruct i; [cbn [tk_item]; now apply tk_not_else|exact I].
Qed.
Lemma tk_some s : tidy Body s -> exists t r, tk s = t :: r.
Proof.
  destruct s; cbn; intros T; eauto; try (destruct e; eauto; fail); try (now destruct T); discriminate T.
Qed.
Lemma program_ok : forall l n fuel st st', Forall item_ok l -> p_toks st = source l -> p_fn st = None -> p_brk st = [] -> p_cont st = [] ->
  inv (p_glob st) -> ctx_ok (b_ops (p_glob st)) -> parse_program n fuel st = COk st' ->
  p_fn st' = None /\ emitted O_GlobalStop Body (global_code l) [] [] (p_glob st) (p_glob st') /\
  exists us, p_units st' = p_units st ++ us /\
    Forall2 (fun f u => u_hash u = fst (fst f) /\ u_args u = lenZ (snd (fst f)) /\ function_code (snd f) (u_code u)) (functions l) us.
Proof.
  induction l as [|i l IH]; intros n fuel st st' OK TT FN PB PC I0 CX H; (destruct n as [|n]; [discriminate|]); cbn [parse_program] in H.
  - rewrite TT in H. cbn [source flat_map] in H. injection H as <-. split; [exact FN|]. split; [now apply emitted_skip|].
    exists []. split; [now rewrite app_nil_r|constructor].
  - apply Forall_cons_iff in OK as [OI OK]. cbn [source flat_map] in TT. fold (source l) in TT. destruct i as [s|h args s]; cbn [tk_item item_ok] in *.
    + destruct OI as [TD GD]. destruct (tk_some _ TD) as (t & r & TS).
      assert (H' : (st <~ parse_statement fuel O_GlobalStop T_semi st;; parse_program n fuel st) = COk st') by (rewrite TT, TS in H; exact H).
      clear H. destruct (parse_statement fuel O_GlobalStop T_semi st) as [st1| |] eqn:E; cbn [cbind] in H'; try discriminate H'.
      assert (V : view st (tk s ++ source l) (p_glob st) [] [] st) by (unfold view, cur; rewrite FN; auto 10).
      destruct (compiled O_GlobalStop s Body TD GD fuel st st1 (source l) (p_glob st) [] [] st (or_intror (source_not_else l)) V I0 CX E)
        as (b1 & V1 & EM). assert (FN1 : p_fn st1 = None).
      { pose proof V1 as (_ & _ & _ & _ & _ & _ & G). unfold glob_of in G. rewrite FN in G. destruct (p_fn st1); [discriminate|reflexivity]. }
      destruct V1 as (A1 & A2 & A3 & A4 & A5 & A6 & A7). unfold cur in A2. rewrite FN1 in A2.
      assert (I1 : inv (p_glob st1)) by (rewrite A2; apply (sd_inv _ _ _ (em_step _ _ _ _ _ _ _ EM))).
      assert (CX1 : ctx_ok (b_ops (p_glob st1))) by (rewrite A2; apply (em_ctx _ _ _ _ _ _ _ EM)).
      destruct (IH _ _ _ _ OK A1 FN1 A3 A4 I1 CX1 H') as (F1 & EM1 & us & U & FU).
      split; [exact F1|]. split; [|exists us; split; [congruence|exact FU]].
      unfold global_code. cbn [flat_map app seq_of]. rewrite A2 in EM1. eapply emitted_seq; [exact EM|exact EM1].
    + destruct OI as [TD GD]. rewrite <- app_comm_cons in TT.
      assert (H' : (st <~ parse_statement fuel O_GlobalStop T_semi st;; parse_program n fuel st) = COk st') by (rewrite TT in H; exact H).
      clear H. destruct (parse_statement fuel O_GlobalStop T_semi st) as [st1| |] eqn:E; cbn [cbind] in H'; try discriminate H'.
      destruct fuel as [|fuel]; [discriminate E|]. cbn [parse_statement] in E. rewrite TT in E. cbn [tok_eqb] in E. rewrite FN in E.
      destruct (parse_unit (parse_statement fuel) h args _) as [st2| |] eqn:E2; cbn [cbind] in E; try discriminate E.
      cbn [app] in E2. rewrite <- app_assoc in E2. cbn [app] in E2.
      injection E as ->. match type of E2 with parse_unit _ _ _ ?x = _ => set (stx := x) in E2 end.
      destruct (unit_ok fuel h args s stx st1 (source l) TD GD) as (A1 & A2 & A3 & A4 & A5 & b & FC & U1);
        [exact PB|exact PC|reflexivity|exact E2|].
      cbn [stx set_toks p_fn p_glob p_units] in A2, A5, U1. rewrite FN in A2.
      rewrite <- A5 in I0, CX. destruct (IH _ _ _ _ OK A1 A2 A3 A4 I0 CX H') as (F1 & EM1 & us & U & FU).
      split; [exact F1|]. split; [rewrite <- A5; exact EM1|]. exists (mkU h (lenZ args) false b :: us). split.
      * rewrite U, U1, <- app_assoc. reflexivity.
      * cbn [functions flat_map app]. constructor; [cbn; auto|exact FU].
Qed.
Definition global_unit (s : stmt) (b : bcode) : Prop :=
  finished O_GlobalStop Body s [byte_of O_LiteralZero; byte_of O_GlobalStop; byte_of O_Stop] b \/
  (tail Body s = Some LReturn /\ finished O_GlobalStop Body s [byte_of O_Stop] b).
Lemma not_stop o b b1 : o <> Some LReturn -> b_ops b = [] -> ended o b b1 -> last_op_is O_GlobalStop b1 = false.
Proof.
  intros NR EB E. destruct o as [[]|]; cbn [ended] in E.
  - unfold last_op_is in *. destruct (b_ops b1) as [|x r]; [reflexivity|]. destruct x; try discriminate E; reflexivity.
  - congruence.
  - destruct E as (_ & _ & _ & ->). reflexivity.
  - unfold last_op_is. rewrite E, EB. reflexivity.
Qed.
Lemma compiled_source l fuel g us : Forall item_ok l -> compile_units fuel (source l) = COk (g, us) ->
  global_unit (global_code l) g /\
  Forall2 (fun f u => u_hash u = fst (fst f) /\ u_args u = lenZ (snd (fst f)) /\ function_code (snd f) (u_code u)) (functions l) us.
Proof.
  intros OK H. unfold compile_units in H. destruct (parse_program fuel fuel (start (source l))) as [st| |] eqn:E; cbn [cbind] in H; try discriminate H.
  destruct (program_ok l _ _ (start (source l)) _ OK eq_refl eq_refl eq_refl eq_refl (inv_start []) I E) as (FN & EM & us0 & U & FU).
  cbn [start p_glob p_units app] in *.
  assert (FIN : forall b P, appended (p_glob st) empty_bc P b -> appended b empty_bc [byte_of O_Stop] (set_code b (b_all b ++ [byte_of O_Stop]) (O_Stop :: b_ops b)) /\
     finished O_GlobalStop Body (global_code l) (P ++ [byte_of O_Stop]) (set_code b (b_all b ++ [byte_of O_Stop]) (O_Stop :: b_ops b))).
  { intros b P A. assert (B : appended b empty_bc [byte_of O_Stop] (set_code b (b_all b ++ [byte_of O_Stop]) (O_Stop :: b_ops b))) by (apply appended_data; reflexivity).
    split; [exact B|]. constructor. exists [], (p_glob st). split; [exact EM|]. eapply appended_app; eauto. }
  assert (ADD : (b <~ push_opcode O_LiteralZero (p_glob st);; push_opcode O_GlobalStop b) =
    COk (set_code (p_glob st) (b_all (p_glob st) ++ [byte_of O_LiteralZero; byte_of O_GlobalStop]) (O_GlobalStop :: O_LiteralZero :: b_ops (p_glob st)))).
  { rewrite (push_none O_LiteralZero _ I). cbn [cbind]. rewrite (push_none O_GlobalStop _ I). cbn [set_code b_all b_ops]. rewrite <- app_assoc. reflexivity. }
  rewrite ADD in H. split.
  - destruct (tail_dec (tail Body (global_code l))) as [TR|TR].
    + destruct (last_op_is O_GlobalStop (p_glob st)); cbn [cbind] in H; rewrite (push_none O_Stop _ I) in H; cbn [cbind] in H;
        injection H as <- _.
      * right. split; [exact TR|]. apply (FIN (p_glob st) [] (appended_nil _)).
      * left. refine (proj2 (FIN _ [byte_of O_LiteralZero; byte_of O_GlobalStop] _)). apply appended_data. reflexivity.
    + rewrite (not_stop _ empty_bc _ TR eq_refl (em_tail _ _ _ _ _ _ _ EM)) in H. cbn [cbind] in H. rewrite (push_none O_Stop _ I) in H. cbn [cbind] in H.
      injection H as <- _. left. refine (proj2 (FIN _ [byte_of O_LiteralZero; byte_of O_GlobalStop] _)). apply appended_data. reflexivity.
  - destruct (if last_op_is O_GlobalStop (p_glob st) then _ else _) as [b| |]; cbn [cbind] in H; try discriminate H.
    destruct (push_opcode O_Stop b) as [b1| |]; cbn [cbind] in H; try discriminate H. injection H as _ <-. rewrite U. exact FU.
Qed.

(* ---- no escape from a function ---- *)
Lemma items_enclosed brk cont s : enclosed brk cont s = true -> enclosed brk cont (seq_of (items s)) = true.
Proof.
  assert (AP : forall l1 l2, enclosed brk cont (seq_of l1) = true -> enclosed brk cont (seq_of l2) = true -> enclosed brk cont (seq_of (l1 ++ l2)) = true).
  { induction l1 as [|x l1 IH]; intros l2 H1 H2; [exact H2|]. cbn in *. apply andb_prop in H1 as [H1 H3]. rewrite H1. cbn. auto. }
  induction s; cbn [items seq_of enclosed]; intros H; rewrite ?andb_true_r; auto.
  apply andb_prop in H as [H1 H2]. auto.
Qed.
Lemma selected_enclosed brk cont h s : enclosed brk cont s = true -> enclosed brk cont (seq_of (selected h s)) = true.
Proof.
  intros H. apply items_enclosed in H. unfold selected. revert H. generalize (items s). intros l H.
  assert (A : forall r, from_case h l = Some r -> enclosed brk cont (seq_of r) = true).
  { induction l as [|x l IH]; intros r E; [discriminate|]. cbn [seq_of enclosed] in H. apply andb_prop in H as [H1 H2].
    destruct x; cbn [from_case] in E; auto. destruct (h0 =? h); [injection E as <-; exact H2|auto]. }
  assert (B : forall r, from_default l = Some r -> enclosed brk cont (seq_of r) = true).
  { clear A. induction l as [|x l IH]; intros r E; [discriminate|]. cbn [seq_of enclosed] in H. apply andb_prop in H as [H1 H2].
    destruct x; cbn [from_default] in E; auto. injection E as <-; exact H2. }
  destruct (from_case h l); [auto|]. destruct (from_default l); auto.
Qed.
Lemma no_escape M V re ce se te s a o a1 : CtlSpec.exec M V re ce se te s a o a1 ->
  forall brk cont, enclosed brk cont s = true -> (o = OBreak -> brk = true) /\ (o = OCont -> cont = true).
Proof.
  intros H. induction H; intros brk cont E; cbn [enclosed] in E;
    try (apply andb_prop in E as [E1 E2]); try (split; discriminate); eauto.
  - split; [auto|discriminate].
  - split; [discriminate|auto].
  - destruct (IHexec _ _ (selected_enclosed _ _ h _ E)) as [_ B]. split; [|exact B].
    intros ->. destruct H1 as [H1|(x & H1)]; discriminate H1.
Qed.
