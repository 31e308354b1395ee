(* C35-C38: control statements.  The statements speak of source texts built from the statement forms of
   CtlSpec.v: [tidy] excludes the forms the compiler treats differently (those are the refuted theorems
   at the end), [good] says that the blocks of the expression compiler behave the same in every place a
   statement can put them.  Expressions mean what their code does on the machine (CtlSem.v). *)
From Verif Require Import OpsProofs.
From Verif Require Import Base BaseLemmas HashModel OpsModel VmModel VmSpec EmitModel CcModel LinkModel JumpSpec JumpProofs JumpProps CtlSpec CtlSem LayProofs AppendProofs StepProofs TableProofs CtlProofs LinkSpec CtlSim LinkSpec CtlUnit.

Lemma finished_follows k C ret w s P b B (fin : Z -> Prop) : finished ret w s (map byte_of P) b -> size b < 32768 ->
  placed C B (b_all b) b -> (forall q, closed_by C B b P q -> fin q) -> follows k C ret s B fin.
Proof.
  intros F SZ PL CL M V R RO a o a1 st FREE HM PC HR.
  destruct (finished_shape _ _ _ _ _ _ _ F SZ PL) as (q & Q1 & Q2 & db & dc & SH).
  assert (L : lands (machine k C) M V R RO o a1 st q db dc).
  { eapply sim; [| |exact HM|exact SH|exact PC|exact HR].
    - intros. eapply machine_JUMP; eauto.
    - intros. eapply machine_SELECT; eauto. }
  destruct o as [| | |v]; cbn [lands] in L.
  - exists q. split; [|exact L]. apply CL. split; [unfold lenZ, size in *; rewrite map_length in Q1; exact Q1|].
    intros i I. apply Q2. unfold lenZ in *. rewrite map_length. exact I.
  - destruct (enclosed false false s) eqn:E; [|reflexivity]. destruct (no_escape _ _ _ _ _ _ _ _ _ _ HM _ _ E) as [X _]. discriminate (X eq_refl).
  - destruct (enclosed false false s) eqn:E; [|reflexivity]. destruct (no_escape _ _ _ _ _ _ _ _ _ _ HM _ _ E) as [_ X]. discriminate (X eq_refl).
  - exact L.
Qed.

Lemma Forall2_length' {A B} (Q : A -> B -> Prop) l l' : Forall2 Q l l' -> length l = length l'.
Proof. induction 1; cbn; congruence. Qed.
Lemma Forall2_nth {A B} (Q : A -> B -> Prop) l l' i x y : Forall2 Q l l' -> nth_error l i = Some x -> nth_error l' i = Some y -> Q x y.
Proof.
  intros F. revert i. induction F as [|a b l l' H F IH]; intros [|i] E1 E2; try discriminate E1.
  - injection E1 as <-. injection E2 as <-. exact H.
  - eapply IH; eauto.
Qed.
(* Every function of a compiled source, and the code outside functions, does what its statements mean.
   Missing: units of 32768 bytes and more, foreach, goto, function declarations inside statements, the
   statement forms that are not [tidy]. *)
Theorem c35_structured_partial : forall (l : list item) n g us,
  Forall item_ok l -> compile_units n (source l) = COk (g, us) ->
  length us = length (functions l) /\
  (forall i h ps s u, nth_error (functions l) i = Some (h, ps, s) -> nth_error us i = Some u ->
     u_hash u = h /\ u_args u = lenZ ps /\
     forall k C B, lenZ (b_all (u_code u)) < 32768 -> placed C B (b_all (u_code u)) (u_code u) ->
       follows k C O_Return s B (fun q =>
         closed_by C B (u_code u) [O_ReturnZero] q \/ tail InBlock s = Some LReturn /\ closed_by C B (u_code u) [] q)) /\
  (forall k C B, lenZ (b_all g) < 32768 -> placed C B (b_all g) g ->
     follows k C O_GlobalStop (global_code l) B (fun q =>
       closed_by C B g [O_LiteralZero; O_GlobalStop; O_Stop] q \/
       tail Body (global_code l) = Some LReturn /\ closed_by C B g [O_Stop] q)).
Proof.
  intros l n g us OK H. destruct (compiled_source l n g us OK H) as [G F]. split; [|split].
  - symmetry. eapply Forall2_length'; eauto.
  - intros i h ps s u N1 N2. destruct (Forall2_nth _ _ _ _ _ _ F N1 N2) as (E1 & E2 & FC). cbn in E1, E2, FC.
    split; [exact E1|]. split; [exact E2|]. intros k C B SZ PL. destruct FC as [FC|[TR FC]].
    + eapply finished_follows with (P := [O_ReturnZero]); eauto.
    + eapply finished_follows with (P := []); eauto.
  - intros k C B SZ PL. destruct G as [FC|[TR FC]].
    + eapply finished_follows with (P := [O_LiteralZero; O_GlobalStop; O_Stop]); eauto.
    + eapply finished_follows with (P := [O_Stop]); eauto.
Qed.

(* C34 for what the compiler builds: in every unit of a compiled source every jump goes to its label, and
   the jumps do not overlap.  Missing: the sources left out above. *)
Lemma finished_resolved ret w s P b : finished ret w s P b -> well_labelled b /\ StepProofs.resolved b.
Proof.
  intros [(l & b0 & E & A)]. destruct E as [X1 X2 X3 X4 X5 X6].
  pose proof (step_code _ _ _ _ (sd_inv _ _ _ X1) A) as S1. split; [apply (sd_inv _ _ _ S1)|].
  exact (resolved_appended _ _ _ _ (sd_inv _ _ _ X1) A (X5 eq_refl eq_refl (resolved_start l))).
Qed.
Theorem c34_compiled_partial : forall (l : list item) n g us b,
  Forall item_ok l -> compile_units n (source l) = COk (g, us) -> b = g \/ In b (map u_code us) ->
  well_labelled b /\
  forall j ref, In j (b_jumps b) -> In ref (j_refs j) ->
    exists k m, jump_at (b_all b) (ref - 1) = Some (k, j_off j, m) /\ m <= lenZ (b_all b).
Proof.
  intros l n g us b OK H IB. destruct (compiled_source l n g us OK H) as [G F].
  assert (X : well_labelled b /\ StepProofs.resolved b).
  { destruct IB as [->|IB].
    - destruct G as [G|[_ G]]; exact (finished_resolved _ _ _ _ _ G).
    - apply in_map_iff in IB as (u & <- & IU). revert IU. clear -F. induction F as [|f u' fs us' (_ & _ & FC) F IH]; intros [].
      + subst u'. destruct FC as [FC|[_ FC]]; exact (finished_resolved _ _ _ _ _ FC).
      + auto. }
  destruct X as [W RS]. split; [exact W|]. intros j ref IJ IR. apply In_nth_error in IJ as (t & N).
  destruct (site_jump b t ref W) as (k & t0 & m & J & L); [exists j; auto|]. rewrite (RS _ _ _ _ _ _ N IR J) in J. eauto.
Qed.

(* ---- the parts, for the body of a function ---- *)
(* [s] is the body of a function of the compiled source; its code [u] is placed at [B] *)
Definition function_at (l : list item) (s : stmt) (u : bcode) (C : image) (B : Z) : Prop :=
  Forall item_ok l /\ lenZ (b_all u) < 32768 /\ placed C B (b_all u) u /\
  exists n g us i h ps x, compile_units n (source l) = COk (g, us) /\
    nth_error (functions l) i = Some (h, ps, s) /\ nth_error us i = Some x /\ u_code x = u.
(* the end of the code of the body *)
Definition body_end (C : image) (B : Z) (u : bcode) (s : stmt) (q : Z) : Prop :=
  closed_by C B u [O_ReturnZero] q \/ tail InBlock s = Some LReturn /\ closed_by C B u [] q.
Lemma function_shape l s u C B : function_at l s u C B ->
  exists q db dc, shape C O_Return s B q db dc (fun _ => None) None /\ body_end C B u s q.
Proof.
  intros (OK & SZ & PL & n & g & us & i & h & ps & x & H & N1 & N2 & <-). destruct (compiled_source l n g us OK H) as [_ F].
  destruct (Forall2_nth _ _ _ _ _ _ F N1 N2) as (_ & _ & FC). cbn in FC.
  destruct FC as [FC|[TR FC]]; destruct (finished_shape _ _ _ _ _ _ _ FC SZ PL) as (q & Q1 & Q2 & db & dc & SH);
    exists q, db, dc; (split; [exact SH|]).
  - left. split; [exact Q1|exact Q2].
  - right. split; [exact TR|]. split; [exact Q1|exact Q2].
Qed.
Lemma run_sim k (C : image) ret (M V : Type) (R : M -> vm -> Prop) RO s a o a1 p q db dc cl dl st : position_free R ->
  means (machine k C) (top_hash k) C ret M V R RO s a o a1 -> shape C ret s p q db dc cl dl -> vpc st = p -> R a st ->
  lands (machine k C) M V R RO o a1 st q db dc.
Proof.
  intros FREE HM SH PC HR. eapply sim; [| |exact HM|exact SH|exact PC|exact HR].
  - intros. eapply machine_JUMP; eauto.
  - intros. eapply machine_SELECT; eauto.
Qed.

Lemma jump_sim k (C : image) (M : Type) (R : M -> vm -> Prop) p t s a : position_free R -> jumps C p t -> vpc s = p -> R a s ->
  exists s1, machine k C s = Ok (Run s1) /\ vpc s1 = t /\ R a s1.
Proof. intros. eapply machine_JUMP; eauto. Qed.

(* C36.  A switch runs the statements from the case with the value's hash; if there is none, those from
   default; if there is none either, control arrives behind the switch.  ([selected_by]: the part of the
   text, spelled out.)  Missing: switches whose last statement is compiled to a jump that is not a break
   or continue, switches without code, the case 0xFFFFFFFF (refuted below). *)
Definition selected_by (h : Z) (s : stmt) (r : list stmt) : Prop :=
  (exists a b, items s = a ++ Case h :: b /\ ~ In (Case h) a /\ r = b) \/
  (~ In (Case h) (items s) /\ exists a b, items s = a ++ Default :: b /\ ~ In Default a /\ r = b) \/
  (~ In (Case h) (items s) /\ ~ In Default (items s) /\ r = []).
Lemma from_case_first h a b : ~ In (Case h) a -> from_case h (a ++ Case h :: b) = Some b.
Proof.
  induction a as [|x a IH]; cbn [app from_case]; intros N; [now rewrite Z.eqb_refl|].
  assert (N' : ~ In (Case h) a) by (intros X; apply N; now right). destruct x; cbn [from_case]; auto.
  destruct (Z.eqb_spec h0 h) as [->|_]; [exfalso; apply N; now left|auto].
Qed.
Lemma from_case_none h l : ~ In (Case h) l -> from_case h l = None.
Proof.
  induction l as [|x l IH]; cbn [from_case]; intros N; [reflexivity|].
  assert (N' : ~ In (Case h) l) by (intros X; apply N; now right). destruct x; cbn [from_case]; auto.
  destruct (Z.eqb_spec h0 h) as [->|_]; [exfalso; apply N; now left|auto].
Qed.
Lemma from_default_first a b : ~ In Default a -> from_default (a ++ Default :: b) = Some b.
Proof.
  induction a as [|x a IH]; cbn [app from_default]; intros N; [reflexivity|].
  assert (N' : ~ In Default a) by (intros X; apply N; now right). destruct x; cbn [from_default]; auto. exfalso; apply N; now left.
Qed.
Lemma from_default_none l : ~ In Default l -> from_default l = None.
Proof.
  induction l as [|x l IH]; cbn [from_default]; intros N; [reflexivity|].
  assert (N' : ~ In Default l) by (intros X; apply N; now right). destruct x; cbn [from_default]; auto. exfalso; apply N; now left.
Qed.
Lemma selected_by_eq h s r : selected_by h s r -> selected h s = r.
Proof.
  unfold selected. intros [(a & b & E & N & ->)|[(N & a & b & E & N2 & ->)|(N & N2 & ->)]].
  - now rewrite E, from_case_first.
  - rewrite (from_case_none _ _ N), E. now rewrite from_default_first.
  - now rewrite (from_case_none _ _ N), (from_default_none _ N2).
Qed.
Theorem c36_switch_partial : forall l e s u C B k (M V : Type) R RO a h a1 st r,
  function_at l (Switch e s) u C B -> position_free R ->
  sel_means (machine k C) (top_hash k) C M R e a h a1 -> vpc st = B -> R a st -> selected_by h s r ->
  forall o a2, means (machine k C) (top_hash k) C O_Return M V R RO (seq_of r) a1 o a2 ->
  match o with
  | ONormal | OBreak => exists q, body_end C B u (Switch e s) q /\ arrives (machine k C) M R st q a2
  | OCont => enclosed true false s = false
  | ORet v => delivers (machine k C) V RO st v
  end.
Proof.
  intros l e s u C B k M V R RO a h a1 st r FA FREE SM PC HR SB o a2 HM. apply selected_by_eq in SB.
  destruct (function_shape _ _ _ _ _ FA) as (q & db & dc & SH & BE). rewrite <- SB in HM.
  destruct o as [| | |v].
  - exists q. split; [exact BE|]. pose proof (X_switch _ _ _ _ _ _ _ _ _ _ _ _ _ SM HM (or_introl eq_refl)) as X. exact (run_sim _ _ _ _ _ _ _ _ _ _ _ _ _ _ _ _ _ _ FREE X SH PC HR).
  - exists q. split; [exact BE|]. pose proof (X_switch _ _ _ _ _ _ _ _ _ _ _ _ _ SM HM (or_intror eq_refl)) as X. exact (run_sim _ _ _ _ _ _ _ _ _ _ _ _ _ _ _ _ _ _ FREE X SH PC HR).
  - pose proof (X_switch_exit _ _ _ _ _ _ _ _ _ _ _ _ _ SM HM (or_introl eq_refl)) as X.
    destruct (enclosed true false s) eqn:E; [|reflexivity]. destruct (no_escape _ _ _ _ _ _ _ _ _ _ X false false E) as [_ Y]. discriminate (Y eq_refl).
  - pose proof (X_switch_exit _ _ _ _ _ _ _ _ _ _ _ _ _ SM HM (or_intror (ex_intro _ v eq_refl))) as X. exact (run_sim _ _ _ _ _ _ _ _ _ _ _ _ _ _ _ _ _ _ FREE X SH PC HR).
Qed.

(* C37.  When the statements of a function come to their end the caller receives 0: the return vector on
   the stack is taken, and the instruction behind the call pushes 0.  Missing: bodies whose last
   statement ends in a return (refuted below). *)
Theorem c37_end_returns_zero_partial : forall l s u C B k (M V : Type) (R : M -> vm -> Prop) (RO : V -> outcome -> Prop) a a1 st frame rp,
  function_at l s u C B -> tail InBlock s <> Some LReturn -> position_free R ->
  means (machine k C) (top_hash k) C O_Return M V R RO s a ONormal a1 -> vpc st = B -> R a st ->
  (* in the states described by a1 the return vector is on top of the stack, and there is room *)
  (forall st1, R a1 st1 -> (1 <= vsp st1)%nat /\ (vfb st1 <= vsp st1)%nat /\ mv (vmem st1) (LStack (vsp st1 - 1)) = VRaw frame rp /\
     (k_protect k = true -> (S (vsp st1) < k_limit k)%nat)) ->
  nthZ C (Z.of_nat rp) = Some (byte_of O_PushIndexFunctionReturnValue) -> k_fuel k <> O ->
  exists st1 st2, R a1 st1 /\ reaches (machine k C) st st2 /\ vpc st2 = Z.of_nat rp + 1 /\
    vfb st2 = frame /\ vsp st2 = S (vfb st1) /\ mv (vmem st2) (LStack (vfb st1)) = VInt 0 /\
    (forall x, x <> LStack (vsp st1) -> x <> LStack (vfb st1) -> mv (vmem st2) x = mv (vmem st1) x).
Proof.
  intros l s u C B k M V R RO a a1 st frame rp FA TL FREE HM PC HR RV NX FU.
  destruct (function_shape _ _ _ _ _ FA) as (q & db & dc & SH & BE).
  destruct (run_sim _ _ _ _ _ _ _ _ _ _ _ _ _ _ _ _ _ _ FREE HM SH PC HR) as (st1 & X & E1 & H1).
  destruct BE as [[_ CL]|[TR _]]; [|contradiction]. specialize (CL 0 ltac:(cbn; lia)). rewrite Z.add_0_r in CL.
  destruct (RV _ H1) as (SP & FB & VR & ROOM).
  assert (D : decode C q = Some (IReturnZero, q + 1)) by (unfold decode, rd8; rewrite CL; reflexivity).
  assert (D2 : decode C (Z.of_nat rp) = Some (IPushRet, Z.of_nat rp + 1)) by (unfold decode, rd8; rewrite NX; reflexivity).
  set (m := wr (vmem st1) (LStack (vsp st1)) (VInt 0)).
  set (st3 := mkVm m (Z.of_nat rp) (vfb st1) frame (Some (LStack (S (vsp st1) - 2))) None (vslice st1)).
  assert (S1 : machine k C st1 = Ok (Run st3)).
  { unfold machine, resumed, step. rewrite E1, D. cbn [VmModel.exec]. unfold push, VmModel.upd. cbn [vmem vsp vpc vfb vslice].
    assert (PR : (k_protect k && (k_limit k <=? S (vsp st1))%nat)%bool = false).
    { destruct (k_protect k); [|reflexivity]. specialize (ROOM eq_refl). cbn. apply Nat.leb_gt. lia. }
    rewrite PR. unfold do_return, need. cbn [vmem vsp vpc vfb vslice].
    destruct (Nat.ltb_spec (S (vsp st1)) 2) as [Q|_]; [lia|]. replace (S (vsp st1) - 2)%nat with (vsp st1 - 1)%nat by lia.
    unfold m, st3. replace (S (vsp st1) - 2)%nat with (vsp st1 - 1)%nat by lia.
    rewrite wr_other by (intros Q; injection Q; lia). rewrite VR. reflexivity. }
  set (st2 := mkVm (wr m (LStack (vfb st1)) (VInt 0)) (Z.of_nat rp + 1) (S (vfb st1)) frame None None (vslice st1)).
  assert (S2 : machine k C st3 = Ok (Run st2)).
  { unfold machine, resumed, step. unfold st3. cbn [vpc vmem vsp vfb vr0 vr1 vslice]. rewrite D2. cbn [VmModel.exec VmModel.upd vr0 vsp vfb vmem vpc vslice next_loc].
    replace (S (S (vsp st1) - 2))%nat with (vsp st1) by lia.
    destruct (k_fuel k) as [|f]; [contradiction|]. cbn [deref]. assert (MV : mv m (LStack (vsp st1)) = VInt 0) by (unfold m; apply wr_same).
    rewrite MV. cbn [bind]. rewrite MV.
    unfold checked_run, VmModel.upd. cbn [vmem vsp vpc vfb vslice].
    assert (PR : (k_protect k && (k_limit k <=? S (vfb st1))%nat)%bool = false).
    { destruct (k_protect k); [|reflexivity]. specialize (ROOM eq_refl). cbn. apply Nat.leb_gt. lia. }
    rewrite PR. reflexivity. }
  exists st1, st2. split; [exact H1|]. split; [|split; [reflexivity|split; [reflexivity|split; [reflexivity|split]]]].
  - eapply reaches_trans; [exact X|]. eapply reaches_step; [exact S1|]. eapply reaches_step; [exact S2|]. apply reaches_refl.
  - unfold st2. cbn [vmem]. now rewrite wr_same.
  - intros x N1 N2. unfold st2, m. cbn [vmem]. now rewrite !wr_other by congruence.
Qed.

(* C38.  continue: from the body of a while back to the condition, from the body of a do to the
   condition, from the body of a for to the clauses run after each iteration and then to the condition.
   (For loops inside other statements c35_structured_partial says the same: the meaning of a loop is
   that continue goes on with the next iteration.)  Missing: for-each (refuted below). *)
Theorem c38_continue_while_partial : forall l c s u C B k (M V : Type) R RO a a1 a2 st,
  function_at l (While c s) u C B -> position_free R ->
  cond_means (machine k C) C M R c a true a1 -> means (machine k C) (top_hash k) C O_Return M V R RO s a1 OCont a2 ->
  vpc st = B -> R a st ->
  arrives (machine k C) M R st B a2.
Proof.
  intros l c s u C B k M V R RO a a1 a2 st FA FREE CM HM PC HR. destruct (function_shape _ _ _ _ _ FA) as (q & db & dc & SH & _).
  cbn [shape] in SH. destruct SH as (x & y & SC & S1 & J). destruct (CM _ _ _ _ SC PC HR) as (s1 & X & E1 & R1).
  destruct (run_sim _ _ _ _ _ _ _ _ _ _ _ _ _ _ _ _ _ _ FREE HM S1 E1 R1) as (s2 & Y & H). exists s2. split; [|exact H].
  eapply reaches_trans; eauto.
Qed.
Theorem c38_continue_do_partial : forall l c s u C B k (M V : Type) R RO a a1 st,
  function_at l (Do s c) u C B -> position_free R ->
  means (machine k C) (top_hash k) C O_Return M V R RO s a OCont a1 -> vpc st = B -> R a st ->
  (* the condition is evaluated; then the next iteration, or the end *)
  (exists t r f, cond_at C c t r f /\ arrives (machine k C) M R st t a1) /\
  (forall a2, cond_means (machine k C) C M R c a1 true a2 -> arrives (machine k C) M R st B a2) /\
  (forall a2, cond_means (machine k C) C M R c a1 false a2 ->
     exists q, body_end C B u (Do s c) q /\ arrives (machine k C) M R st q a2).
Proof.
  intros l c s u C B k M V R RO a a1 st FA FREE HM PC HR. destruct (function_shape _ _ _ _ _ FA) as (q & db & dc & SH & BE).
  cbn [shape] in SH. destruct SH as (x & y & S1 & SC & J).
  destruct (run_sim _ _ _ _ _ _ _ _ _ _ _ _ _ _ _ _ _ _ FREE HM S1 PC HR) as (s2 & Y & E2 & R2). split; [|split].
  - exists x, y, q. split; [exact SC|]. exists s2. auto.
  - intros a2 CM. destruct (CM _ _ _ _ SC E2 R2) as (s1 & X & E1 & R1). cbv iota in E1.
    destruct (jump_sim k _ _ _ _ _ _ _ FREE J E1 R1) as (s3 & ST & E3 & R3).
    exists s3. split; [|auto]. eapply reaches_trans; [exact Y|]. eapply reaches_trans; [exact X|]. eapply reaches_step; [exact ST|apply reaches_refl].
  - intros a2 CM. destruct (CM _ _ _ _ SC E2 R2) as (s1 & X & E1 & R1). exists q. split; [exact BE|]. exists s1. split; [|auto].
    eapply reaches_trans; eauto.
Qed.
Theorem c38_continue_for_partial : forall l c post s u C B k (M V : Type) R RO a a1 a2 a3 st,
  function_at l (For [] c post s) u C B -> position_free R ->
  match c with Some c => cond_means (machine k C) C M R c a true a1 | None => a1 = a end ->
  means (machine k C) (top_hash k) C O_Return M V R RO s a1 OCont a2 ->
  runs M (run_means (machine k C) C M R) post a2 a3 -> vpc st = B -> R a st ->
  arrives (machine k C) M R st B a3.
Proof.
  intros l c post s u C B k M V R RO a a1 a2 a3 st FA FREE CM HM HP PC HR. destruct (function_shape _ _ _ _ _ FA) as (q & db & dc & SH & BE).
  cbn [shape] in SH. destruct SH as (h & x & y & z & CA & SC & S1 & CP & J). cbn [clauses_at] in CA. subst h.
  assert (LC : exists s1, reaches (machine k C) st s1 /\ vpc s1 = x /\ R a1 s1).
  { destruct c as [c|]; [exact (CM _ _ _ _ SC PC HR)|]. subst x a1. exists st. split; [apply reaches_refl|auto]. }
  destruct LC as (s1 & X & E1 & R1).
  destruct (run_sim _ _ _ _ _ _ _ _ _ _ _ _ _ _ _ _ _ _ FREE HM S1 E1 R1) as (s2 & Y & E2 & R2).
  destruct (runs_at _ _ _ _ _ _ _ HP _ _ _ CP E2 R2) as (s3 & X3 & E3 & R3).
  destruct (jump_sim k _ _ _ _ _ _ _ FREE J E3 R3) as (s4 & ST & E4 & R4).
  exists s4. split; [|auto]. eapply reaches_trans; [exact X|]. eapply reaches_trans; [exact Y|]. eapply reaches_trans; [exact X3|].
  eapply reaches_step; [exact ST|apply reaches_refl].
Qed.

(* ---- a concrete program ---- *)
(* expressions as the expression compiler emits them: opcodes with their operands *)
Definition blk (l : list (opcode * list Z)) : bcode :=
  fold_left (fun b x => match push_opcode (fst x) b with COk b1 => push_data (snd x) b1 | _ => b end) l empty_bc.
Definition dec := blk [(O_LoadFromGlobal, [0]); (O_PreDecrement, [])].     (* --g *)
Definition var := blk [(O_LoadFromGlobal, [0])].                           (* g *)
Definition two := blk [(O_LiteralInt8, [2])].                              (* 2 *)
Lemma append_inert b e : ctx_ok (b_ops b) -> b_jumps e = [] -> (length (b_all e) <> 1)%nat ->
  append_bytecode b e = COk (set_code (merge_spaces b e) (b_all b ++ b_all e) (b_ops e ++ b_ops b)).
Proof.
  intros CX J L. unfold append_bytecode.
  assert (T : match b_ops (merge_spaces b e) with o :: _ => load_of o | [] => None end = None).
  { cbn [merge_spaces b_ops]. destruct (b_ops b) as [|o r]; [reflexivity|]. destruct o; try discriminate CX; reflexivity. }
  rewrite T. assert (A : append_plain (merge_spaces b e) e = COk (set_code (merge_spaces b e) (b_all b ++ b_all e) (b_ops e ++ b_ops b))).
  { unfold append_plain, resolve_jumps. rewrite J. cbn [resolve_targets cbind set_code b_all b_ops merge_spaces]. reflexivity. }
  rewrite <- A. destruct (b_ops e) as [|o r], (b_all e) as [|x [|y l]]; try reflexivity; cbn in L; congruence.
Qed.
Ltac no_patch := repeat split; constructor.
Ltac emits e := rewrite append_inert by (auto; discriminate); cbn [cbind]; unfold push_opcode; cbn [set_code b_ops b_all];
  rewrite ?rev_app_distr; vm_compute (b_ops e); vm_compute (rev (b_all e)); vm_compute (b_all e); cbn;
  repeat match goal with |- context [if ?x <? ?y then _ else _] => replace (x <? y) with true by (symmetry; apply Z.ltb_lt; lia) end;
  change (Pos.to_nat 1) with 1%nat; cbn.
Ltac emits_end := cbn; rewrite <- ?app_assoc, ?rev_involutive; cbn; auto.
Lemma dec_pops : pops dec [byte_of O_DecGlobal; 0].
Proof.
  split; [split; reflexivity|]. split; [no_patch|]. intros b CX. emits dec. eexists. split; [reflexivity|]. emits_end. repeat split; auto.
Qed.
Lemma var_branches : branches var [byte_of O_GlobalBZ; 0] 1.
Proof.
  split; [split; reflexivity|]. split; [no_patch|]. split; [lia|]. split; [eexists _, _; reflexivity|].
  intros b CX. emits var. eexists _, _, _. split; [reflexivity|]. emits_end. repeat split; auto.
Qed.
Lemma var_pushes : pushes var [byte_of O_LoadFromGlobal; 0].
Proof. split; [split; reflexivity|]. split; [no_patch|]. intros b CX. emits var. eexists. split; [reflexivity|]. emits_end. Qed.
Lemma two_returns : returns O_Return (Some two) [byte_of O_LiteralInt8; 2; byte_of O_Return].
Proof.
  split; [split; [split; reflexivity|no_patch]|]. intros b CX. emits two. eexists. split; [reflexivity|]. emits_end. repeat split; auto. discriminate.
Qed.

(* function f() { switch( g ) { case 3: --g; break; default: return 2; } while( g ) { --g; continue; } }
   and functions of single statements *)
Definition chosen : stmt := Seq (Case 3) (Seq (Exp dec) (Seq Break (Seq Default (Ret (Some two))))).
Definition loop : stmt := While var (Braces (Seq (Exp dec) Continue)).
Definition body1 : stmt := Seq (Switch var chosen) loop.
Definition loop2 : stmt := Do (Braces (Seq (Exp dec) Continue)) var.
Definition loop3 : stmt := For [] (Some var) [dec] (Braces Continue).
Definition prog1 : list item :=
  [Function 777 [] body1; Function 778 [] (Switch var chosen); Function 779 [] loop; Function 780 [5; 6] loop2; Function 781 [] loop3;
   Global (While var (Exp dec))].
Lemma dec_clause : clause dec [byte_of O_DecGlobal; 0].
Proof.
  split; [split; reflexivity|]. split; [no_patch|]. eexists. split; [vm_compute; reflexivity|]. intros b CX.
  rewrite append_inert by (auto; discriminate). eexists. split; [reflexivity|]. split; [reflexivity|exact CX].
Qed.
Lemma dec_clauses : clauses [dec] [[byte_of O_DecGlobal; 0]].
Proof.
  split; [constructor; [exact dec_clause|constructor]|]. eexists. split; [vm_compute; reflexivity|]. intros b CX.
  rewrite append_inert by (auto; discriminate). eexists. split; [reflexivity|]. split; [reflexivity|exact CX].
Qed.
Lemma prog1_ok : Forall item_ok prog1.
Proof.
  repeat (constructor; [split; [cbn; unfold ends_well; cbn; repeat split; try discriminate; try (constructor; [lia|constructor])
    |cbn; repeat split; eauto using var_pushes, dec_pops, two_returns, var_branches, dec_clauses, Forall_nil]|]). constructor.
Qed.
Definition unit1 (i : nat) : bcode := match compile_units 100 (source prog1) with COk (_, us) => match nth_error us i with Some u => u_code u | None => empty_bc end | _ => empty_bc end.
(* an image: the instruction behind the call, then the function *)
Definition image1 (i : nat) : image := Image (byte_of O_PushIndexFunctionReturnValue :: b_all (unit1 i)) (fun _ _ _ _ _ => False).
Lemma fns_none i : (i < 5)%nat -> b_fns (unit1 i) = [] /\ b_objs (unit1 i) = [] /\ lenZ (b_all (unit1 i)) < 32768.
Proof. intros L. do 5 (destruct i as [|i]; [vm_compute; auto|]). lia. Qed.
Lemma prog1_at i h ps s : nth_error (functions prog1) i = Some (h, ps, s) -> function_at prog1 s (unit1 i) (image1 i) 1.
Proof.
  intros N. assert (L : (i < 5)%nat) by (apply (nth_error_Some (functions prog1) i); rewrite N; discriminate).
  destruct (fns_none i L) as (F & O & SZ). split; [exact prog1_ok|]. split; [exact SZ|]. split.
  - split.
    + intros j J _. unfold image1. cbn [bytes]. unfold nthZ. rewrite (proj2 (Z.ltb_ge _ _)) by lia. rewrite (proj2 (Z.ltb_ge _ _)) by lia.
      replace (Z.to_nat (1 + j)) with (S (Z.to_nat j)) by lia. reflexivity.
    + intros [] x r (rs & J & _); [rewrite F in J|rewrite O in J]; destruct J.
  - assert (X : exists g us, compile_units 100 (source prog1) = COk (g, us) /\ length us = 5%nat).
    { eexists _, _. vm_compute. split; reflexivity. }
    destruct X as (g & us & E & LU). destruct (nth_error us i) as [x|] eqn:NX; [|apply nth_error_None in NX; lia].
    exists 100%nat, g, us, i, h, ps, x. unfold unit1. rewrite E, NX. auto.
Qed.
Definition k1 : config := {|
  k_pbits := fun _ => 0; k_obj_hash := fun _ _ => 0; k_as_string := fun _ _ => []; k_trap := true;
  k_hash_index := fun _ _ _ m => Ok m; k_new_table := fun _ m => m; k_lib := fun _ => None; k_native := fun _ => None;
  k_ext := fun _ _ => UB; k_funs := []; k_base := O; k_limit := 100%nat; k_protect := false; k_slices := true;
  k_fuel := 5%nat; k_ips := 10 |}.
(* g is n; the stack ends with the return vector *)
Definition R1 (n : Z) (s : vm) : Prop :=
  mv (vmem s) (LGlobal 0) = VInt n /\ (1 <= vsp s)%nat /\ (vfb s <= vsp s)%nat /\ mv (vmem s) (LStack (vsp s - 1)) = VRaw O O.
Lemma R1_free : position_free R1.
Proof.
  intros n s s1 (H1 & H2 & H3 & H4) SP FB MM. unfold R1. rewrite SP, FB.
  destruct MM as [-> | ->]; [auto|]. rewrite !wr_other; [auto| |]; [intros Q; injection Q; lia|discriminate].
Qed.
Lemma dec_code P : pops dec P \/ clause dec P -> P = [byte_of O_DecGlobal; 0].
Proof.
  intros [(_ & _ & H)|(_ & _ & e1 & E & H)].
  - destruct (H empty_bc I) as (b1 & E1 & E2 & _). vm_compute in E1. injection E1 as <-. cbn in E2. now rewrite <- E2.
  - vm_compute in E. injection E as <-. destruct (H empty_bc I) as (b1 & E1 & E2 & _). vm_compute in E1. injection E1 as <-. cbn in E2. now rewrite <- E2.
Qed.
Lemma none_patched e i : b_fns e = [] -> b_objs e = [] -> b_gotos e = [] -> ~ patched e i.
Proof. intros F O G P. unfold patched, intervals, call_sites, object_sites in P. rewrite F, O, G in P. inversion P. Qed.
Definition fit (n : Z) : Prop := 0 <= n < 1000.
Lemma dec_means (C : image) n : fit n -> run_means (machine k1 C) C Z R1 dec (n + 1) n.
Proof.
  intros F P p s PP [PL _] PC (H1 & H2 & H3 & H4). rewrite (dec_code _ PP) in *.
  pose proof (PL 0 ltac:(cbn; lia) (none_patched dec 0 eq_refl eq_refl eq_refl)) as B0.
  pose proof (PL 1 ltac:(cbn; lia) (none_patched dec 1 eq_refl eq_refl eq_refl)) as B1. rewrite Z.add_0_r in B0.
  assert (D : decode C p = Some (IIncVar (-1) SG O, p + 2)).
  { rewrite (decode_of C p _ O_DecGlobal B0 eq_refl). cbn [decode_op]. unfold v1, rd8. rewrite B1. replace (p + 2) with (p + 1 + 1) by lia. reflexivity. }
  exists (mkVm (wr (vmem s) (LGlobal 0) (VInt n)) (p + 2) (vsp s) (vfb s) None None (vslice s)). split; [|split; [reflexivity|]].
  - exists 1%nat. econstructor; [|constructor]. unfold machine, resumed, step. rewrite PC, D. cbn [VmModel.exec VmModel.upd vmem vsp vfb vpc vslice vloc].
    unfold eval_pre. rewrite H1. cbn [k1 k_fuel type_of unary_pre]. rewrite H1. cbn [incr of_opt bind].
    unfold fit in F. rewrite s32_id by (unfold is_s32; lia). replace (n + 1 + -1) with n by lia.
    unfold checked. replace ((int_min <=? n) && (n <=? 2147483647))%bool with true by (symmetry; unfold int_min; lia).
    replace (u32 n) with n by (unfold u32; rewrite Z.mod_small; lia). reflexivity.
  - unfold R1. cbn [vmem vsp vfb]. rewrite wr_same. rewrite wr_other by discriminate. auto.
Qed.
Lemma var_means (C : image) n : fit n -> cond_means (machine k1 C) C Z R1 var n (negb (n =? 0)) n.
Proof.
  intros F p r f s (Q & k & kd & t0 & (_ & _ & _ & _ & BR) & -> & _ & J0 & J) PC HR.
  destruct (BR empty_bc I) as (b1 & o & rest & E1 & E2 & E3 & _ & _ & E4). vm_compute in E1. injection E1 as <-. cbn in E2, E3. subst Q. injection E3 as <- <-.
  cbn in E4. subst k. vm_compute in J0. injection J0 as <- <-. cbn [Z.sub Z.add Z.opp Z.pos_sub] in J. rewrite Z.add_0_r in J. unfold jump_at in J.
  destruct (decode C p) as [[i q]|] eqn:D; [|discriminate J].
  assert (X : i = IVarBZ SG O f /\ q = p + 4).
  { destruct (target_of i) as [t|] eqn:T.
    - injection J as EI -> ->. split; [|cbn; lia]. destruct i; try discriminate T; try discriminate EI. cbn in T, EI. congruence.
    - unfold foreach_at in J. repeat match type of J with match ?x with _ => _ end = _ => destruct x; try discriminate J end. }
  destruct X as [-> ->]. pose proof HR as (H1 & H2 & H3 & H4).
  set (s1 := mkVm (vmem s) (if n =? 0 then f else p + 4) (vsp s) (vfb s) None None (vslice s)).
  assert (ST : exists s2, machine k1 C s = Ok (Run s2) /\ vpc s2 = vpc s1 /\ R1 n s2).
  { unfold machine, resumed, step. rewrite PC, D. cbn [VmModel.exec VmModel.upd vmem vsp vfb vpc vslice vloc set_pc]. rewrite H1.
    cbn [k1 k_fuel type_of logical_not]. unfold rdi, bits. rewrite H1. cbn [bind]. unfold force_yield.
    destruct (n =? 0) eqn:Z0; cbn [VmModel.upd vslice vmem vsp vfb vpc set_pc k_slices k1]; destruct (vslice s - 1 =? 0); cbn [andb];
      (eexists; split; [reflexivity|]; split; [reflexivity|]); apply (R1_free _ _ _ HR); cbn; auto. all: rewrite ?Nat.sub_0_r; auto. }
  destruct ST as (s2 & ST & PC2 & HR2). exists s2. split; [exists 1%nat; econstructor; [exact ST|constructor]|]. split; [|exact HR2].
  rewrite PC2. unfold s1. cbn [vpc]. destruct (n =? 0); cbn; [reflexivity|lia].
Qed.

Lemma var_code P : pushes var P -> P = [byte_of O_LoadFromGlobal; 0].
Proof. intros (_ & _ & H). destruct (H empty_bc I) as (b1 & E1 & E2). vm_compute in E1. injection E1 as <-. cbn in E2. now rewrite <- E2. Qed.
Lemma var_selects (C : image) n : fit n -> sel_means (machine k1 C) (top_hash k1) C Z R1 var n n n.
Proof.
  intros F. split; [unfold fit in F; lia|]. intros P p s PP [PL _] PC HR. pose proof HR as (H1 & H2 & H3 & H4). rewrite (var_code _ PP) in *.
  pose proof (PL 0 ltac:(cbn; lia) (none_patched var 0 eq_refl eq_refl eq_refl)) as B0.
  pose proof (PL 1 ltac:(cbn; lia) (none_patched var 1 eq_refl eq_refl eq_refl)) as B1. rewrite Z.add_0_r in B0.
  assert (D : decode C p = Some (ILoad SG O, p + 2)).
  { rewrite (decode_of C p _ O_LoadFromGlobal B0 eq_refl). cbn [decode_op]. unfold v1, rd8. rewrite B1. replace (p + 2) with (p + 1 + 1) by lia. reflexivity. }
  set (m1 := wr (vmem s) (LStack (vsp s)) (VRef (LGlobal 0))).
  exists (mkVm m1 (p + 2) (S (vsp s)) (vfb s) None None (vslice s)), m1. split; [|split; [reflexivity|]].
  - exists 1%nat. econstructor; [|constructor]. unfold machine, resumed, step. rewrite PC, D. reflexivity.
  - cbn [vsp vmem]. split; [lia|].
    assert (TOP : forall m, mv m (LStack (vsp s)) = VRef (LGlobal 0) -> mv m (LGlobal 0) = VInt n -> top_hash k1 (S (vsp s)) m = Ok (n, m)).
    { intros m E1 E2. unfold top_hash. replace (S (vsp s) - 1)%nat with (vsp s) by lia. cbn [k1 k_fuel get_hash]. rewrite E1, E2. reflexivity. }
    assert (RR : forall m, (forall x, x <> LStack (vsp s) -> x <> LStack (S (vsp s)) -> mv m x = mv (vmem s) x) ->
                 R1 n (VmModel.upd (mkVm m1 (p + 2) (S (vsp s)) (vfb s) None None (vslice s)) m (S (vsp s) - 1))).
    { intros m K. unfold R1. cbn [VmModel.upd vmem vsp vfb]. replace (S (vsp s) - 1)%nat with (vsp s) by lia.
      rewrite !K; auto; try discriminate; intros Q; injection Q; lia. }
    assert (N : LStack (vsp s) <> LStack (S (vsp s))) by (intros Q; injection Q; lia).
    split; [|split; [|exists (wr m1 (LStack (S (vsp s))) (VInt 0)); split]].
    + apply TOP; unfold m1; [apply wr_same|rewrite wr_other by discriminate; exact H1].
    + apply RR. intros x X1 X2. unfold m1. now apply wr_other.
    + apply TOP; [rewrite wr_other by exact N; unfold m1; apply wr_same|]. unfold m1. rewrite !wr_other by discriminate. exact H1.
    + apply RR. intros x X1 X2. unfold m1. rewrite !wr_other by auto. reflexivity.
Qed.
(* what "return 2" delivers *)
Definition RO1 (v : Z) (o : outcome) : Prop := exists s, o = Run s /\ vr0 s <> None /\ forall l, vr0 s = Some l -> mv (vmem s) (next_loc l) = VInt v.
Lemma two_means (C : image) n : ret_means (machine k1 C) C O_Return Z Z R1 RO1 (Some two) n 2.
Proof.
  intros P p s (_ & H) [PL _] PC HR. pose proof HR as (H1 & H2 & H3 & H4).
  destruct (H empty_bc I) as (b1 & E1 & E2 & _). vm_compute in E1. injection E1 as <-. cbn in E2. subst P.
  pose proof (PL 0 ltac:(cbn; lia) (none_patched two 0 eq_refl eq_refl eq_refl)) as B0.
  pose proof (PL 1 ltac:(cbn; lia) (none_patched two 1 eq_refl eq_refl eq_refl)) as B1.
  pose proof (PL 2 ltac:(cbn; lia) (none_patched two 2 eq_refl eq_refl eq_refl)) as B2. rewrite Z.add_0_r in B0.
  assert (D : decode C p = Some (ILit (VInt 2) true, p + 2)).
  { rewrite (decode_of C p _ O_LiteralInt8 B0 eq_refl). cbn [decode_op]. unfold lInt8, rd8. rewrite B1. replace (p + 2) with (p + 1 + 1) by lia. reflexivity. }
  assert (D2 : decode C (p + 2) = Some (IReturn, p + 2 + 1)) by (rewrite (decode_of C (p + 2) _ O_Return B2 eq_refl); reflexivity).
  set (m1 := wr (vmem s) (LStack (vsp s)) (VInt 2)).
  eexists (mkVm m1 (p + 2) (S (vsp s)) (vfb s) None None (vslice s)), _. split; [|split].
  - exists 1%nat. econstructor; [|constructor]. unfold machine, resumed, step. rewrite PC, D. reflexivity.
  - unfold machine, resumed, step. cbn [vpc vmem vsp vfb vslice]. rewrite D2. cbn [VmModel.exec]. unfold do_return, need. cbn [VmModel.upd vmem vsp vfb vslice].
    destruct (Nat.ltb_spec (S (vsp s)) 2) as [Q|_]; [lia|]. replace (S (vsp s) - 2)%nat with (vsp s - 1)%nat by lia.
    unfold m1. rewrite wr_other by (intros Q; injection Q; lia). rewrite H4. reflexivity.
  - eexists. split; [reflexivity|]. cbn [vr0 vmem]. split; [discriminate|]. intros l [= <-]. cbn [next_loc]. replace (S (vsp s - 1)) with (vsp s) by lia. apply wr_same.
Qed.
Lemma loop_means (C : image) n : fit n -> means (machine k1 C) (top_hash k1) C O_Return Z Z R1 RO1 loop n ONormal 0.
Proof.
  intros F. assert (P : 0 <= n) by (unfold fit in F; lia). revert F. pattern n. apply natlike_ind; [| |exact P].
  - intros F. apply X_while_end with (m1 := 0). apply (var_means C 0 F).
  - intros x X IH F. assert (FX : fit x) by (unfold fit in *; lia). eapply X_while with (m1 := Z.succ x) (o := OCont) (m2 := x).
    + pose proof (var_means C (Z.succ x) F) as V. replace (negb (Z.succ x =? 0)) with true in V by (symmetry; lia). exact V.
    + apply X_braces. eapply X_seq; [apply X_exp; apply (dec_means C x FX)|apply X_continue].
    + right. reflexivity.
    + exact (IH FX).
Qed.

Definition mem1 (n : Z) : mem := mkMem (fun l => match l with LGlobal _ => VInt n | _ => VRaw O O end) (fun _ => None) (fun _ _ => 0) O.
Definition start1 (n : Z) : vm := mkVm (mem1 n) 1 1 0 None None 5.
Lemma start1_R n : R1 n (start1 n).
Proof. repeat split; cbn; lia || reflexivity. Qed.
Lemma body1_three (C : image) : means (machine k1 C) (top_hash k1) C O_Return Z Z R1 RO1 body1 3 ONormal 0.
Proof.
  eapply X_seq; [|apply (loop_means C 2); unfold fit; lia]. eapply X_switch with (h := 3) (m1 := 3) (o := OBreak); [apply var_selects; unfold fit; lia| |right; reflexivity].
  cbn. eapply X_seq; [apply X_exp; apply (dec_means C 2); unfold fit; lia|]. apply X_seq_exit; [apply X_break|discriminate].
Qed.
Lemma body1_other (C : image) n : fit n -> n <> 3 -> means (machine k1 C) (top_hash k1) C O_Return Z Z R1 RO1 body1 n (ORet 2) n.
Proof.
  intros F N. apply X_seq_exit; [|discriminate]. eapply X_switch_exit with (h := n) (m1 := n); [apply var_selects; exact F| |eauto].
  replace (selected n chosen) with [Ret (Some two)].
  2:{ unfold selected, chosen. cbn [items app from_case]. replace (3 =? n) with false by lia. reflexivity. }
  apply X_seq_exit; [|discriminate]. apply X_ret. apply two_means.
Qed.
(* c35 says of this function: called with g = 3 control arrives at its final ReturnZero with g = 0;
   called with another value it returns 2 *)
Example c35_example :
  (exists q, closed_by (image1 0) 1 (unit1 0) [O_ReturnZero] q /\ arrives (machine k1 (image1 0)) Z R1 (start1 3) q 0) /\
  (forall n, fit n -> n <> 3 -> delivers (machine k1 (image1 0)) Z RO1 (start1 n) 2).
Proof.
  destruct (prog1_at 0 _ _ _ eq_refl) as (OK & SZ & PL & _).
  assert (X : exists g us x, compile_units 100 (source prog1) = COk (g, us) /\ nth_error us 0 = Some x /\ u_code x = unit1 0).
  { eexists _, _, _. split; [vm_compute; reflexivity|]. split; reflexivity. }
  destruct X as (g & us & x & E & NX & EU).
  destruct (c35_structured_partial prog1 100 g us OK E) as (_ & FN & _).
  destruct (FN O 777 [] body1 x eq_refl NX) as (_ & _ & F). rewrite EU in F. specialize (F k1 (image1 0) 1 SZ PL). split.
  - destruct (F _ _ _ _ _ _ _ _ R1_free (body1_three (image1 0)) (eq_refl : vpc (start1 3) = 1) (start1_R 3)) as (q & [CL|[T _]] & A); [eauto|discriminate T].
  - intros n FT N. exact (F _ _ _ _ _ _ _ _ R1_free (body1_other (image1 0) n FT N) (eq_refl : vpc (start1 n) = 1) (start1_R n)).
Qed.
(* the compiled units have jumps *)
Example c34_compiled_example : exists j, In j (b_jumps (unit1 0)) /\ (2 <= length (j_refs j))%nat.
Proof. eexists. split; [vm_compute; right; right; right; left; reflexivity|cbn; lia]. Qed.
Example c36_example :
  exists q, body_end (image1 1) 1 (unit1 1) (Switch var chosen) q /\ arrives (machine k1 (image1 1)) Z R1 (start1 3) q 2.
Proof.
  apply (c36_switch_partial prog1 var chosen (unit1 1) (image1 1) 1 k1 Z Z R1 RO1 3 3 3 (start1 3) [Exp dec; Break; Default; Ret (Some two)]
    (prog1_at 1 _ _ _ eq_refl) R1_free (var_selects _ 3 ltac:(unfold fit; lia)) eq_refl (start1_R 3)) with (o := OBreak).
  - left. exists [], [Exp dec; Break; Default; Ret (Some two)]. repeat split. intros [].
  - cbn [seq_of]. eapply X_seq; [apply X_exp; apply (dec_means _ 2); unfold fit; lia|]. apply X_seq_exit; [apply X_break|discriminate].
Qed.
Example c37_example : exists s1 s2, R1 0 s1 /\ reaches (machine k1 (image1 0)) (start1 3) s2 /\ vpc s2 = 1 /\ mv (vmem s2) (LStack (vfb s1)) = VInt 0.
Proof.
  destruct (c37_end_returns_zero_partial prog1 body1 (unit1 0) (image1 0) 1 k1 Z Z R1 RO1 3 0 (start1 3) O O
    (prog1_at 0 _ _ _ eq_refl) ltac:(discriminate) R1_free (body1_three _) eq_refl (start1_R 3)) as (s1 & s2 & A & B & D & _ & _ & F & _).
  - intros s1 (H1 & H2 & H3 & H4). repeat split; auto. discriminate.
  - reflexivity.
  - discriminate.
  - exists s1, s2. auto.
Qed.
Lemma body_continue (C : image) n : fit n -> means (machine k1 C) (top_hash k1) C O_Return Z Z R1 RO1 (Braces (Seq (Exp dec) Continue)) (n + 1) OCont n.
Proof. intros F. apply X_braces. eapply X_seq; [apply X_exp; apply (dec_means C n F)|apply X_continue]. Qed.
Lemma var_true (C : image) n : fit n -> n <> 0 -> cond_means (machine k1 C) C Z R1 var n true n.
Proof. intros F N. pose proof (var_means C n F) as V. replace (negb (n =? 0)) with true in V by (symmetry; lia). exact V. Qed.
Example c38_example : forall n, fit n -> fit (n + 1) ->
  arrives (machine k1 (image1 2)) Z R1 (start1 (n + 1)) 1 n /\
  (n <> 0 -> arrives (machine k1 (image1 3)) Z R1 (start1 (n + 1)) 1 n) /\
  arrives (machine k1 (image1 4)) Z R1 (start1 (n + 1)) 1 n.
Proof.
  intros n F F1. assert (N1 : n + 1 <> 0) by (unfold fit in F; lia). split; [|split].
  - exact (c38_continue_while_partial _ _ _ _ _ _ _ _ _ _ _ _ _ _ _ (prog1_at 2 _ _ _ eq_refl) R1_free (var_true _ _ F1 N1) (body_continue _ n F) (eq_refl : vpc (start1 (n + 1)) = 1) (start1_R _)).
  - intros N. apply (c38_continue_do_partial _ _ _ _ _ _ _ _ _ _ _ _ _ _ (prog1_at 3 _ _ _ eq_refl) R1_free (body_continue _ n F) (eq_refl : vpc (start1 (n + 1)) = 1) (start1_R _)).
    exact (var_true _ _ F N).
  - refine (c38_continue_for_partial _ (Some var) [dec] _ _ _ _ _ _ _ _ RO1 (n + 1) (n + 1) (n + 1) _ _ (prog1_at 4 _ _ _ eq_refl) R1_free (var_true _ _ F1 N1) _ _ (eq_refl : vpc (start1 (n + 1)) = 1) (start1_R _)).
    + apply X_braces, X_continue.
    + eapply R_cons; [apply (dec_means _ n F)|apply R_nil].
Qed.

(* ---- programs that do not behave as written ---- *)
(* compile, link, load, run from the start of the global code; globals are 0 at first *)
Definition ran (ext : opcode -> vm -> res outcome) (toks : list tok) (steps : nat) : option (res outcome) :=
  match compile_units 200 toks with
  | COk (b, us) =>
    (* three globals *)
    match link (mkB (b_all b) (b_ops b) [1; 2; 3] (b_fns b) (b_objs b) (b_jumps b) (b_gotos b)) us 1 [] [] with
    | COk img =>
      match create_context img with
      | Some c => Some (VmModel.run (fun _ => 0) (fun _ _ => 0) (fun _ _ => []) true (fun _ _ _ m => Ok m) (fun _ m => m) (fun _ => None)
                    (fun _ => None) ext img (vm_funs c) 0 1000 false false 20 steps
                    (mkVm (mkMem (fun _ => VInt 0) (fun _ => None) (fun _ _ => 0) 0%nat) (c_start c) 0 0 None None 0))
      | None => None
      end
    | _ => None
    end
  | _ => None
  end.
Definition global_of (r : option (res outcome)) (g : nat) : option value :=
  match r with Some (Ok (Done s)) => Some (mv (vmem s) (LGlobal g)) | _ => None end.
Definition ex (l : list (opcode * list Z)) := T_expr (blk l).
Definition lit (k : Z) : opcode * list Z := (O_LiteralInt8, [k]).
Definition glb (g : Z) : opcode * list Z := (O_LoadFromGlobal, [g]).
Definition set_g (g k : Z) := ex [lit k; glb g; (O_Assign, [])].                 (* g = k *)
Definition inc_g (g : Z) := ex [glb g; (O_PreIncrement, [])].                    (* ++g *)
(* g = h( arg ): the call site is at offset 2 of the block *)
Definition call_g (g h arg : Z) :=
  let b := blk [lit arg; (O_FUNCTION_CALL_PLACEHOLDER, [1; 88; 88; 88; 88]); glb g; (O_Assign, [])] in
  T_expr (mkB (b_all b) (b_ops b) (b_locals b) [(h, [2])] (b_objs b) (b_jumps b) (b_gotos b)).
(* function f( c ) { if( c ) return 7; }  function h( c ) { return 9; }  g = f( arg ); *)
Definition falls_through (arg : Z) : list tok :=
  [T_function 777 [5]; T_lbrace; T_if; T_lparen; ex [(O_LoadFromLocal, [0])]; T_rparen; T_return; ex [lit 7]; T_semi; T_rbrace;
   T_function 778 [5]; T_lbrace; T_return; ex [lit 9]; T_semi; T_rbrace; call_g 0 777 arg; T_semi].
(* f( 0 ) reaches the end of the body of f and goes on in the code of h: it returns 9 *)
Theorem c37_refuted :
  global_of (ran (fun _ _ => UB) (falls_through 1) 100) 0 = Some (VInt 7) /\
  global_of (ran (fun _ _ => UB) (falls_through 0) 100) 0 = Some (VInt 9).
Proof. split; vm_compute; reflexivity. Qed.

(* switch( v ) { case 1: g = 1; break; default: }  does nothing for other values; compiled, it jumps
   to its own selection code, which takes a second value from the stack, and there is none *)
Definition empty_default (v : Z) : list tok :=
  [T_switch; T_lparen; ex [lit v]; T_rparen; T_lbrace; T_case 1; set_g 0 1; T_semi; T_break; T_semi; T_default; T_rbrace].
(* switch( v ) { case 1: while( g0 ) --g0; }  the same after the loop *)
Definition loop_last (v : Z) : list tok :=
  [T_switch; T_lparen; ex [lit v]; T_rparen; T_lbrace; T_case 1; T_while; T_lparen; ex [glb 0]; T_rparen; inc_g 0; T_semi; T_rbrace].
Theorem c36_refuted :
  global_of (ran (fun _ _ => UB) (empty_default 1) 100) 0 = Some (VInt 1) /\
  ran (fun _ _ => UB) (empty_default 2) 100 = Some UB /\
  global_of (ran (fun _ _ => UB) (loop_last 2) 100) 0 = Some (VInt 0) /\
  ran (fun _ _ => UB) (loop_last 1) 100 = Some UB.
Proof. repeat split; vm_compute; reflexivity. Qed.

(* ++g0; for( g1 : g2 ) { continue; }   The iterator here yields values for ever and touches no variable;
   continue goes back to the first instruction of the unit, so ++g0 is executed again. *)
Definition endless (o : opcode) (s : vm) : res outcome :=
  match o with
  | O_GPushIterator => Ok (Run (set_pc s (vpc s + 2)))
  | O_GNextValueOrJump => Ok (Run (set_pc s (vpc s + 4)))
  | _ => UB
  end.
Definition each_continue : list tok :=
  [inc_g 0; T_semi; T_for; T_lparen; ex [glb 1]; T_colon; ex [glb 2]; T_rparen; T_lbrace; T_continue; T_semi; T_rbrace].
Definition after (n : nat) (ext : opcode -> vm -> res outcome) (toks : list tok) : option (list value) :=
  match compile_units 200 toks with
  | COk (b, us) =>
    match link (mkB (b_all b) (b_ops b) [1; 2; 3; 4] (b_fns b) (b_objs b) (b_jumps b) (b_gotos b)) us 1 [] [] with
    | COk img =>
      match create_context img with
      | Some c =>
        let stp := VmModel.step (fun _ => 0) (fun _ _ => 0) (fun _ _ => []) true (fun _ _ _ m => Ok m) (fun _ m => m) (fun _ => None)
                     (fun _ => None) ext img (vm_funs c) 0 1000 false false 20 in
        let s0 := mkVm (mkMem (fun _ => VInt 0) (fun _ => None) (fun _ _ => 0) 0%nat) (c_start c) 0 0 None None 0 in
        match Nat.iter n (fun r => match r with Some s => match stp s with Ok (Run s1) => Some s1 | _ => None end | None => None end) (Some s0) with
        | Some s => Some (map (fun g => mv (vmem s) (LGlobal g)) [0; 1; 2]%nat)
        | None => None
        end
      | None => None
      end
    | _ => None
    end
  | _ => None
  end.
Theorem c38_refuted :
  after 4 endless each_continue = Some [VInt 1; VInt 0; VInt 0] /\
  after 5 endless each_continue = Some [VInt 2; VInt 0; VInt 0] /\
  after 9 endless each_continue = Some [VInt 3; VInt 0; VInt 0].
Proof. repeat split; vm_compute; reflexivity. Qed.

(* Statements that are not tidy.
   An empty statement in a block removes a value from the stack, and there is none: { g = 5; ; } *)
Theorem c35_empty_statement_refuted :
  global_of (ran (fun _ _ => UB) [T_lbrace; set_g 0 5; T_semi; T_rbrace] 100) 0 = Some (VInt 5) /\
  ran (fun _ _ => UB) [T_lbrace; set_g 0 5; T_semi; T_semi; T_rbrace] 100 = Some UB.
Proof. split; vm_compute; reflexivity. Qed.
(* if( g ) { { g1 = 1; } g2 = 2; }  the inner } ends the outer block: g2 = 2 is executed although g is 0,
   and the last } is an error *)
Definition nested : list tok :=
  [T_if; T_lparen; ex [glb 0]; T_rparen; T_lbrace; T_lbrace; set_g 1 1; T_semi; T_rbrace; set_g 2 2; T_semi].
Theorem c35_nested_block_refuted :
  compile_units 200 (nested ++ [T_rbrace]) = CErr E_unexpected_token /\
  global_of (ran (fun _ _ => UB) nested 100) 2 = Some (VInt 2).
Proof. split; vm_compute; reflexivity. Qed.
(* do { if( g0 ) break; ++g2; } while( g1 );  the ";" behind an unbraced break is an empty statement *)
Definition break_bare (l r : list tok) : list tok :=
  [T_do; T_lbrace; T_if; T_lparen; ex [glb 0]; T_rparen] ++ l ++ [T_break; T_semi] ++ r ++
  [inc_g 2; T_semi; T_rbrace; T_while; T_lparen; ex [glb 1]; T_rparen; T_semi].
Theorem c35_bare_break_refuted :
  global_of (ran (fun _ _ => UB) (break_bare [T_lbrace] [T_rbrace]) 100) 2 = Some (VInt 1) /\
  ran (fun _ _ => UB) (break_bare [] []) 100 = Some UB.
Proof. split; vm_compute; reflexivity. Qed.
Print Assumptions c34_compiled_partial.
Print Assumptions c35_structured_partial.
Print Assumptions c36_switch_partial.
Print Assumptions c37_end_returns_zero_partial.
Print Assumptions c38_continue_while_partial.
Print Assumptions c38_continue_do_partial.
Print Assumptions c38_continue_for_partial.
Print Assumptions c35_example.
Print Assumptions c36_example.
Print Assumptions c37_example.
Print Assumptions c38_example.
Print Assumptions c36_refuted.
Print Assumptions c37_refuted.
Print Assumptions c38_refuted.
Print Assumptions c35_empty_statement_refuted.
Print Assumptions c35_nested_block_refuted.
Print Assumptions c35_bare_break_refuted.
