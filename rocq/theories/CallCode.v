(* Proofs for C57 and C58: running a file, calls by the host and calls inside the program, given what the
   calls inside do. *)
From Coq Require Import String.
From Verif Require Import Base BaseLemmas OpsModel VmModel VmSpec VmProofs OpsLocal EmitModel CcModel ExprModel ExprSpec ExprNest ExprStack LinkModel LinkSpec
  FuseSpec EvalSpec EvalProofs EvalRun EvalProps ProgSpec ProgCode ProgCtl ProgRun CallRun ProgMean ProgCall.
From Verif Require CtlSpec CtlSem CtlUnit VmProps WholeProps.
Open Scope string_scope. Open Scope list_scope. Open Scope Z_scope.
Import CtlSem. Import (coercions) CtlSpec.

(* ---------------------------------------------------------------- from source to code *)
Lemma item_for_ok wide i x : (wide <= 254)%nat -> item_for wide i x -> item_ok x.
Proof.
  intros W [s c U E T|h ps s c U E T]; (split; [exact T|]).
  - destruct (statement_good O_GlobalStop (or_intror eq_refl) wide ltac:(lia) s c U E) as [G _]. eauto.
  - destruct (statement_good O_Return (or_introl eq_refl) wide ltac:(lia) s c U E) as [G _]. eauto.
Qed.
Lemma routines_functions wide l items : Forall2 (item_for wide) l items ->
  Forall2 (fun a b => fst a = fst b /\ usable_prog O_Return wide (snd a) /\ statement (snd a) = COk (snd b)) (routines l) (functions items).
Proof.
  induction 1 as [|i x l items [s c U E T|h ps s c U E T] F IH]; cbn; [constructor|exact IH|]. constructor; [|exact IH]. cbn. auto.
Qed.
Lemma outside_code wide l items : Forall2 (item_for wide) l items ->
  statement (outside l) = COk (global_code items) /\ usable_prog O_GlobalStop wide (outside l).
Proof.
  intros F. unfold outside, global_code.
  assert (G : Forall2 (fun a b => statement a = COk b /\ usable_prog O_GlobalStop wide a) (flat_map (fun i => match i with PGlobal s => [s] | _ => [] end) l)
    (flat_map (fun i => match i with Global s => [s] | _ => [] end) items)).
  { induction F as [|i x l items [s c U E T|h ps s c U E T] F IH]; cbn; [constructor| |exact IH]. constructor; auto. }
  split.
  - apply in_order_statement. clear -G. induction G as [|a b la lb [S _] G IH]; constructor; assumption.
  - apply in_order_usable. clear -G. induction G as [|a b la lb [_ U] G IH]; constructor; auto.
Qed.
(* the code of the file, in the image C *)
Definition code_of (wide : nat) (l : list pitem) (c : ctx) (C : CtlSpec.image) : Prop :=
  length (vm_funs c) = length (routines l) /\
  (forall i h ps s f, nth_error (routines l) i = Some (h, ps, s) -> nth_error (vm_funs c) i = Some f ->
     exists b, usable_prog O_Return wide s /\ statement s = COk b /\ fn_args f = length ps /\ frame_ok f /\ (fn_args f + fn_frame f <= 255)%nat /\
       forall k, follows k C O_Return b (fn_off f) (fun q => WholeProps.function_end C q \/ CtlSpec.tail CtlSpec.InBlock b = Some CtlSpec.LReturn)) /\
  (exists b, usable_prog O_GlobalStop wide (outside l) /\ statement (outside l) = COk b /\
     forall k, follows k C O_GlobalStop b (c_start c) (fun q => WholeProps.global_end C q \/ CtlSpec.tail CtlSpec.Body b = Some CtlSpec.LReturn)) /\
  (forall h q a drop i ps s, CtlSpec.linked C true h q (Some a) drop -> function_is l h i ps s -> exists n, decode C q = Some (ICall (Z.to_nat a) i, n) /\
     ((n = q + 6 /\ (drop = Some (byte_of O_PopOne) \/ nthZ C (q + 6) = Some (byte_of O_NewObjectTable))) \/
      (n = q + 5 /\ drop <> Some (byte_of O_PopOne) /\ decode C n = Some (IPushRet, q + 6)))).
Lemma paired {A B} (P : A -> B -> Prop) la lb i a : Forall2 P la lb -> nth_error la i = Some a -> exists b, nth_error lb i = Some b /\ P a b.
Proof. intros F. revert i. induction F; intros [|i] N; cbn in *; try discriminate; [injection N as <-; eauto|eauto]. Qed.
Lemma paired_back {A B} (P : A -> B -> Prop) la lb i b : Forall2 P la lb -> nth_error lb i = Some b -> exists a, nth_error la i = Some a /\ P a b.
Proof. intros F. revert i. induction F; intros [|i] N; cbn in *; try discriminate; [injection N as <-; eauto|eauto]. Qed.
Lemma built_code wide l img c : (wide <= 254)%nat -> built wide l img c -> exists C : CtlSpec.image, CtlSpec.bytes C = img /\ code_of wide l c C.
Proof.
  intros W (items & n & g & us & flags & symbols & text & F & CU & LK & CC & FL & LT & LI & UF & US & GS & NY).
  pose proof (routines_functions _ _ _ F) as RF. destruct (outside_code _ _ _ F) as [OS OU].
  destruct (WholeProps.c52_compile_link_load_run_partial items n g us flags symbols text img) as (c' & CC' & _ & LEN & FUN & GLO); auto.
  - clear -F W. induction F; constructor; eauto using item_for_ok.
  - intros h ps s I. clear -RF I NY. revert I NY. generalize (routines l) (functions items) RF. clear. induction 1 as [|[[h1 p1] s1] b la lb (E & _) F IH]; intros I NY; [destruct I|].
    destruct I as [->|I]; [cbn in E; injection E as -> ->; apply (NY h ps s1); now left|]. apply IH; auto. intros h2 p2 s2 I2. apply (NY h2 p2 s2). now right.
  - rewrite CC in CC'. injection CC' as <-. exists (WholeProps.loaded us (c_funs c) img). split; [reflexivity|]. unfold code_of.
    assert (LR : length (routines l) = length (functions items)) by (clear -RF; induction RF; cbn; congruence).
    split; [unfold vm_funs; rewrite map_length; congruence|]. split; [|split].
    + intros i h ps s f N1 N2. unfold vm_funs in N2. rewrite nth_error_map in N2. destruct (nth_error (c_funs c) i) as [lf|] eqn:N3; [|discriminate]. injection N2 as <-.
      destruct (nth_error (functions items) i) as [[[h' ps'] b]|] eqn:N4.
      2:{ apply nth_error_None in N4. assert (i < length (routines l))%nat by (apply nth_error_Some; congruence). lia. }
      assert (X : fst (h, ps, s) = fst (h', ps', b) /\ usable_prog O_Return wide s /\ statement s = COk b).
      { clear -RF N1 N4. revert i N1 N4. induction RF as [|x y la lb H F IH]; intros [|i] N1 N4; cbn in *; try discriminate; [|eauto]. injection N1 as ->. injection N4 as ->. exact H. }
      destruct X as (EH & UX & ST). cbn in EH. injection EH as -> ->. destruct (FUN i h' ps' b lf N4 N3) as (_ & LA & LF & LJ & LB & RUN).
      exists b. split; [exact UX|]. split; [exact ST|]. cbn [fn_args fn_frame fn_adjust fn_off]. assert (0 <= lenZ ps') by (unfold lenZ; lia).
      split; [rewrite LA; unfold lenZ; lia|]. split; [unfold frame_ok; cbn; lia|]. split; [lia|exact RUN].
    + exists (global_code items). auto.
    + intros h q a drop i ps s LK1 [N1 N2].
      assert (IOK : Forall item_ok items) by (clear -F W; induction F; constructor; eauto using item_for_ok).
      destruct (CtlUnit.compiled_source items n g us IOK CU) as [_ FU].
      destruct LK1 as (a' & [= <-] & X & _). apply X. split.
      * destruct (paired _ _ _ _ _ RF N1) as ([[h1 p1] b] & M1 & Q1 & _). cbn in Q1. injection Q1 as <- <-.
        destruct (paired _ _ _ _ _ FU M1) as (u & M2 & Q2 & _). eauto.
      * intros j u J U. destruct (paired_back _ _ _ _ _ FU U) as ([[h1 p1] b] & M1 & Q1 & _). cbn in Q1. rewrite Q1.
        destruct (paired_back _ _ _ _ _ RF M1) as ([[h2 p2] s2] & M2 & Q2 & _). cbn in Q2. injection Q2 as -> ->. intros ->. exact (N2 _ _ _ J M2).
Qed.

(* ---------------------------------------------------------------- running, and calls *)
(* Running a file: the code outside functions, started on the empty stack with the globals genv, ends; the
   globals are then what it computes, and the host gets its result.  When it ends without a return, the
   machine is left where the functions that the host calls return to. *)
Lemma run_general : forall wide l c (C : CtlSpec.image) k m genv ips z env1 invoke spare,
  code_of wide l c C -> tame invoke -> calls_work k C wide invoke spare -> sane k wide c -> closed (k_base k) m -> globals_are genv m ->
  (k_protect k = true -> (k_base k + wide + 2 + spare < k_limit k)%nat) ->
  let env := fun q n => match q with SG => genv n | SL => None end in
  finishes (k_trap k) invoke (outside l) env z env1 -> proper_end (k_trap k) invoke CtlSpec.Body (outside l) env z env1 ->
  exists s2 s3, reaches (machine k C) (mkVm m (c_start c) (k_base k) 0 None None ips) s2 /\ machine k C s2 = Ok (Done s3) /\
    holds (vmem s3) (mv (vmem s3) (LStack (k_base k))) z /\
    globals_are (env1 SG) (vmem s3) /\ rest_kept (env1 SG) (k_base k) m (vmem s3) /\
    (computes (k_trap k) invoke (outside l) env (CtlSpec.ORet z) env1 \/ nthZ C (vpc s3) = Some (byte_of O_Stop)).
Proof.
  intros wide l c C k m genv ips z env1 invoke spare BU TAME WORK (deep & OH & AS & LL & NW & KF) CL GA RM env FN PE.
  destruct BU as (_ & _ & (b & U & E & FO) & _). specialize (FO k). specialize (PE b E).
  set (st := mkVm m (c_start c) (k_base k) 0 None None ips). set (B := k_base k) in *.
  assert (EX : exist env 0). { intros [] n x G; cbn in G; [|discriminate]. destruct (GA _ _ G) as (Q1 & Q2 & _). repeat split; try apply Q1; try apply Q2. discriminate. }
  assert (HAS : has env 0 m). { intros [] n x G; cbn in G; [|discriminate]. apply (GA _ _ G). }
  assert (FR : (0 + 0 <= B)%nat) by lia. assert (RM' : k_protect k = true -> (B + wide + 2 < k_limit k)%nat) by (intros X; specialize (RM X); lia).
  assert (VEC : O_GlobalStop = O_Return -> (0 + 0 < B)%nat /\ mv m (LStack (B - 1)) = VRaw 0 0) by discriminate.
  assert (HR : R B 0 0 m env st). { split; [exact EX|]. split; [reflexivity|]. split; [reflexivity|]. cbn [vmem st]. now apply agree_near, has_agree. }
  assert (FREE : position_free (R B 0 0 m)) by (exact (R_free k B 0 0 wide m FR deep NW RM')).
  assert (PM : forall o, computes (k_trap k) invoke (outside l) env o env1 ->
    means (machine k C) (top_hash k) C O_GlobalStop variables (Z * variables) (R B 0 0 m) (ended B 0 0 m O_GlobalStop 0 0) b env (lift o env1) env1).
  { intros o CO. exact (program_means k C B 0 0 wide m FR CL deep OH AS LL NW O_GlobalStop 0 0 (or_intror eq_refl) VEC invoke spare RM TAME WORK _ env o env1 CO b EX U E). }
  assert (EX1 : exist env1 0) by (eapply finishes_exist; eauto).
  assert (GOAL : forall s3, valued B 0 0 m (z, env1) s3 -> holds (vmem s3) (mv (vmem s3) (LStack B)) z /\ globals_are (env1 SG) (vmem s3) /\ rest_kept (env1 SG) B m (vmem s3)).
  { intros s3 (_ & _ & A & SL). cbn [fst snd] in A, SL. split; [|split; [|split]].
    - destruct SL as [Q|(x & Q & L & W)]; [now left|]. right. exists x. split; [exact Q|exact W].
    - intros n x G. destruct (EX1 _ _ _ G) as (Q1 & Q2 & _). split; [exact Q1|]. split; [exact Q2|]. exact (near_has _ _ _ _ _ _ EX1 FR A SG n x G).
    - intros x L NG. pose proof (proj1 A x L) as KP. replace (mv (stored env1 0 0 m) x) with (mv m x) in KP; [exact KP|]. symmetry. unfold stored, stored_at. cbn [mv]. destruct x; try reflexivity.
      destruct (env1 SG (Z.of_nat n)) eqn:G; [|reflexivity]. exfalso. apply (NG _ _ G). now rewrite Nat2Z.id.
    - exact (proj2 A). }
  assert (RETS : computes (k_trap k) invoke (outside l) env (CtlSpec.ORet z) env1 -> exists s2 s3, reaches (machine k C) st s2 /\ machine k C s2 = Ok (Done s3) /\
    holds (vmem s3) (mv (vmem s3) (LStack B)) z /\ globals_are (env1 SG) (vmem s3) /\ rest_kept (env1 SG) B m (vmem s3) /\
    (computes (k_trap k) invoke (outside l) env (CtlSpec.ORet z) env1 \/ nthZ C (vpc s3) = Some (byte_of O_Stop))).
  { intros CO. pose proof (FO _ _ _ _ _ _ _ _ FREE (PM _ CO) (eq_refl : vpc st = c_start c) HR) as (s2 & o & RE & ST & s1 & V & ->). exists s2, s1. split; [exact RE|]. split; [exact ST|]. destruct (GOAL _ V) as (G1 & G2 & G3). auto. }
  destruct FN as [CO|[-> CO]]; [auto|].
  pose proof (FO _ _ _ _ _ _ _ _ FREE (PM _ CO) (eq_refl : vpc st = c_start c) HR) as (q & [EN|T] & s1 & RE & PQ & R1); [|auto].
  destruct R1 as (_ & SB & SF & A1). destruct EN as (E1 & E2 & E3).
  set (s2 := VmModel.upd (at_pc s1 (q + 1)) (wr (vmem s1) (LStack B) (VInt 0)) (S B)).
  assert (M1 : machine k C s1 = Ok (Run s2)).
  { assert (D : decode C (vpc s1) = Some (ILit (VInt 0) true, q + 1)) by (unfold decode, rd8; rewrite PQ, E1; reflexivity).
    unfold machine, resumed, step. rewrite D. cbn [VmModel.exec]. unfold checked_run, VmModel.push, set_pc. cbn [VmModel.upd at_pc vfb vmem vsp vpc vslice]. rewrite SB. fold s2.
    destruct (k_protect k && (k_limit k <=? S B)%nat) eqn:PR; [|reflexivity]. exfalso. destruct (k_protect k); [|discriminate]. specialize (RM eq_refl). cbn in PR. apply Nat.leb_le in PR. lia. }
  exists s2, (at_pc s2 (q + 1 + 1)). split; [eapply reaches_trans; [exact RE|now apply reaches_one]|].
  split; [unfold machine, resumed, step, decode, rd8; cbn [s2 VmModel.upd at_pc vpc]; rewrite E2; reflexivity|].
  destruct (GOAL (at_pc s2 (q + 1 + 1))) as (G1 & G2 & G3).
  { split; [reflexivity|]. split; [exact SF|]. split; [apply near_dead; [exact A1|cbn; lia]|]. left. cbn [s2 at_pc VmModel.upd vmem]. apply wr_eq. }
  split; [exact G1|]. split; [exact G2|]. split; [exact G3|]. right. cbn [at_pc vpc]. rewrite <- E3. f_equal. lia.
Qed.

(* The host calls the function number i of the file with the integers zs.  [stop]: where the code outside
   functions ended. *)
Lemma host_call_general : forall wide l c (C : CtlSpec.image) k i h ps s f m stop ips genv zs first z env1 invoke spare,
  code_of wide l c C -> tame invoke -> calls_work k C wide invoke spare -> sane k wide c -> nth_error (routines l) i = Some (h, ps, s) -> nth_error (vm_funs c) i = Some f ->
  closed (k_base k) m -> globals_are genv m -> Forall int32 zs -> int32 first ->
  (* the first local: the first argument too many, or what is left on the stack *)
  (fn_frame f <> O -> if (length ps <? length zs)%nat then first = nth (length ps) zs 0
                      else u32 (rdi (k_pbits k) m (LStack (S (k_base k) + length ps))) = u32 first) ->
  (k_protect k = true -> (k_base k + 2 + length ps + fn_frame f + wide + 2 + spare < k_limit k)%nat) ->
  nthZ C stop = Some (byte_of O_Stop) ->
  let env := called genv (length ps) (fn_frame f) zs first in
  finishes (k_trap k) invoke s env z env1 -> proper_end (k_trap k) invoke CtlSpec.InBlock s env z env1 ->
  exists s1 s2 s3, host_call (k_pbits k) (k_base k) (k_limit k) (k_protect k) ips stop f (map (fun z => VInt (u32 z)) zs) m = Ok (Run s1) /\
    reaches (machine k C) s1 s2 /\ machine k C s2 = Ok (Done s3) /\
    holds (vmem s3) (mv (vmem s3) (LStack (k_base k))) z /\
    globals_are (env1 SG) (vmem s3) /\ rest_kept (env1 SG) (k_base k) m (vmem s3).
Proof.
  intros wide l c C k i h ps s f m stop ips genv zs first z env1 invoke spare BU TAME WORK (deep & OH & AS & LL & NW & KF) N1 N2 CL GA ZS RF FI RM ST env FN PE.
  destruct BU as (_ & FUN & _). destruct (FUN _ _ _ _ _ N1 N2) as (b & U & E & FA & FO & NL & FOL). specialize (FOL k). specialize (PE b E).
  unfold env in *. clear env. rewrite <- FA in *. set (argv := map (fun z => VInt (u32 z)) zs) in *. set (B := k_base k) in *.
  set (m1 := push_args (wr m (LStack B) (VInt 0)) (S B) argv). set (s0 := mkVm m1 stop (S B + length argv) 0 None None ips).
  assert (LA : length argv = length zs) by (unfold argv; apply map_length).
  destruct (push_args_spec argv (wr m (LStack B) (VInt 0)) (S B)) as (A1 & A2 & A3). fold m1 in A1, A2, A3.
  assert (PP : (vsp s0 - length zs)%nat = S B) by (unfold s0; cbn [vsp]; lia).
  assert (A2g : forall x, live B x -> mv m1 x = mv m x).
  { intros x L. rewrite A2 by (destruct x; cbn in *; auto; lia). apply wr_ne. intros ->. cbn in L. lia. }
  assert (BASE : mv m1 (LStack B) = VInt 0) by (rewrite A2 by lia; apply wr_eq).
  assert (R0 : 0 <= stop). { unfold nthZ in ST. destruct (stop <? 0) eqn:Q; [discriminate|]. lia. }
  assert (CLP : closed (S B) m1).
  { intros x L. assert (live B x \/ x = LStack B) as [Q| ->] by (destruct x as [|n| | | |]; cbn in *; auto; destruct (Nat.eq_dec n B); [right; congruence|left; lia]).
    - rewrite A2g by exact Q. eapply val_ok_mono; [|apply CL; exact Q]. lia.
    - rewrite BASE. exact I. }
  assert (ARG : forall j x, nth_error zs j = Some x -> mv m1 (LStack (S B + j)) = VInt (u32 x)).
  { intros j x J. apply A1. unfold argv. rewrite nth_error_map, J. reflexivity. }
  assert (EX : exist (called genv (fn_args f) (fn_frame f) zs first) (fn_args f + fn_frame f)).
  { apply called_exist; auto. intros n x G. destruct (GA _ _ G) as (Q1 & Q2 & _). auto. }
  pose proof (finishes_exist _ _ _ _ _ _ _ TAME FN EX) as EX1.
  destruct (called_returns k C wide deep OH AS LL NW invoke spare TAME WORK f stop s0 s b genv zs first z env1) as (s1 & t & CF & RE & T1 & T2 & T3 & T4 & T5 & T6 & (T7 & T8)); rewrite ?PP; auto.
  - unfold s0; cbn [vsp]. lia.
  - intros Q. specialize (RM Q). lia.
  - intros j x J. split; [|now apply ARG]. rewrite Forall_forall in ZS. apply ZS. now apply nth_error_In in J.
  - intros n x G. destruct (GA _ _ G) as (Q1 & Q2 & Q3). split; [exact Q1|]. split; [exact Q2|]. cbn [vmem s0]. rewrite A2g by exact I. exact Q3.
  - intros NZ. specialize (FI NZ). cbn [vmem s0]. unfold rdi in *. destruct (Nat.ltb_spec (fn_args f) (length zs)) as [Q|Q].
    + rewrite (ARG (fn_args f) first); [cbn [bits]; apply u32_idem|]. rewrite FI. now apply nth_error_nth'.
    + rewrite A2 by (right; lia). rewrite wr_ne by (intros [= K]; lia). exact FI.
  - rewrite PP in T2, T4, T5, T7. set (BB := (S B + (fn_args f + fn_frame f) + 1)%nat) in *.
    assert (D : decode C (vpc t) = Some (IStop, stop + 1)). { unfold decode, rd8. rewrite T1, ST. reflexivity. }
    eexists s1, t, _. split; [unfold host_call; cbv zeta; fold m1; rewrite LA at 1; exact CF|]. split; [exact RE|]. split.
    + unfold machine, resumed, step. rewrite D. cbn [VmModel.exec VmModel.upd vr0 vmem vsp]. rewrite T4. reflexivity.
    + cbn [VmModel.upd vmem next_loc]. replace (S (S B + (fn_args f + fn_frame f)))%nat with BB by (unfold BB; lia).
      assert (WN : forall x, x <> LStack B -> mv (wr (vmem t) (LStack B) (mv (vmem t) (LStack BB))) x = mv (vmem t) x) by (intros; now apply wr_ne).
      fold B. rewrite wr_eq. split; [|split; [|split]].
      * destruct T5 as [Q|(x & Q & L & W)]; [now left|]. right. exists x. split; [exact Q|]. rewrite WN; [exact W|]. intros ->. destruct L as [_ L]. lia.
      * intros n x G. destruct (EX1 _ _ _ G) as (Q1 & Q2 & _). split; [exact Q1|]. split; [exact Q2|]. rewrite WN by discriminate. destruct (T6 _ _ G) as (_ & _ & Q3). exact Q3.
      * intros x L NG. rewrite WN by (intros ->; cbn in L; lia). assert (KP : kept_at x (mv (vmem s0) x) (mv (vmem t) x)) by (apply T7; [destruct x; cbn in *; auto; lia|exact NG]). cbn [vmem s0] in KP. rewrite A2g in KP by exact L. exact KP.
      * destruct T8 as (H1 & H2 & H3). destruct A3 as (H4 & H5 & H6). cbn [vmem s0 wr mo mraw mnext] in *. change (mo (wr m (LStack B) (VInt 0))) with (mo m) in H4; change (mraw (wr m (LStack B) (VInt 0))) with (mraw m) in H5; change (mnext (wr m (LStack B) (VInt 0))) with (mnext m) in H6; split; [|split]; intros; cbn [wr mo mraw mnext]; rewrite ?H1, ?H2, ?H3; congruence.
Qed.

(* A call inside the program: the values of the arguments are on top of the stack.  If the result is used,
   it takes their place. *)
Lemma call_general : forall wide l c (C : CtlSpec.image) k i h ps s f st ret genv zs first z env1 invoke spare,
  code_of wide l c C -> tame invoke -> calls_work k C wide invoke spare -> sane k wide c -> nth_error (routines l) i = Some (h, ps, s) -> nth_error (vm_funs c) i = Some f ->
  decode C (vpc st) = Some (ICall (length zs) i, ret) -> 0 <= ret -> (length zs <= vsp st)%nat ->
  let p := (vsp st - length zs)%nat in
  closed p (vmem st) -> globals_are genv (vmem st) -> integers (vmem st) p zs -> int32 first ->
  (fn_frame f <> O -> u32 (rdi (k_pbits k) (vmem st) (LStack (p + length ps))) = u32 first) ->
  (k_protect k = true -> (p + 1 + length ps + fn_frame f + wide + 2 + spare < k_limit k)%nat) ->
  let env := called genv (length ps) (fn_frame f) zs first in
  finishes (k_trap k) invoke s env z env1 -> proper_end (k_trap k) invoke CtlSpec.InBlock s env z env1 ->
  exists t, reaches (machine k C) st t /\ vpc t = ret /\ vsp t = p /\ vfb t = vfb st /\
    globals_are (env1 SG) (vmem t) /\ rest_kept (env1 SG) p (vmem st) (vmem t) /\
    forall r, decode C ret = Some (IPushRet, r) ->
    exists u, reaches (machine k C) st u /\ vpc u = r /\ vsp u = S p /\ vfb u = vfb st /\ mv (vmem u) (LStack p) = VInt (u32 z) /\
      globals_are (env1 SG) (vmem u) /\ rest_kept (env1 SG) p (vmem st) (vmem u).
Proof.
  intros wide l c C k i h ps s f st ret genv zs first z env1 invoke spare BU TAME WORK (deep & OH & AS & LL & NW & KF) N1 N2 DC R0 LE p CL GA ZS RF FI RM env FN PE.
  destruct BU as (_ & FUN & _). destruct (FUN _ _ _ _ _ N1 N2) as (b & U & E & FA & FO & NL & FOL). specialize (FOL k). specialize (PE b E).
  unfold env in *. clear env. rewrite <- FA in *.
  assert (ZR : Forall int32 zs). { apply Forall_forall. intros x IN. apply In_nth_error in IN as (j & J). apply ZS in J. apply J. }
  assert (EX : exist (called genv (fn_args f) (fn_frame f) zs first) (fn_args f + fn_frame f)).
  { apply called_exist; auto. intros n x G. destruct (GA _ _ G) as (Q1 & Q2 & _). auto. }
  pose proof (finishes_exist _ _ _ _ _ _ _ TAME FN EX) as EX1.
  set (s0 := at_pc st ret).
  destruct (called_returns k C wide deep OH AS LL NW invoke spare TAME WORK f ret (VmModel.upd s0 (vmem s0) (vsp s0)) s b genv zs first z env1) as (s1 & t & CF & RE & T1 & T2 & T3 & T4 & T5 & T6 & (T7 & T8));
    cbn [s0 at_pc VmModel.upd vsp vmem vfb]; fold p; auto.
  { intros Q. specialize (RM Q). lia. }
  cbn [s0 at_pc VmModel.upd vsp vmem vfb] in T2, T3, T4, T5, T6, T7, T8. fold p in T2, T4, T5, T7.
  assert (M1 : machine k C st = Ok (Run s1)).
  { unfold machine, resumed, step. rewrite DC. cbn [VmModel.exec VmModel.upd vmem vsp vpc]. rewrite KF, N2. unfold s0, at_pc in CF. cbn [VmModel.upd vmem vsp vpc] in CF. unfold VmModel.upd, set_pc in *. cbn [vmem vsp vpc vfb vslice] in *. rewrite CF. reflexivity. }
  assert (RT : reaches (machine k C) st t) by (eapply reaches_trans; [apply reaches_one; exact M1|exact RE]).
  pose proof T6 as GT.
  exists t. split; [exact RT|]. split; [exact T1|]. split; [exact T2|]. split; [exact T3|]. split; [exact GT|]. split; [split; assumption|].
  intros r DR. set (BB := (p + (fn_args f + fn_frame f) + 1)%nat) in *. set (u := VmModel.upd (at_pc t r) (wr (vmem t) (LStack p) (VInt (u32 z))) (S p)).
  assert (M2 : machine k C t = Ok (Run u)).
  { unfold machine, resumed, step. rewrite T1, DR. cbn [VmModel.exec VmModel.upd vr0 vmem vsp set_pc]. rewrite T4. cbn [next_loc].
    replace (S (p + (fn_args f + fn_frame f)))%nat with BB by (unfold BB; lia).
    assert (DE : exists d, deref (k_pbits k) (k_fuel k) (LStack BB) (vmem t) = Ok (d, vmem t) /\ mv (vmem t) d = VInt (u32 z)).
    { destruct (k_fuel k) as [|[|n]]; [lia|lia|]. cbn [deref]. destruct T5 as [Q|(x & Q & L & W)].
      - exists (LStack BB). rewrite Q. auto.
      - exists x. rewrite Q, W. auto. }
    destruct DE as (d & DE & DV). rewrite DE. cbn [bind]. unfold checked_run. rewrite DV, T2. cbn [VmModel.upd vsp].
    destruct (k_protect k && (k_limit k <=? S p)%nat) eqn:PR; [|reflexivity].
    exfalso. destruct (k_protect k); [|discriminate]. specialize (RM eq_refl). cbn in PR. apply Nat.leb_le in PR. lia. }
  exists u. split; [eapply reaches_trans; [exact RT|apply reaches_one; exact M2]|]. unfold u; cbn [VmModel.upd at_pc vpc vsp vfb vmem]. split; [reflexivity|]. split; [reflexivity|]. split; [exact T3|].
  split; [apply wr_eq|]. assert (WN : forall x, x <> LStack p -> mv (wr (vmem t) (LStack p) (VInt (u32 z))) x = mv (vmem t) x) by (intros; now apply wr_ne). split; [|split].
  - intros n x G. destruct (GT _ _ G) as (Q1 & Q2 & Q3). split; [exact Q1|]. split; [exact Q2|]. now rewrite WN by discriminate.
  - intros x L NG. rewrite WN by (intros ->; cbn in L; lia). now apply T7.
  - exact T8.
Qed.


(* ---------------------------------------------------------------- nested calls *)
Lemma first_some pbits m x : exists first, int32 first /\ u32 (rdi pbits m x) = u32 first.
Proof.
  exists (s32 (rdi pbits m x)). split; [|now rewrite u32_s32]. unfold int32, int_min, s32. pose proof (u32_range (rdi pbits m x)). destruct (Z.ltb_spec (u32 (rdi pbits m x)) 2147483648); lia.
Qed.
Lemma named_once l h i ps s j ps' s' : function_is l h i ps s -> function_is l h j ps' s' -> i = j /\ ps = ps' /\ s = s'.
Proof.
  intros [A1 A2] [B1 B2]. assert (i = j) as <-. { destruct (lt_eq_lt_dec i j) as [[L| ->]|L]; auto; exfalso; [exact (B2 _ _ _ L A1)|exact (A2 _ _ _ L B1)]. } rewrite A1 in B1. injection B1 as <- <-. auto.
Qed.
Lemma no_calls_work k C wide : calls_work k C wide no_calls 0.
Proof. intros h zs g z g1 s q drop []. Qed.
Lemma no_calls_tame : tame no_calls.
Proof. intros h zs g z g1 []. Qed.
Section Nested.
Variables (wide : nat) (l : list pitem) (c : ctx) (C : CtlSpec.image) (k : config) (F : nat).
Hypothesis CO : code_of wide l c C.
Hypothesis SA : sane k wide c.
Hypothesis FB : Forall (fun f => (fn_args f + fn_frame f <= F)%nat) (vm_funs c).
Notation calls := (invokes (k_trap k) l (locals_of c)).
Lemma function_there h i ps s : function_is l h i ps s -> exists f, nth_error (vm_funs c) i = Some f.
Proof.
  intros [N _]. destruct CO as (LN & _). destruct (nth_error (vm_funs c) i) as [f|] eqn:E; [eauto|]. apply nth_error_None in E.
  assert (i < length (routines l))%nat by (apply nth_error_Some; congruence). lia.
Qed.
Lemma calls_tame d : tame (calls d).
Proof.
  induction d as [|d IH]; intros h zs g z g1 INV ZS RG; cbn [invokes] in INV; [destruct INV|]. destruct INV as (i & ps & s & FI & ALL).
  destruct (function_there _ _ _ _ FI) as (f & NF). destruct CO as (_ & FUN & _). destruct (FUN _ _ _ _ _ (proj1 FI) NF) as (b & _ & _ & FA & _ & NL & _).
  assert (R0 : int32 0) by (unfold int32, int_min; lia). destruct (ALL 0 R0) as (env1 & FN & _ & G1).
  assert (LO : locals_of c i = fn_frame f) by (unfold locals_of; now rewrite NF). rewrite LO, <- FA in FN.
  assert (EX : exist (called g (fn_args f) (fn_frame f) zs 0) (fn_args f + fn_frame f)) by (apply called_exist; auto).
  split; [exact (finishes_result _ _ _ _ _ _ _ IH FN EX)|]. pose proof (finishes_exist _ _ _ _ _ _ _ IH FN EX) as EX1. split.
  - intros n x G. rewrite <- G1 in G. exact (exist_ranged _ _ EX1 n x G).
  - intros n G. rewrite <- G1 in G. exact (finishes_domain _ _ _ _ _ _ _ SG n IH FN EX G).
Qed.
Lemma calls_work_nested d : calls_work k C wide (calls d) (d * (F + 1)).
Proof.
  induction d as [|d IH]; intros h zs g z g1 st q drop INV LK PC LE p CL ZS GA RM; cbn [invokes] in INV; [destruct INV|]. destruct INV as (i & ps & s & FI & ALL).
  destruct (function_there _ _ _ _ FI) as (f & NF). pose proof CO as (_ & FUN & _ & LINK). destruct (FUN _ _ _ _ _ (proj1 FI) NF) as (b & _ & _ & FA & _ & _ & _).
  destruct (first_some (k_pbits k) (vmem st) (LStack (p + length ps))) as (first & RF & EF). destruct (ALL first RF) as (env1 & FN & PE & G1).
  assert (LO : locals_of c i = fn_frame f) by (unfold locals_of; now rewrite NF). rewrite LO in FN, PE.
  assert (BF : (fn_args f + fn_frame f <= F)%nat). { apply nth_error_In in NF. rewrite Forall_forall in FB. exact (FB _ NF). }
  destruct (LINK _ _ _ _ _ _ _ LK FI) as (n & DC & OUT). replace (Z.to_nat (lenZ zs)) with (length zs) in DC by (unfold lenZ; lia). rewrite <- PC in DC.
  assert (Q0 : 0 <= q). { unfold decode, rd8, nthZ in DC. rewrite PC in DC. destruct (Z.ltb_spec q 0); [discriminate|assumption]. }
  destruct (call_general wide l c C k i h ps s f st n g zs first z env1 (calls d) (d * (F + 1)) CO (calls_tame d) IH SA (proj1 FI) NF DC) as (t & RE & T1 & T2 & T3 & T4 & T5 & TR); auto.
  { destruct OUT as [[-> _]|[-> _]]; lia. }
  { fold p. intros X. specialize (RM X). rewrite <- FA. cbn [Nat.mul] in RM. lia. }
  fold p in T2, T5, TR.
  assert (GG : forall m, globals_are (env1 SG) m -> globals_are g1 m) by (intros m X y w Y; apply X; now rewrite G1).
  assert (KK : forall m, rest_kept (env1 SG) p (vmem st) m -> rest_kept g1 p (vmem st) m) by (intros m [X1 X2]; split; [|exact X2]; intros x L NG; apply X1; [exact L|]; intros y w Y; apply (NG y w); now rewrite <- G1).
  exists t. split; [exact RE|]. split; [exact T2|]. split; [exact T3|]. split; [auto|]. split; [auto|].
  destruct OUT as [[-> X]|(-> & ND & DR)]; [left; auto|right]. split; [exact ND|]. destruct (TR _ DR) as (u & U1 & U2 & U3 & U4 & U5 & U6 & U7). exists u. auto 10.
Qed.
End Nested.

(* ---------------------------------------------------------------- more depth, the same calls *)
Lemma computes_more trap (i1 i2 : Z -> list Z -> values -> Z -> values -> Prop) : (forall h zs g z g1, i1 h zs g z g1 -> i2 h zs g z g1) ->
  forall s env o env1, computes trap i1 s env o env1 -> computes trap i2 s env o env1.
Proof. intros M s env o env1. induction 1; try solve [econstructor; eauto]. Qed.
Lemma invokes_more trap l locals d d' : (d <= d')%nat -> forall h zs g z g1, invokes trap l locals d h zs g z g1 -> invokes trap l locals d' h zs g z g1.
Proof.
  revert d'. induction d as [|d IH]; intros d' L h zs g z g1 V; [destruct V|]. destruct d' as [|d']; [lia|]. cbn [invokes] in *. destruct V as (i & ps & s & FI & ALL).
  exists i, ps, s. split; [exact FI|]. intros first RF. destruct (ALL first RF) as (env1 & FN & PE & G). exists env1. cbv zeta in *.
  assert (M : forall s env o env1, computes trap (invokes trap l locals d) s env o env1 -> computes trap (invokes trap l locals d') s env o env1) by (apply computes_more; apply IH; lia).
  split; [destruct FN as [X|[E X]]; [left|right]; auto|]. split; [|exact G]. intros c E T. apply M. exact (PE c E T).
Qed.
