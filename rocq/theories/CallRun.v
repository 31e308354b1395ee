(* Proofs for C58: what a call does, as a statement: its arguments, the call itself and what becomes of the
   result. *)
From Coq Require Import String.
From Verif Require Import Base BaseLemmas HashModel FloatModel OpsModel VmModel VmSpec OpsLocal EmitModel CcModel JumpSpec LinkModel LinkSpec ExprModel ExprSpec ExprNest ExprStack
  OpsProofs2 FuseSpec FuseRules FuseChunks FuseProofs EvalSpec EvalProofs EvalRun EvalNest EvalBlock ProgSpec ProgCode ProgCtl ProgRun.
From Verif Require CtlSpec CtlSem LayProofs.
Open Scope string_scope. Open Scope list_scope. Open Scope Z_scope.
Import CtlSem. Import (coercions) CtlSpec.

Lemma has_agree env fb nl B m : has env fb m -> agree B (stored env fb nl m) m.
Proof.
  intros H. constructor; try reflexivity. intros l _. unfold stored, stored_at. cbn [mv]. destruct l; try reflexivity.
  - destruct (env SG (Z.of_nat n)) eqn:E; [|reflexivity]. specialize (H _ _ _ E). cbn in H. now rewrite Nat2Z.id in H.
  - destruct ((fb <=? n)%nat && (n <? fb + nl)%nat) eqn:Q; [|reflexivity]. destruct (env SL (Z.of_nat (n - fb))) eqn:E; [|reflexivity].
    specialize (H _ _ _ E). cbn in H. rewrite Nat2Z.id in H. apply andb_prop in Q as [Q _]. apply Nat.leb_le in Q. now replace (fb + (n - fb))%nat with n in H by lia.
Qed.
Lemma near_has env fb nl B m0 m : exist env nl -> (fb + nl <= B)%nat -> near B (stored env fb nl m0) m -> has env fb m.
Proof.
  intros EX F A q n z E. rewrite (near_at _ _ _ _ A) by (try apply vloc_auto; eapply live_var; eauto). exact (stored_var _ _ _ _ _ _ _ EX E).
Qed.
(* calls keep integers within 32 bits, and globals that hold one *)
Definition ranged (g : values) : Prop := forall n z, g n = Some z -> 0 <= n < 256 /\ int32 z.
Definition tame (invoke : Z -> list Z -> values -> Z -> values -> Prop) : Prop :=
  forall h zs g z g1, invoke h zs g z g1 -> Forall int32 zs -> ranged g -> int32 z /\ ranged g1 /\ forall n, g1 n = None -> g n = None.
Lemma exist_ranged env nl : exist env nl -> ranged (env SG).
Proof. intros E n z H. destruct (E _ _ _ H) as (A & B & _). split; assumption. Qed.
Lemma with_exist env nl g : exist env nl -> ranged g -> exist (with_globals env g) nl.
Proof. intros E R q n z H. destruct q; cbn in H; [destruct (R _ _ H); repeat split; try apply H0; try apply H1; discriminate|exact (E _ _ _ H)]. Qed.
Lemma receives_exist to z env env1 nl : receives to z env env1 -> exist env nl -> int32 z -> exist env1 nl.
Proof. intros [] E R; [exact E|]. eapply set_exist; eauto. Qed.
Fixpoint bare_variable (e : expr) : bare e -> a_variable e.
Proof. destruct e as [c|q c|t]; cbn; [auto|auto|]. destruct t; auto. Qed.

(* what a linked call does on the machine, when the arguments are on top of the stack; [spare] is how much
   room the calls below need *)
Definition calls_work (k : config) (C : CtlSpec.image) (wide : nat) (invoke : Z -> list Z -> values -> Z -> values -> Prop) (spare : nat) : Prop :=
  forall h zs g z g1 s q drop, invoke h zs g z g1 -> CtlSpec.linked C true h q (Some (lenZ zs)) drop -> vpc s = q -> (length zs <= vsp s)%nat ->
  let p := (vsp s - length zs)%nat in
  closed p (vmem s) -> integers (vmem s) p zs -> globals_are g (vmem s) -> (k_protect k = true -> (p + wide + 2 + spare < k_limit k)%nat) ->
  exists t, reaches (machine k C) s t /\ vsp t = p /\ vfb t = vfb s /\ globals_are g1 (vmem t) /\ rest_kept g1 p (vmem s) (vmem t) /\
    ((vpc t = q + 6 /\ (drop = Some (byte_of O_PopOne) \/ nthZ C (q + 6) = Some (byte_of O_NewObjectTable))) \/
     drop <> Some (byte_of O_PopOne) /\ exists u, reaches (machine k C) s u /\ vpc u = q + 6 /\ vsp u = S p /\ vfb u = vfb s /\
       mv (vmem u) (LStack p) = VInt (u32 z) /\ globals_are g1 (vmem u) /\ rest_kept g1 p (vmem s) (vmem u)).

Section CallRun.
Variables (k : config) (C : CtlSpec.image) (B fb nl wide : nat) (m0 : mem).
Hypothesis frame : (fb + nl <= B)%nat.
Hypothesis shut : closed B m0.
Hypothesis deep : (3 <= k_fuel k)%nat.
Hypothesis OH : local_fn (k_obj_hash k).
Hypothesis AS : local_fn (k_as_string k).
Hypothesis LL : lib_local (k_lib k).
Hypothesis narrow : (wide <= 254)%nat.
Variable invoke : Z -> list Z -> values -> Z -> values -> Prop.
Variable spare : nat.
Hypothesis room : k_protect k = true -> (B + wide + 2 + spare < k_limit k)%nat.
Hypothesis TAME : tame invoke.
Hypothesis WORK : calls_work k C wide invoke spare.
Let room' : k_protect k = true -> (B + wide + 2 < k_limit k)%nat.
Proof. intros X. specialize (room X). lia. Qed.
Notation trap := (k_trap k).
Notation R := (R B fb nl m0).

(* j arguments are there *)
Definition ready (env : variables) (zs : list Z) (s : vm) : Prop :=
  exist env nl /\ vsp s = (B + length zs)%nat /\ vfb s = fb /\ near B (stored env fb nl m0) (vmem s) /\ closed (B + length zs) (vmem s) /\ integers (vmem s) B zs.
Lemma args_run env n l cs : Forall (usable_argument wide n) l -> Forall2 (fun e c => compile e = COk c) l cs ->
  forall zs done p s, Forall2 (fun e x => value_of trap env e = Some x) l zs -> (length done + length l <= n)%nat ->
  (forall i, 0 <= i < lenZ (concat (map b_all cs)) -> nthZ C (p + i) = nthZ (concat (map b_all cs)) i) -> vpc s = p -> ready env done s ->
  exists s1, reaches (machine k C) s s1 /\ vpc s1 = p + lenZ (concat (map b_all cs)) /\ ready env (done ++ zs) s1.
Proof.
  intros U F. induction F as [|t c l cs CE F IH]; intros zs done p s V LE PL PC RD.
  - inversion V; subst. exists s. split; [exists 0%nat; constructor|]. cbn [map concat]. split; [change (lenZ []) with 0; lia|]. now rewrite app_nil_r.
  - inversion V as [|? z ? zs' VZ VS]; subst. inversion U as [|? ? (FN & AR & (b & h & Cb & Ch & EA) & W & NV) US]; subst. cbn [map concat length] in *.
    assert (b = c) by congruence. subst b. destruct RD as (EX & SP & FB & AG & CL & IN). set (j := length done) in *.
    assert (NB : neat c) by (eapply block_neat; [exact FN|exact AR|lia| |exact CE]; lia).
    pose proof (near_has _ _ _ _ _ _ EX frame AG) as HAS.
    assert (FR : (fb + nl <= B + j)%nat) by lia. assert (NW : (wide - j <= 254)%nat) by lia.
    assert (RM : k_protect k = true -> (B + j + (wide - j) + 2 < k_limit k)%nat) by (intros X; specialize (room X); lia).
    assert (HR : ProgRun.R (B + j) fb nl (vmem s) env s) by (split; [exact EX|]; split; [exact SP|]; split; [exact FB|]; now apply agree_near, has_agree).
    assert (NV' : forall e, t = Atom e -> ~ bare e) by (intros e X Y; exact (NV _ X (bare_variable _ Y))).
    destruct (evaluates_how k C (B + j) fb nl (wide - j) (vmem s) FR CL deep NW RM env _ t h z s FN (Nat.lt_succ_diag_r _) ltac:(lia) Ch HR VZ) as (NF & RZ & PU & is & u & EM & RU & SU & FU & AU & SK & TOP).
    specialize (TOP NV').
    destruct (emitted_runs k C nl OH AS LL _ _ _ _ _ EM RU) as (ds & js & v & EB & CV & GD & RJ & FL & RV & [S1 S2 _ _ S5]). rewrite EA in EB.
    rewrite SU in S1, S5. assert (FV : vfb v = fb) by congruence.
    assert (AV : agree (B + j) (vmem s) (vmem v)) by (eapply agree_trans; [exact AU|eapply agree_mono; [|exact S5]; lia]).
    assert (TV : mv (vmem v) (LStack (B + j)) = VInt (u32 z)) by (rewrite <- (ag_mv _ _ _ S5) by (cbn; lia); exact TOP).
    assert (PB : forall i, 0 <= i < lenZ (b_all c) -> nthZ C (vpc s + i) = nthZ (b_all c) i).
    { intros i I0. rewrite PL by (rewrite lenZ_app'; pose proof (lenZ_nonneg (concat (map b_all cs))); lia). apply LayProofs.nthZ_app1. lia. }
    rewrite EB in PB.
    pose proof (walk k C (B + j) fb nl (wide - j) FR deep NW RM (rev ds) js _ s v PB RJ FL eq_refl RV) as WK. rewrite <- EB in WK.
    destruct (runs_calm _ _ _ _ _ _ _ _ _ _ _ _ _ _ _ _ _ _ _ _ RV) as [CV1 _]. rewrite S1 in CV1.
    set (s1 := at_pc v (vpc s + lenZ (b_all c))) in *.
    assert (RD1 : ready env (done ++ [z]) s1).
    { unfold ready. rewrite app_length. cbn [length]. fold j. replace (B + (j + 1))%nat with (S (B + j)) by lia. split; [exact EX|]. split; [exact S1|]. split; [exact FV|].
      split; [eapply near_agree; [exact AG|]; eapply agree_mono; [|exact AV]; lia|]. split; [exact CV1|].
      intros i x X. cbn [s1 at_pc vmem]. destruct (Nat.ltb_spec i j) as [LI|LI].
      - rewrite nth_error_app1 in X by exact LI. destruct (IN _ _ X) as [I1 I2]. split; [exact I1|]. rewrite <- (ag_mv _ _ _ AV) by (cbn; lia). exact I2.
      - assert (i = j). { assert (i < length (done ++ [z]))%nat by (apply nth_error_Some; congruence). rewrite app_length in H. cbn in H. fold j in H. lia. } subst i.
        rewrite nth_error_app2 in X by (fold j; lia). fold j in X. rewrite Nat.sub_diag in X. cbn in X. injection X as <-. split; [exact RZ|exact TV]. }
    destruct (IH US zs' (done ++ [z]) (vpc s + lenZ (b_all c)) s1 VS) as (s2 & RE & P2 & RD2); [rewrite app_length; cbn; fold j; lia| |reflexivity|exact RD1|].
    + intros i I0. rewrite <- Z.add_assoc. rewrite PL by (rewrite lenZ_app'; pose proof (lenZ_nonneg (b_all c)); lia). apply LayProofs.nthZ_app2. lia.
    + exists s2. split; [eapply reaches_trans; eauto|]. split; [rewrite P2, lenZ_app'; lia|]. now rewrite <- app_assoc in RD2.
Qed.
(* the variables after the call *)
Lemma after_call env zs g1 s t : ready env zs s -> ranged g1 -> (forall n, g1 n = None -> env SG n = None) -> globals_are g1 (vmem t) -> rest_kept g1 B (vmem s) (vmem t) ->
  near B (stored (with_globals env g1) fb nl m0) (vmem t).
Proof.
  intros (EX & _ & _ & [A1 A2] & _) RG DOM GA (RK & HK). split; [|exact (heap_trans _ _ _ A2 HK)].
  intros l L. unfold stored. cbn [mv].
  assert (KEEP : (forall n z, g1 n = Some z -> l <> LGlobal (Z.to_nat n)) -> stored_at (with_globals env g1) fb nl l = stored_at env fb nl l ->
    kept_at l (match stored_at (with_globals env g1) fb nl l with Some z => VInt (u32 z) | None => mv m0 l end) (mv (vmem t) l)).
  { intros NG E. rewrite E. exact (kept_trans _ _ _ _ (A1 l L) (RK l L NG)). }
  destruct l as [n|n| | | |]; try (apply KEEP; [discriminate|reflexivity]).
  destruct (g1 (Z.of_nat n)) as [z|] eqn:G.
  - cbn [stored_at with_globals]. rewrite G. destruct (GA _ _ G) as (_ & _ & Q). rewrite Nat2Z.id in Q. now left.
  - apply KEEP; [|cbn; rewrite G; symmetry; now apply DOM]. intros x y X [= E]. destruct (RG _ _ X) as [X1 _]. subst n. rewrite Z2Nat.id in G by lia. congruence.
Qed.
Theorem call_means to h args e env zs z g env1 : exist env nl -> usable_call wide to h args -> compile_call_to to h args = COk e ->
  Forall2 (fun e x => value_of trap env e = Some x) args zs -> invoke h zs (env SG) z g -> receives to z (with_globals env g) env1 ->
  run_means (machine k C) C variables R e env env1.
Proof.
  intros EX U CE V INV REC. destruct (call_made wide to h args e ltac:(lia) U CE) as (cs & ops & F2 & NS & ->). destruct U as (TO & HR & NY & UA).
  set (A := concat (map b_all cs)) in *. intros P p s HP PL PC HRs. apply call_only in HP. subst P.
  assert (LZ : length zs = length args) by (clear -V; induction V; cbn; congruence).
  assert (LA : (length args <= wide)%nat). { destruct args as [|a l]; [cbn; lia|]. inversion UA as [|? ? (_ & _ & _ & W & _) _]; subst. lia. }
  pose proof HRs as (_ & SP & FB & AG). pose proof PL as [PL1 PL2].
  assert (CLEN : call_len h = 6) by (unfold call_len; destruct (Z.eqb_spec h yield_hash); [contradiction|reflexivity]).
  assert (IV : intervals (call_target to (call_block A ops (lenZ args) h)) = [(lenZ A, 6)]) by (destruct to as [[q x]|]; cbn -[call_len]; now rewrite CLEN).
  assert (FREE : forall i, 0 <= i < lenZ (call_code to A (lenZ args)) -> ~ (lenZ A <= i < lenZ A + 6) -> nthZ C (p + i) = nthZ (call_code to A (lenZ args)) i).
  { intros i I0 NI. apply PL1; [exact I0|]. unfold CtlSpec.patched. rewrite IV. intros X. inversion X as [? ? Y|? ? Y]; subst; [exact (NI Y)|inversion Y]. }
  assert (LC : lenZ (call_code to A (lenZ args)) = lenZ A + 6 + match to with Some _ => 2 | None => 0 end).
  { destruct to as [[q x]|]; unfold call_code; rewrite lenZ_app'; unfold lenZ; cbn; lia. }
  pose proof (lenZ_nonneg A) as A0.
  assert (FA : forall i, 0 <= i < lenZ A -> nthZ C (p + i) = nthZ A i).
  { intros i I0. rewrite FREE by (rewrite ?LC; destruct to; lia). destruct to as [[q x]|]; unfold call_code; apply LayProofs.nthZ_app1; lia. }
  assert (RD : ready env [] s).
  { unfold ready. cbn [length]. rewrite Nat.add_0_r. split; [exact EX|]. split; [exact SP|]. split; [exact FB|]. split; [exact AG|]. split.
    - eapply near_closed; [exact AG|]. now apply stored_closed.
    - intros [|j] x X; discriminate. }
  destruct (args_run env (length args) args cs UA F2 zs [] p s V (le_n _) FA PC RD) as (s1 & RE1 & P1 & RD1). cbn [List.app] in RD1. fold A in P1.
  pose proof RD1 as (_ & SP1 & FB1 & AG1 & CL1 & IN1).
  assert (PB : (vsp s1 - length zs)%nat = B) by lia.
  assert (ZR : Forall int32 zs). { apply Forall_forall. intros x X. apply In_nth_error in X as (j & J). destruct (IN1 _ _ J) as [J1 _]. exact J1. }
  destruct (TAME _ _ _ _ _ INV ZR (exist_ranged _ _ EX)) as (RZ & RG & DOM).
  assert (LK : CtlSpec.linked C true h (p + lenZ A) (Some (lenZ zs)) (nthZ (call_code to A (lenZ args)) (lenZ A + 5))).
  { specialize (PL2 true h (lenZ A)). unfold CtlSpec.site_byte in PL2. rewrite CLEN in PL2. cbn [andb] in PL2. change (1 <? 6) with true in PL2. change (5 <? 6) with true in PL2. cbn iota in PL2.
    replace (nthZ (call_code to A (lenZ args)) (lenZ A + 1)) with (Some (lenZ zs)) in PL2.
    - apply PL2. exists [lenZ A]. destruct to as [[q x]|]; cbn; auto.
    - assert (U8 : u8 (lenZ args) = lenZ zs) by (unfold lenZ; rewrite LZ; unfold u8; apply Z.mod_small; lia).
      destruct to as [[q x]|]; unfold call_code; rewrite LayProofs.nthZ_app2 by lia; cbn; now rewrite U8. }
  destruct (WORK _ _ _ _ _ s1 _ _ INV LK P1) as (t & RE & TS & TF & TG & TR & OUT); try rewrite PB.
  { lia. } { eapply near_closed; [exact AG1|]. now apply stored_closed. } { exact IN1. }
  { intros n x G. destruct (EX _ _ _ G) as (G1 & G2 & _). split; [exact G1|]. split; [exact G2|]. exact (near_has _ _ _ _ _ _ EX frame AG1 SG n x G). }
  { exact room. }
  rewrite PB in TS, TR, OUT. rewrite FB1 in TF. pose proof (with_exist _ _ _ EX RG) as EX1. remember (with_globals env g) as env2 eqn:EE2.
  inversion REC as [z' envx|q n z' envx old OLD]; subst to z' envx env1.
  - (* the result is not used *)
    destruct OUT as [[PT _]|[ND _]].
    + exists t. split; [eapply reaches_trans; eauto|]. split; [rewrite PT, LC; lia|]. split; [exact EX1|]. split; [exact TS|]. split; [exact TF|]. subst env2. exact (after_call _ _ _ _ _ RD1 RG DOM TG TR).
    + exfalso. apply ND. unfold call_code. rewrite LayProofs.nthZ_app2 by lia. reflexivity.
  - assert (B6 : nthZ C (p + lenZ A + 6) = Some (byte_of (assign_to q)) /\ nthZ C (p + lenZ A + 7) = Some (u8 n)).
    { rewrite <- !Z.add_assoc. rewrite !FREE by (rewrite ?LC; lia). unfold call_code. rewrite !LayProofs.nthZ_app2 by lia. split; reflexivity. }
    destruct B6 as [B6 B7]. destruct OUT as [[_ [X|X]]|[_ (u & RU & PU & SU & FU & TOP & GU & KU)]].
    { exfalso. unfold call_code in X. rewrite LayProofs.nthZ_app2 in X by lia. discriminate X. } { exfalso. rewrite B6 in X. destruct q; discriminate X. }
    rewrite FB1 in FU. pose proof (after_call _ _ _ _ _ RD1 RG DOM GU KU) as AU. rewrite <- EE2 in AU.
    assert (U8 : u8 n = n) by (unfold u8; apply Z.mod_small; exact TO).
    assert (D : decode C (vpc u) = Some (IAssignTo q (Z.to_nat n), vpc u + 2)).
    { unfold decode, rd8. rewrite PU, B6. destruct q; cbn [assign_to lit_to]; (change (opcode_of _) with (Some O_AssignToGlobalAndPop) || change (opcode_of _) with (Some O_AssignToLocalAndPop)); cbn [decode_op]; unfold v1, rd8;
        replace (p + lenZ A + 6 + 1) with (p + lenZ A + 7) by lia; rewrite B7; rewrite U8; do 2 f_equal; lia. }
    assert (VX : mv (vmem u) (vloc fb q (Z.to_nat n)) = VInt (u32 old)) by (exact (near_has _ _ _ _ _ _ EX1 frame AU q n old OLD)).
    set (s2 := VmModel.upd (at_pc u (vpc u + 2)) (wr (vmem u) (vloc fb q (Z.to_nat n)) (VInt (u32 z))) B).
    assert (M : machine k C u = Ok (Run s2)).
    { rewrite (exec_fuel k C B fb nl wide frame deep narrow room' 3 _ (vpc u + 2) u (Run s2) (le_n 3) D); [reflexivity|].
      cbn [VmModel.exec at_pc VmModel.upd vfb vmem vsp vpc vslice]. unfold need. cbn [at_pc VmModel.upd vfb vmem vsp vpc vslice]. rewrite FU, SU. destruct (Nat.ltb_spec (S B) 1); [lia|].
      replace (S B - 1)%nat with B by lia. rewrite VX, TOP. cbn [type_of wr_assign bind]. rewrite TOP. reflexivity. }
    exists s2. split; [eapply reaches_trans; [exact RE1|]; eapply reaches_trans; [exact RU|now apply reaches_one]|]. split; [cbn [s2 VmModel.upd at_pc vpc]; rewrite PU, LC; lia|].
    split; [eapply set_exist; eauto|]. split; [reflexivity|]. split; [exact FU|]. cbn [s2 VmModel.upd vmem]. eapply near_trans; [apply agree_near, (set_stored env2 fb nl m0 q n old z B EX1 OLD)|]. now apply near_wr.
Qed.
End CallRun.
