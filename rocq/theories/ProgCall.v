(* Proofs for C57: functions and whole files. *)
From Coq Require Import String.
From Verif Require Import Base BaseLemmas OpsModel VmModel VmSpec VmProofs OpsLocal EmitModel CcModel ExprModel ExprSpec ExprNest ExprStack LinkModel LinkSpec
  OpsProofs2 FuseSpec EvalSpec EvalProofs EvalRun EvalNest EvalBlock ProgSpec ProgCode ProgCtl ProgRun CallRun ProgMean.
From Verif Require CtlSpec CtlSem VmProps WholeProps.
Open Scope string_scope. Open Scope list_scope. Open Scope Z_scope.
Import CtlSem. Import (coercions) CtlSpec.

Lemma finishes_exist trap invoke s env z env1 nl : tame invoke -> finishes trap invoke s env z env1 -> exist env nl -> exist env1 nl.
Proof. intros T [H|[_ H]]; eauto using computes_exist. Qed.
Lemma finishes_domain trap invoke s env z env1 nl q n : tame invoke -> finishes trap invoke s env z env1 -> exist env nl -> env1 q n = None -> env q n = None.
Proof. intros T [H|[_ H]]; eauto using computes_domain. Qed.
Lemma finishes_result trap invoke s env z env1 nl : tame invoke -> finishes trap invoke s env z env1 -> exist env nl -> int32 z.
Proof. intros T [H|[-> H]]; [eauto using computes_result|]. intros _. unfold int32, int_min. lia. Qed.

(* ---------------------------------------------------------------- the body of a function *)
Section Body.
Variables (k : config) (C : CtlSpec.image) (fb nl wide : nat) (m0 : mem).
Let B := (fb + nl + 1)%nat.
Hypothesis shut : closed B m0.
Hypothesis deep : (3 <= k_fuel k)%nat.
Hypothesis OH : local_fn (k_obj_hash k).
Hypothesis AS : local_fn (k_as_string k).
Hypothesis LL : lib_local (k_lib k).
Hypothesis narrow : (wide <= 254)%nat.
Variable invoke : Z -> list Z -> values -> Z -> values -> Prop.
Variable spare : nat.
Hypothesis spacious : k_protect k = true -> (B + wide + 2 + spare < k_limit k)%nat.
Let room : k_protect k = true -> (B + wide + 2 < k_limit k)%nat.
Proof. intros X. specialize (spacious X). lia. Qed.
Hypothesis TAME : tame invoke.
Hypothesis WORK : calls_work k C wide invoke spare.
Variables (caller : nat) (rp : nat).
Hypothesis vector : mv m0 (LStack (B - 1)) = VRaw caller rp.
Lemma frame_in : (fb + nl <= B)%nat. Proof. unfold B. lia. Qed.
Lemma body_returns s c off env z env1 st :
  follows k C O_Return c off (fun q => WholeProps.function_end C q \/ CtlSpec.tail CtlSpec.InBlock c = Some CtlSpec.LReturn) ->
  usable_prog O_Return wide s -> statement s = COk c -> exist env nl ->
  finishes (k_trap k) invoke s env z env1 -> (CtlSpec.tail CtlSpec.InBlock c = Some CtlSpec.LReturn -> computes (k_trap k) invoke s env (CtlSpec.ORet z) env1) ->
  vpc st = off -> vsp st = B -> vfb st = fb -> has env fb m0 -> vmem st = m0 ->
  exists s1, valued B fb nl m0 (z, env1) s1 /\
    reaches (machine k C) st (mkVm (vmem s1) (Z.of_nat rp) fb caller (Some (LStack (B - 1))) None (vslice s1)).
Proof.
  intros FO U E EX FI TL PC SP FB HAS MEM.
  assert (VEC : O_Return = O_Return -> (fb + nl < B)%nat /\ mv m0 (LStack (B - 1)) = VRaw caller rp) by (intros _; split; [unfold B; lia|exact vector]).
  assert (HR : R B fb nl m0 env st). { split; [exact EX|]. split; [exact SP|]. split; [exact FB|]. rewrite MEM. now apply agree_near, has_agree. }
  assert (FREE : position_free (R B fb nl m0)) by (exact (R_free k B fb nl wide m0 frame_in deep narrow room)).
  assert (PM : forall o, computes (k_trap k) invoke s env o env1 ->
    means (machine k C) (top_hash k) C O_Return variables (Z * variables) (R B fb nl m0) (ended B fb nl m0 O_Return caller rp) c env (lift o env1) env1).
  { intros o CO. exact (program_means k C B fb nl wide m0 frame_in shut deep OH AS LL narrow O_Return caller rp (or_introl eq_refl) VEC invoke spare spacious TAME WORK s env o env1 CO c EX U E). }
  assert (RETS : computes (k_trap k) invoke s env (CtlSpec.ORet z) env1 -> exists s1, valued B fb nl m0 (z, env1) s1 /\
    reaches (machine k C) st (mkVm (vmem s1) (Z.of_nat rp) fb caller (Some (LStack (B - 1))) None (vslice s1))).
  { intros CO. pose proof (FO _ _ _ _ _ _ _ _ FREE (PM _ CO) PC HR) as (s2 & o & RE & ST & s1 & V & ->). exists s1. split; [exact V|].
    eapply reaches_trans; [exact RE|]. now apply reaches_one. }
  destruct FI as [CO|[-> CO]]; [auto|].
  pose proof (FO _ _ _ _ _ _ _ _ FREE (PM _ CO) PC HR) as (q & [EN|T] & s1 & RE & PQ & R1); [|auto].
  destruct R1 as (_ & S1 & F1 & A1).
  assert (D : decode C (vpc s1) = Some (IReturnZero, vpc s1 + 1)). { unfold decode, rd8. rewrite PQ, EN. reflexivity. }
  destruct (ret_zero k C B fb nl wide m0 frame_in deep narrow room O_Return caller rp VEC env1 s1 _ eq_refl S1 F1 A1 D) as (o & M & s2 & V & ->).
  exists s2. split; [exact V|]. eapply reaches_trans; [exact RE|]. now apply reaches_one.
Qed.
End Body.

(* ---------------------------------------------------------------- calls *)
Lemma called_exist genv np nl zs first : (forall n z, genv n = Some z -> 0 <= n < 256 /\ int_min <= z <= 2147483647) -> (np + nl <= 255)%nat ->
  Forall (fun z => int_min <= z <= 2147483647) zs -> int_min <= first <= 2147483647 -> exist (called genv np nl zs first) (np + nl).
Proof.
  intros G L ZS FI q n z. unfold called. destruct q; [intros E; destruct (G _ _ E); repeat split; try lia; discriminate|].
  destruct ((n <? 0) || (Z.of_nat (np + nl) <=? n)) eqn:Q; [discriminate|].
  destruct (n <? Z.of_nat np); intros [= <-]; (split; [lia|]); (split; [|intros _; lia]).
  - destruct (nth_in_or_default (Z.to_nat n) zs 0) as [I| ->]; [|unfold int_min; lia]. rewrite Forall_forall in ZS. auto.
  - destruct (n =? Z.of_nat np); [exact FI|unfold int_min; lia].
Qed.
Lemma call_entry pbits limit protect f ret s genv zs first : frame_ok f -> (length zs <= vsp s)%nat -> let p := (vsp s - length zs)%nat in closed p (vmem s) ->
  (protect = true -> (p + fn_args f + fn_frame f + 2 < limit)%nat) -> integers (vmem s) p zs ->
  (forall n z, genv n = Some z -> 0 <= n /\ mv (vmem s) (LGlobal (Z.to_nat n)) = VInt (u32 z)) ->
  (fn_frame f <> O -> u32 (rdi pbits (vmem s) (LStack (p + fn_args f))) = u32 first) ->
  exists s1, call_fn pbits limit protect f (length zs) ret s = Ok (Run s1) /\ vpc s1 = fn_off f /\ vfb s1 = p /\
    vsp s1 = (p + (fn_args f + fn_frame f) + 1)%nat /\ has (called genv (fn_args f) (fn_frame f) zs first) p (vmem s1) /\ closed (vsp s1) (vmem s1) /\
    mv (vmem s1) (LStack (vsp s1 - 1)) = VRaw (vfb s) (Z.to_nat ret) /\
    (forall l, live p l -> mv (vmem s1) l = mv (vmem s) l) /\ same_heap (vmem s) (vmem s1).
Proof.
  intros FO LE p CL RM ZS GE FI.
  assert (E : exists s1, call_fn pbits limit protect f (length zs) ret s = Ok (Run s1)).
  { unfold call_fn, need. replace (vsp s <? length zs)%nat with false by (symmetry; apply Nat.ltb_ge; lia). cbv zeta. fold p.
    assert (P : forall a b, (a <= p + fn_args f + fn_frame f + 2)%nat -> protect && (limit <=? a)%nat && b = false).
    { intros a b L. destruct protect; [|reflexivity]. specialize (RM eq_refl). destruct (Nat.leb_spec limit a); [lia|reflexivity]. }
    rewrite P by lia. pose proof (P (p + fn_args f + fn_frame f + 2)%nat true ltac:(lia)) as P2. rewrite andb_true_r in P2. rewrite P2.
    unfold frame_ok in FO. rewrite FO. destruct (Nat.ltb_spec (S (p + fn_args f + fn_frame f)) (S (fn_args f + fn_frame f))); [lia|].
    unfold checked_run. cbn [vsp]. pose proof (P (S (p + fn_args f + fn_frame f)) true ltac:(lia)) as P3. rewrite andb_true_r in P3. rewrite P3. eauto. }
  destruct E as (s1 & E). exists s1. split; [exact E|].
  destruct (VmProps.c30_call_arguments _ _ _ _ _ _ _ _ FO E) as (A1 & A2 & A3 & A4 & A5 & A6). cbv zeta in *. fold p in A2, A3, A4, A5.
  pose proof (VmProps.c31_locals_partial _ _ _ _ _ _ _ _ FO E) as A7. fold p in A7.
  assert (A8 : mv (vmem s1) (LStack (vsp s1 - 1)) = VRaw (vfb s) (Z.to_nat ret)).
  { destruct (VmProps.call_fn_run _ _ _ _ _ _ _ _ E) as (_ & -> & _). cbn [vmem vsp]. rewrite Nat.sub_1_r. cbn [Nat.pred]. apply wr_eq. }
  assert (A5' : forall l, live p l -> mv (vmem s1) l = mv (vmem s) l).
  { intros l L. apply A5. destruct l; cbn in *; auto. }
  assert (ARG : forall j, (j < fn_args f)%nat -> mv (vmem s1) (LStack (p + j)) = VInt (u32 (nth j zs 0))).
  { intros j J. specialize (A4 j J). rewrite A2 in A4. rewrite A4. destruct (Nat.ltb_spec j (length zs)) as [Q|Q].
    - apply ZS. now apply nth_error_nth'.
    - now rewrite nth_overflow by lia. }
  assert (LOC : forall j, (j < fn_frame f)%nat -> mv (vmem s1) (LStack (p + fn_args f + j)) = VInt (if (j =? 0)%nat then u32 first else 0)).
  { intros j J. specialize (A7 j J). rewrite A2 in A7. rewrite A7. destruct (Nat.eqb_spec j 0); [|reflexivity]. f_equal. apply FI. lia. }
  split; [exact A1|]. split; [exact A2|]. split; [rewrite A3; lia|]. split; [|split; [|auto]].
  - intros q n z V. unfold called in V. destruct q; cbn [vloc].
    + rewrite A5' by exact I. destruct (GE _ _ V) as [_ G]. exact G.
    + destruct ((n <? 0) || (Z.of_nat (fn_args f + fn_frame f) <=? n)) eqn:Q; [discriminate|].
      destruct (Z.ltb_spec n (Z.of_nat (fn_args f))) as [LT|G]; injection V as <-; [apply ARG; lia|].
      replace (p + Z.to_nat n)%nat with (p + fn_args f + (Z.to_nat n - fn_args f))%nat by lia. rewrite LOC by lia.
      destruct (Z.eqb_spec n (Z.of_nat (fn_args f))) as [K|K]; destruct (Nat.eqb_spec (Z.to_nat n - fn_args f) 0); try lia; reflexivity.
  - intros l L. assert (MO : forall v, val_ok p v -> val_ok (vsp s1) v) by (intros v V; eapply val_ok_mono; [|exact V]; lia).
    destruct l as [n|n| | | |]; try solve [rewrite A5' by exact I; apply MO, CL; exact I].
    cbn [live] in L. destruct (Nat.ltb_spec n p) as [Q|Q]; [rewrite A5' by exact Q; apply MO, CL; exact Q|].
    destruct (Nat.ltb_spec n (p + fn_args f)) as [Q2|Q2].
    { replace n with (p + (n - p))%nat by lia. rewrite ARG by lia. exact I. }
    destruct (Nat.ltb_spec n (p + fn_args f + fn_frame f)) as [Q3|Q3].
    { replace n with (p + fn_args f + (n - p - fn_args f))%nat by lia. rewrite LOC by lia. exact I. }
    replace n with (vsp s1 - 1)%nat by lia. rewrite A8. exact I.
Qed.

(* ---------------------------------------------------------------- a call, from entry to return *)
Section Call.
Variables (k : config) (C : CtlSpec.image) (wide : nat).
Hypothesis deep : (3 <= k_fuel k)%nat.
Hypothesis OH : local_fn (k_obj_hash k).
Hypothesis AS : local_fn (k_as_string k).
Hypothesis LL : lib_local (k_lib k).
Hypothesis narrow : (wide <= 254)%nat.
Variable invoke : Z -> list Z -> values -> Z -> values -> Prop.
Variable spare : nat.
Hypothesis TAME : tame invoke.
Hypothesis WORK : calls_work k C wide invoke spare.
Lemma called_returns f ret s s0 c genv zs first z env1 : let p := (vsp s - length zs)%nat in let nl := (fn_args f + fn_frame f)%nat in let B := (p + nl + 1)%nat in
  follows k C O_Return c (fn_off f) (fun q => WholeProps.function_end C q \/ CtlSpec.tail CtlSpec.InBlock c = Some CtlSpec.LReturn) ->
  usable_prog O_Return wide s0 -> statement s0 = COk c -> frame_ok f -> (nl <= 255)%nat -> (length zs <= vsp s)%nat -> closed p (vmem s) ->
  (k_protect k = true -> (B + wide + 2 + spare < k_limit k)%nat) -> integers (vmem s) p zs ->
  globals_are genv (vmem s) ->
  int_min <= first <= 2147483647 -> (fn_frame f <> O -> u32 (rdi (k_pbits k) (vmem s) (LStack (p + fn_args f))) = u32 first) ->
  finishes (k_trap k) invoke s0 (called genv (fn_args f) (fn_frame f) zs first) z env1 ->
  (CtlSpec.tail CtlSpec.InBlock c = Some CtlSpec.LReturn -> computes (k_trap k) invoke s0 (called genv (fn_args f) (fn_frame f) zs first) (CtlSpec.ORet z) env1) ->
  0 <= ret ->
  exists s1 t, call_fn (k_pbits k) (k_limit k) (k_protect k) f (length zs) ret s = Ok (Run s1) /\ reaches (machine k C) s1 t /\
    vpc t = ret /\ vsp t = p /\ vfb t = vfb s /\ vr0 t = Some (LStack (p + nl)) /\
    slot_ok B p (vmem t) (mv (vmem t) (LStack B)) z /\ globals_are (env1 SG) (vmem t) /\ rest_kept (env1 SG) p (vmem s) (vmem t).
Proof.
  intros p nl B FO U E FR NL LE CL RM ZS GE RF FI FN TL R0.
  assert (ZR : Forall (fun z => int_min <= z <= 2147483647) zs).
  { apply Forall_forall. intros x IN. apply In_nth_error in IN as (j & J). apply ZS in J. apply J. }
  assert (EX : exist (called genv (fn_args f) (fn_frame f) zs first) nl).
  { apply called_exist; auto. intros n x G. destruct (GE _ _ G) as (A & Q & _). auto. }
  destruct (call_entry (k_pbits k) (k_limit k) (k_protect k) f ret s genv zs first FR LE CL) as (s1 & CF & P1 & F1 & S1 & H1 & C1 & V1 & K1 & SH); auto.
  { intros Q. specialize (RM Q). fold p. unfold B, nl in RM. lia. }
  { intros n x G. destruct (GE _ _ G) as (A & _ & Q). split; [lia|exact Q]. }
  fold p nl in S1. fold p in F1, H1, K1. rewrite S1 in C1, V1.
  destruct (body_returns k C p nl wide (vmem s1) C1 deep OH AS LL narrow invoke spare RM TAME WORK (vfb s) (Z.to_nat ret) V1 s0 c (fn_off f) _ z env1 s1 FO U E EX FN TL P1 S1 F1 H1 eq_refl) as (s2 & V & RE).
  fold B in V, RE. destruct V as (V2 & V3 & A & SL). cbn [fst snd] in A, SL. pose proof (finishes_exist _ _ _ _ _ _ _ TAME FN EX) as EX1.
  assert (BN : (p + nl <= B)%nat) by (unfold B; lia).
  eexists s1, _. split; [exact CF|]. split; [exact RE|]. cbn [vpc vsp vfb vr0 vmem]. split; [lia|]. split; [reflexivity|]. split; [reflexivity|].
  split; [unfold B; do 2 f_equal; lia|]. split; [|split; [|split]].
  - exact SL.
  - intros n x G. destruct (EX1 _ _ _ G) as (G1 & G2 & _). split; [exact G1|]. split; [exact G2|]. exact (near_has _ _ _ _ _ _ EX1 BN A SG n x G).
  - intros l L NG. assert (LB : live B l) by (destruct l; cbn in *; auto; unfold B; lia). pose proof (proj1 A l LB) as KP. rewrite <- K1 by exact L.
    replace (mv (stored env1 p nl (vmem s1)) l) with (mv (vmem s1) l) in KP; [exact KP|]. symmetry. unfold stored, stored_at. cbn [mv]. destruct l; try reflexivity.
    + destruct (env1 SG (Z.of_nat n)) eqn:G; [|reflexivity]. exfalso. apply (NG _ _ G). now rewrite Nat2Z.id.
    + cbn in L. destruct (Nat.leb_spec p n); [lia|reflexivity].
  - destruct SH as (H2 & H3 & H4). destruct A as [_ (B2 & B3 & B4)]. unfold stored in *. cbn in B2, B3, B4. repeat split; intros; congruence.
Qed.
End Call.
Lemma push_args_spec vs : forall m p,
  (forall j v, nth_error vs j = Some v -> mv (push_args m p vs) (LStack (p + j)) = v) /\
  (forall l, (match l with LStack n => (n < p \/ p + length vs <= n)%nat | _ => True end) -> mv (push_args m p vs) l = mv m l) /\ same_heap m (push_args m p vs).
Proof.
  induction vs as [|v vs IH]; intros m p; cbn [push_args].
  - split; [intros [|j] v; discriminate|]. split; [reflexivity|]. unfold same_heap. auto.
  - destruct (IH (wr m (LStack p) v) (S p)) as (A & B & D). split; [|split].
    + intros [|j] w E; cbn in E.
      * injection E as <-. rewrite B by lia. rewrite Nat.add_0_r. apply wr_eq.
      * replace (p + S j)%nat with (S p + j)%nat by lia. auto.
    + intros l L. rewrite B by (destruct l; auto; cbn [length] in L; lia). apply wr_ne. intros ->. cbn [length] in L. lia.
    + exact D.
Qed.
