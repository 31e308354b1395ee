(* Every instruction looks only at what is in use: the simulation behind C29. *)
From Verif Require Import Base HashModel FloatModel OpsModel VmModel VmSpec OpsLocal ArrayModel FuseSpec FuseRules VmProofs YieldSpec YieldLocal.

Lemma reach_ge s : (vsp s <= reach s)%nat.
Proof. unfold reach. destruct (vr0 s) as [[]|], (vr1 s); lia. Qed.
Lemma agree_sp s m m' : agree (reach s) m m' -> agree (vsp s) m m'.
Proof. apply agree_mono, reach_ge. Qed.
Lemma closed_push sp m v : closed sp m -> val_ok (S sp) v -> closed (S sp) (wr m (LStack sp) v).
Proof.
  intros C V x L. destruct (loc_eq_dec x (LStack sp)) as [->|N]; [now rewrite wr_eq|]. rewrite wr_ne by auto.
  apply (val_ok_mono sp); [lia|]. apply C. destruct x; cbn in *; auto. destruct (Nat.eq_dec n sp); [congruence|lia].
Qed.

Section Sim.
Variable pbits : value -> Z.
Variable obj_hash : mem -> value -> Z.
Variable as_string : mem -> value -> list Z.
Variable trap : bool.
Variable hash_index : loc -> loc -> loc -> mem -> res mem.
Variable new_table : loc -> mem -> mem.
Variable lib_fn : Z -> option (nat -> nat -> mem -> res (mem * bool)).
Variable native_fn : Z -> option (nat -> nat -> mem -> res mem).
Variable ext : opcode -> vm -> res outcome.
Variable code : list Z.
Variable funs : list fn.
Variable base limit : nat.
Variable protect : bool.
Variable fuel : nat.
Hypothesis OH : local_fn obj_hash.
Hypothesis AS : local_fn as_string.
Hypothesis LL : lib_local lib_fn.
Hypothesis NL : native_local native_fn.
Hypothesis EL : ext_local ext base.
Hypothesis HI : index_local hash_index.
Hypothesis NT : table_local new_table.
Notation exec := (exec pbits obj_hash as_string trap hash_index new_table lib_fn native_fn ext code funs base limit protect).
Notation step := (step pbits obj_hash as_string trap hash_index new_table lib_fn native_fn ext code funs base limit protect).
Notation apt := (apt pbits obj_hash as_string trap hash_index new_table lib_fn native_fn ext code funs base limit protect fuel).
Notation produces := (produces pbits obj_hash as_string trap hash_index new_table lib_fn native_fn ext code funs base limit protect fuel).

(* the registers hold operands that are in use *)
Definition regs_ok (s : vm) : Prop :=
  match vr1 s with
  | Some y => match vr0 s with Some x => live (vsp s) x /\ live (vsp s) y | None => False end
  | None => True
  end.
(* right after a call: the next instruction overwrites the only difference *)
Record pending (s t : vm) : Prop := mkPending {
  pe_sp : vsp t = vsp s; pe_fb : vfb t = vfb s; pe_pc : vpc t = vpc s;
  pe_r0 : vr0 s = None; pe_r1 : vr1 s = None; pe_r0' : vr0 t = None; pe_r1' : vr1 t = None;
  pe_next : exists n v q, decode code (vpc s) = Some (ILitTo SL n v, q) /\
    agree (vsp s) (wr (vmem s) (LStack (vfb s + n)) v) (wr (vmem t) (LStack (vfb s + n)) v)
}.
Definition near (s t : vm) : Prop := (alike s t \/ pending s t) /\ regs_ok s.

Definition orel (a b : outcome) : Prop :=
  match a, b with
  | Run s, Run t => near s t
  | Run s, Yielded O true t => alike s t /\ vr0 s = None /\ vr1 s = None
  | Yielded n false s, Yielded n' false t => n = n' /\ vsp t = vsp s /\ vfb t = vfb s /\ vpc t = vpc s /\ agree (vsp s) (vmem s) (vmem t)
  | _, _ => same_end base a b
  end.

(* the same position *)
Definition eqp (s t : vm) : Prop := vfb t = vfb s /\ vpc t = vpc s.

Lemma alike_upd s s' m m' k : eqp s s' -> agree k m m' -> alike (upd s m k) (upd s' m' k).
Proof. intros [A B] H. constructor; cbn; auto. Qed.
Lemma near_upd s s' m m' k : eqp s s' -> agree k m m' -> near (upd s m k) (upd s' m' k).
Proof. intros. split; [left; now apply alike_upd|exact I]. Qed.
Lemma orel_run s s' m m' k : eqp s s' -> agree k m m' -> orel (Run (upd s m k)) (Run (upd s' m' k)).
Proof. apply near_upd. Qed.
Lemma orel_checked s s' m m' k : eqp s s' -> agree k m m' ->
  orel (checked_run limit protect (upd s m k)) (checked_run limit protect (upd s' m' k)).
Proof.
  intros E A. unfold checked_run. cbn [vsp upd]. destruct (protect && _); [|now apply orel_run].
  split; auto. cbn. eapply agree_mono; [|exact A]. lia.
Qed.
Lemma orel_if (c : bool) s s' m m' k : eqp s s' -> agree k m m' ->
  orel (if c then checked_run limit protect (upd s m k) else Run (upd s m k)) (if c then checked_run limit protect (upd s' m' k) else Run (upd s' m' k)).
Proof. destruct c; [apply orel_checked|apply orel_run]. Qed.
Lemma trapped_rel l s s' m m' k : eqp s s' -> agree k m m' -> mv m l = mv m' l ->
  res_rel orel (trapped trap l (upd s m k) (Run (upd s m k))) (trapped trap l (upd s' m' k) (Run (upd s' m' k))).
Proof.
  intros E A V. unfold trapped. cbn [vmem upd]. rewrite V. destruct (trap && _); constructor; [|now apply orel_run].
  split; auto. cbn. eapply agree_mono; [|exact A]. lia.
Qed.
Lemma need_rel n s s' e e' : vsp s' = vsp s -> ((n <= vsp s)%nat -> res_rel orel e e') -> res_rel orel (need n s e) (need n s' e').
Proof.
  intros H K. unfold need. rewrite H. destruct (vsp s <? n)%nat eqn:E; [constructor|]. apply K. now apply Nat.ltb_ge.
Qed.
(* a branch, which may end the slice *)
Lemma force_rel b s s' m m' k : eqp s s' -> agree k m m' ->
  orel (force_yield false (upd s m k)) (force_yield b (upd s' m' k)).
Proof.
  intros [E1 E2] A. unfold force_yield. cbn [vmem vpc vsp vfb vslice upd]. rewrite Bool.andb_false_r.
  destruct ((vslice s' - 1 =? 0) && b).
  - unfold do_yield. cbn [orel vmem vpc vsp vfb vslice vr0 vr1]. split; [|auto]. constructor; cbn; auto.
    apply agree_sym. apply agree_wr_dead; [cbn; lia|now apply agree_sym].
  - split; [left; constructor; cbn; auto|exact I].
Qed.
Lemma force_set b s s' m m' k (c : bool) t : eqp s s' -> agree k m m' ->
  orel (force_yield false (if c then set_pc (upd s m k) t else upd s m k)) (force_yield b (if c then set_pc (upd s' m' k) t else upd s' m' k)).
Proof.
  intros E A. destruct c; [|now apply force_rel]. change (set_pc (upd s m k) t) with (upd (set_pc s t) m k).
  change (set_pc (upd s' m' k) t) with (upd (set_pc s' t) m' k). apply force_rel; auto. split; cbn; auto. apply E.
Qed.
Lemma force_set' b s s' m m' k (c : bool) t : eqp s s' -> agree k m m' ->
  orel (force_yield false (if c then upd s m k else set_pc (upd s m k) t)) (force_yield b (if c then upd s' m' k else set_pc (upd s' m' k) t)).
Proof. intros E A. pose proof (force_set b s s' m m' k (negb c) t E A) as H. destruct c; exact H. Qed.
Lemma orel_set s s' m m' k (c : bool) t : eqp s s' -> agree k m m' ->
  orel (Run (if c then upd s m k else set_pc (upd s m k) t)) (Run (if c then upd s' m' k else set_pc (upd s' m' k) t)).
Proof.
  intros [E1 E2] A. destruct c; (split; [left; constructor; cbn; auto|exact I]).
Qed.

Lemma switch_rel h s s' m m' k : eqp s s' -> agree k m m' -> res_rel orel (do_switch code h (upd s m k)) (do_switch code h (upd s' m' k)).
Proof.
  intros [E1 E2] A. unfold do_switch. cbv zeta. cbn [vpc upd]. rewrite E2. destruct (rdu16 code (vpc s)); [|constructor].
  destruct (_ =? 0); [constructor|]. destruct (rd32 _ _) as [h'|]; [|constructor].
  destruct (rd16 _ _); constructor. split; [left; constructor; cbn; auto|exact I].
Qed.
Lemma switch_linear_rel h s s' m m' k : eqp s s' -> agree k m m' -> res_rel orel (do_switch_linear code h (upd s m k)) (do_switch_linear code h (upd s' m' k)).
Proof.
  intros [E1 E2] A. unfold do_switch_linear. cbv zeta. cbn [vpc upd]. rewrite E2. destruct (rd8 code (vpc s)); [|constructor].
  destruct (rd16 _ _); constructor. split; [left; constructor; cbn; auto|exact I].
Qed.
Lemma return_rel s s' m m' k : eqp s s' -> agree k m m' -> (vfb s <= k)%nat -> res_rel orel (do_return (upd s m k)) (do_return (upd s' m' k)).
Proof.
  intros [E1 E2] A F. unfold do_return. apply need_rel; [reflexivity|]. cbn [vsp vmem vfb upd vslice]. intros N.
  rewrite <- (ag_mv _ _ _ A (LStack (k - 2))) by (cbn; lia). destruct (mv m (LStack (k - 2))); constructor.
  split; [left; constructor; cbn; auto|exact I]. unfold reach. cbn. replace (Nat.max (vfb s) (k - 2 + 2)) with k by lia. exact A.
Qed.

Lemma call_rel f args s s' m m' k : eqp s s' -> agree k m m' ->
  fn_frame f = O \/ (frame_ok f /\ exists v q, decode code (fn_off f) = Some (ILitTo SL (fn_args f) v, q)) ->
  res_rel orel (call_fn pbits limit protect f args (vpc s) (upd s m k)) (call_fn pbits limit protect f args (vpc s') (upd s' m' k)).
Proof.
  intros [E1 E2] A HF. unfold call_fn. apply need_rel; [reflexivity|]. cbv zeta. cbn [vsp vmem vfb vpc vslice upd]. intros N.
  rewrite E1, E2. set (sp1 := (k - args + fn_args f)%nat).
  set (m1 := zeros m k (fn_args f - args)). set (m1' := zeros m' k (fn_args f - args)).
  destruct (zeros_spec (fn_args f - args) m k) as (Z1&Z2&Z3&Z4). destruct (zeros_spec (fn_args f - args) m' k) as (Z1'&Z2'&Z3'&Z4').
  fold m1 in Z1, Z2, Z3, Z4. fold m1' in Z1', Z2', Z3', Z4'.
  assert (A1 : agree sp1 m1 m1').
  { constructor.
    - intros l L. rewrite Z1, Z1'. destruct l; try (apply (ag_mv _ _ _ A); exact I). cbn in L.
      destruct ((k <=? n)%nat && (n <? k + (fn_args f - args))%nat) eqn:B; auto. apply (ag_mv _ _ _ A). cbn.
      apply andb_false_iff in B. rewrite Nat.leb_gt, Nat.ltb_ge in B. lia.
    - intros i. rewrite Z2, Z2'. apply (ag_mo _ _ _ A).
    - intros i j. rewrite Z3, Z3'. apply (ag_raw _ _ _ A).
    - rewrite Z4, Z4'. apply (ag_next _ _ _ A). }
  assert (A0 : agree 0 m1 m1') by (eapply agree_mono; [|exact A1]; lia).
  destruct (protect && (limit <=? sp1)%nat && (args <? fn_args f)%nat); [constructor; split; auto|].
  destruct (protect && (limit <=? sp1 + fn_frame f + 2)%nat); [constructor; split; auto|].
  destruct (locals_init_spec pbits (fn_frame f) m1 sp1) as (I1&I2&I3&I4&I5).
  destruct (locals_init_spec pbits (fn_frame f) m1' sp1) as (I1'&I2'&I3'&I4'&I5').
  set (m2 := locals_init pbits m1 sp1 (fn_frame f)) in *. set (m2' := locals_init pbits m1' sp1 (fn_frame f)) in *.
  set (sp2 := (sp1 + fn_frame f)%nat) in *. set (rv := VRaw (vfb s) (Z.to_nat (vpc s))).
  destruct (S sp2 <? fn_adjust f)%nat eqn:AD; [constructor|]. apply Nat.ltb_ge in AD. constructor.
  (* everything agrees but for the first variable *)
  assert (A3 : forall l, live (S sp2) l -> l <> LStack sp1 \/ fn_frame f = O -> mv (wr m2 (LStack sp2) rv) l = mv (wr m2' (LStack sp2) rv) l).
  { intros l L Q. destruct (loc_eq_dec l (LStack sp2)) as [->|NE]; [now rewrite !wr_eq|]. rewrite !wr_ne by auto.
    destruct l; try (rewrite I1, I1' by exact I; apply (ag_mv _ _ _ A1); exact I). cbn in L.
    assert (n <> sp2) by congruence.
    destruct (Nat.lt_ge_cases n sp1) as [H1|H1].
    - rewrite I1, I1' by (left; exact H1). apply (ag_mv _ _ _ A1). exact H1.
    - replace n with (sp1 + (n - sp1))%nat by lia. unfold sp2 in *. rewrite I2, I2' by lia.
      destruct (n - sp1 =? 0)%nat eqn:B; auto. apply Nat.eqb_eq in B. exfalso. destruct Q as [Q|Q]; [|lia]. apply Q. f_equal. lia. }
  assert (H3 : (forall i, mo (wr m2 (LStack sp2) rv) i = mo (wr m2' (LStack sp2) rv) i) /\ (forall a b, mraw (wr m2 (LStack sp2) rv) a b = mraw (wr m2' (LStack sp2) rv) a b) /\ mnext (wr m2 (LStack sp2) rv) = mnext (wr m2' (LStack sp2) rv)).
  { cbn. rewrite I3, I3', I4, I4', I5, I5'. split; [apply (ag_mo _ _ _ A1)|split; [apply (ag_raw _ _ _ A1)|apply (ag_next _ _ _ A1)]]. }
  destruct H3 as (H3&H4&H5). unfold checked_run. cbn [vsp].
  assert (A00 : agree 0 (wr m2 (LStack sp2) rv) (wr m2' (LStack sp2) rv)).
  { constructor; auto. intros l L. apply A3; [eapply live_mono; [|exact L]; lia|]. left. intros ->. cbn in L. lia. }
  destruct (protect && _); [split; auto|]. split; [|exact I].
  destruct HF as [HF|[FO [v [q D]]]].
  - left. constructor; cbn; auto. constructor; auto.
  - right. constructor; try reflexivity. cbn [vsp vfb vpc vmem]. exists (fn_args f), v, q. split; auto.
    replace (S sp2 - fn_adjust f + fn_args f)%nat with sp1 by (unfold frame_ok in FO; unfold sp2, sp1 in *; lia).
    constructor; auto. intros l L. destruct (loc_eq_dec l (LStack sp1)) as [->|NE]; [now rewrite !wr_eq|]. rewrite !(wr_ne _ (LStack sp1)) by auto.
    apply A3; auto.
Qed.

(* an operator that writes the free slot on top of the stack *)
Lemma patch (ev : mem -> res mem) sp m m' :
  (forall a a', agree sp a a' -> closed sp a -> res_rel (rt a a' sp (LStack sp)) (ev a) (ev a')) ->
  agree sp m m' -> closed sp m ->
  (exists w, forall v, exists m1, ev (wr m (LStack sp) v) = Ok m1 /\ mv m1 (LStack sp) = w) ->
  res_rel (agree (S sp)) (ev m) (ev m').
Proof.
  intros EV A C [w W]. assert (ND : ~ live sp (LStack sp)) by (cbn; lia).
  assert (K : forall x, agree sp m x -> exists a, ev x = Ok a /\ mv a (LStack sp) = w).
  { intros x Ax. destruct (W (mv x (LStack sp))) as [m1 [E Ew]].
    assert (R := EV (wr m (LStack sp) (mv x (LStack sp))) x (agree_wr_dead _ _ _ _ _ ND Ax) (closed_wr_dead _ _ _ _ ND C)).
    rewrite E in R. inversion R as [a b (R1&R2&R3&R4) Ha Hb| |]; subst. exists b. split; auto.
    destruct (R4 ND) as [[R5 _]|[R5 R6]]; [congruence|]. rewrite R6, R5. now rewrite wr_eq. }
  destruct (K m (agree_refl _ _)) as [a [Ea Wa]]. destruct (K m' A) as [b [Eb Wb]].
  pose proof (EV m m' A C) as R. rewrite Ea, Eb in *. constructor. inversion R as [x y (R1&_) Hx Hy| |]; subst. apply agree_S; congruence.
Qed.

Lemma as_float_local z z' sp l m m' : live sp l -> rmz z z' sp m m' -> res_rel (rzm z z' sp) (as_float pbits fuel l m) (as_float pbits fuel l m').
Proof.
  intros L H. unfold as_float. eapply bind_rel; [apply (deref_local pbits z z' sp); eauto|].
  intros [d m1] [d' m1'] (P&Q&R). cbn in P, Q, R. subst d'. rewrite (rm_mv _ _ sp m1 m1' d R Q). destruct (mv m1 d); constructor; now split.
Qed.

Lemma checked_mem x t : (Ok (checked_run limit protect x) = Ok (Run t) \/ exists e, Ok (checked_run limit protect x) = Ok (Failed e t)) -> vmem t = vmem x.
Proof. unfold checked_run. destruct (protect && _); intros [T|[e T]]; inversion T; reflexivity. Qed.
Lemma trapped_mem l x t : (trapped trap l x (checked_run limit protect x) = Ok (Run t) \/ exists e, trapped trap l x (checked_run limit protect x) = Ok (Failed e t)) -> vmem t = vmem x.
Proof. unfold trapped. destruct (trap && _); [|apply checked_mem]. intros [T|[e T]]; inversion T; reflexivity. Qed.
Lemma vloc_live s q n : (forall k, In k (local_of q n) -> (vfb s + k < vsp s)%nat) -> live (vsp s) (vloc (vfb s) q n).
Proof. destruct q; cbn; auto. Qed.

Lemma exec_near b i s s' : alike s s' -> regs_ok s -> tidy s -> apt i s -> res_rel orel (exec false fuel i s) (exec b fuel i s').
Proof.
  intros SS RO (C&CR&FB) [LO AP]. unfold VmModel.exec.
  rewrite (al_sp _ _ SS), (al_r0 _ _ SS), (al_r1 _ _ SS). set (u := upd s (vmem s) (vsp s)) in *. set (u' := upd s' (vmem s') (vsp s)) in *.
  assert (Eu : vsp u = vsp s) by reflexivity. assert (Eu' : vsp u' = vsp s) by reflexivity.
  assert (EP : eqp u u') by (split; cbn; [apply (al_fb _ _ SS)|apply (al_pc _ _ SS)]).
  cbv zeta. rewrite Eu, Eu'.
  change (vmem u) with (vmem s). change (vmem u') with (vmem s'). change (vfb u) with (vfb s). change (vfb u') with (vfb s').
  change (vpc u) with (vpc s). change (vpc u') with (vpc s').
  rewrite (al_fb _ _ SS).
  assert (VL : forall q n, (forall k, In k (local_of q n) -> In k (locals_of i)) -> live (vsp s) (vloc (vfb s) q n)).
  { intros q n H. apply vloc_live. intros k K. apply LO. auto. }
  set (sp := vsp s) in *. set (m := vmem s) in *. set (m' := vmem s') in *.
  assert (AR : agree (reach s) m m') by apply (al_mem _ _ SS).
  assert (A : agree sp m m') by (now apply agree_sp in AR).
  assert (A0 : agree 0 m m') by (eapply agree_mono; [|exact A]; lia).
  assert (R : rmz m m' sp m m') by (apply rmz_start; auto).
  assert (L1 : (1 <= sp)%nat -> live sp (LStack (sp - 1))) by (cbn; lia).
  assert (L1' : (2 <= sp)%nat -> live sp (LStack (sp - 1))) by (cbn; lia).
  assert (L2 : (2 <= sp)%nat -> live sp (LStack (sp - 2))) by (cbn; lia).
  assert (MV : forall l, live sp l -> mv m' l = mv m l) by (intros; symmetry; now apply (ag_mv _ _ _ A)).
  assert (ND : ~ live sp (LStack sp)) by (cbn; lia).
  destruct i.
  - (* IYield *) apply need_rel; auto. intros N. constructor. unfold do_yield. cbn [orel vsp vfb vpc vmem]. rewrite Eu, Eu'.
    split; [auto|split; [auto|split; [apply EP|split; [apply EP|]]]]. now apply agree_wr.
  - (* ILit *) constructor. unfold push. apply orel_if; auto using agree_push.
  - (* ILitStr *) constructor. apply orel_checked; auto. unfold new_string. rewrite (ag_next _ _ _ A).
    apply agree_push. destruct A as [A1 A2 A3 A4]. constructor; cbn; auto. intros k. rewrite <- A4. destruct (Nat.eq_dec k (mnext m)); auto.
  - (* ICall *) destruct (nth_error funs idx) as [f|] eqn:F; [|constructor]. apply (call_rel f args u u'); auto.
  - (* IPushRet *) destruct (vr0 s) as [l|] eqn:E0; [|constructor].
    assert (LN : live (reach s) (next_loc l)).
    { unfold reach. rewrite E0, AP. destruct l; cbn; auto. lia. }
    assert (RR : rmz m m' (reach s) m m') by (apply rmz_start; auto).
    eapply bind_rel; [apply (deref_local pbits m m' (reach s)); eauto|]. intros [d m1] [d' m1'] (P&Q&R1). cbn in P, Q, R1. subst d'.
    constructor. rewrite (rm_mv _ _ _ _ _ d R1 Q). apply orel_checked; auto. apply agree_push. apply agree_sp. exact (proj1 R1).
  - (* ILib *) destruct (lib_fn hash) as [f|] eqn:F; [|constructor; split; auto].
    apply need_rel; auto. intros N. destruct pop.
    + eapply bind_rel; [eapply (LL hash f F sp args sp); eauto|]. intros [m1 e] [m1' e'] [P Q]. cbn in P, Q. subst e'.
      assert (P0 : agree (sp - args) m1 m1') by (eapply agree_mono; [|exact P]; lia).
      constructor. destruct e; [split; auto; cbn; eapply agree_mono; [|exact P]; lia|]. now apply orel_run.
    + assert (A' : agree (S sp) (wr m (LStack sp) (VInt 0)) (wr m' (LStack sp) (VInt 0))) by now apply agree_push.
      eapply bind_rel; [eapply (LL hash f F sp args (S sp)); eauto; now apply closed_push|].
      intros [m1 e] [m1' e'] [P Q]. cbn in P, Q. subst e'.
      unfold copy_down. rewrite Eu, Eu'. rewrite (ag_mv _ _ _ P (LStack sp)) by (cbn; lia).
      assert (P2 : agree (S sp - args) (wr m1 (LStack (sp - args)) (mv m1' (LStack sp))) (wr m1' (LStack (sp - args)) (mv m1' (LStack sp)))).
      { apply agree_wr. eapply agree_mono; [|exact P]. lia. }
      constructor. destruct (args =? 0)%nat; destruct e; try (apply orel_checked; auto); (split; auto; cbn [vmem upd]; eapply agree_mono; [|eassumption]; lia).
  - (* ICallHash *) destruct (native_fn hash) as [f|] eqn:F; [|constructor; split; auto].
    apply need_rel; auto. intros N. destruct pop.
    + eapply bind_rel; [eapply (NL hash f F sp args sp); eauto|]. intros m1 m1' P. constructor. apply orel_run; auto.
      eapply agree_mono; [|exact P]; lia.
    + assert (A' : agree (S sp) (wr m (LStack sp) (VInt 0)) (wr m' (LStack sp) (VInt 0))) by now apply agree_push.
      eapply bind_rel; [eapply (NL hash f F sp args (S sp)); eauto; now apply closed_push|].
      intros m1 m1' P. unfold copy_down. rewrite Eu, Eu'. rewrite (ag_mv _ _ _ P (LStack sp)) by (cbn; lia).
      constructor. destruct (args =? 0)%nat; apply orel_checked; auto. apply agree_wr. eapply agree_mono; [|exact P]. lia.
  - (* IPop *) apply need_rel; auto. intros N. constructor. apply orel_run; auto. eapply agree_mono; [|exact A]. lia.
  - (* IReturnZero *) unfold push. cbn [vsp upd vmem]. rewrite Eu, Eu'.
    assert (A' : agree (S sp) (wr m (LStack sp) (VInt 0)) (wr m' (LStack sp) (VInt 0))) by now apply agree_push.
    destruct (protect && _); [constructor; split; auto; cbn [vmem upd]; eapply agree_mono; [|exact A']; lia|].
    apply return_rel; auto.
  - (* IReturn *) apply return_rel; auto.
  - (* IStop *) destruct (vr0 s) as [l|] eqn:E0; [|constructor].
    assert (LN : live (reach s) (next_loc l)).
    { unfold reach. rewrite E0, AP. destruct l; cbn; auto. lia. }
    constructor. cbn [orel same_end vmem upd]. rewrite <- (ag_mv _ _ _ AR _ LN). split; [now apply agree_wr|]. split; auto. intros _. now rewrite !wr_eq.
  - (* IGlobalStop *) constructor. cbn [orel same_end vmem]. split; auto. split; auto. intros L. now apply (ag_mv _ _ _ A).
  - (* IDeref *) apply need_rel; auto. intros N. eapply bind_rel; [apply (deref_local pbits m m'); eauto|].
    intros [d m1] [d' m1'] [P [Q R1]]. cbn in P, Q, R1. subst d'. constructor.
    rewrite (rm_mv _ _ _ _ _ d R1 Q). apply orel_run; auto. eapply rm_agree_wr; eauto.
  - (* IHashOf *) apply need_rel; auto. intros N. eapply bind_rel; [apply (get_hash_local pbits obj_hash m m'); eauto|].
    intros [h m1] [h' m1'] [P R1]. cbn in P, R1. subst h'. constructor. apply orel_run; auto. eapply rm_agree_wr; eauto.
  - (* IIndex *) apply need_rel; auto. intros N. unfold op_index. rewrite !MV by auto.
    eapply bind_rel; [apply (wr_index_local pbits hash_index new_table HI NT m m' sp (LStack (sp - 2))); auto|].
    intros m1 m1' R1. apply rm_rt in R1; [|auto]. constructor. apply orel_run; auto. eapply rm_agree; [|eauto]. lia.
  - (* IIndexSkip *) unfold regs_ok in RO. destruct (vr0 s) as [x|] eqn:E0; [|constructor]. destruct (vr1 s) as [y|] eqn:E1; [|constructor].
    destruct RO as [Lx Ly].
    eapply bind_rel.
    + apply (patch (op_index pbits hash_index new_table fuel x y (LStack sp)) sp m m'); auto.
      * intros a a' Aa Ca. assert (Ra : rmz a a' sp a a') by (apply rmz_start; auto). unfold op_index. rewrite !(fun l => rm_mv a a' sp a a' l Ra) by auto.
        now apply wr_index_local.
      * destruct AP as [w W]. exists w. intros v. destruct (W v) as [t [T Tw]]. unfold VmModel.exec, fill in T. cbv zeta in T.
        cbn [vr0 vr1 vmem vsp upd vfb vpc vslice] in T. rewrite E0, E1 in T. fold m sp in T.
        destruct (op_index pbits hash_index new_table fuel x y (LStack sp) (wr m (LStack sp) v)) as [m1| |]; cbn [bind] in T; [|destruct T as [T|[e T]]; discriminate T|destruct T as [T|[e T]]; discriminate T].
        exists m1. split; auto. destruct T as [T|[e T]]; inversion T; subst; reflexivity.
    + intros m1 m1' P. constructor. apply orel_run; auto.
  - (* ILitIndex *) apply need_rel; auto. intros N. unfold op_index. rewrite !wr_eq. cbn [type_of].
    assert (A' : agree (S sp) (wr m (LStack sp) (VInt k)) (wr m' (LStack sp) (VInt k))) by now apply agree_push.
    assert (C' : closed (S sp) (wr m (LStack sp) (VInt k))) by now apply closed_push.
    assert (LT : live (S sp) (LStack (sp - 1))) by (cbn; lia).
    rewrite <- (ag_mv _ _ _ A' (LStack (sp - 1)) LT).
    eapply bind_rel; [apply (wr_index_int_local pbits hash_index new_table HI NT (wr m (LStack sp) (VInt k)) (wr m' (LStack sp) (VInt k)) (S sp)); auto; [apply rmz_start; auto|left; cbn; lia]|].
    intros m1 m1' (P&_). constructor. apply orel_run; auto. eapply agree_mono; [|exact P]; lia.
  - (* IVarIndex *) assert (LQ : live sp (vloc (vfb s) s0 n)) by (apply VL; auto).
    unfold op_index. rewrite !wr_eq. cbn [type_of].
    assert (ND2 : ~ live sp (LStack (S sp))) by (cbn; lia).
    assert (A' : agree sp (wr m (LStack (S sp)) (VInt k)) (wr m' (LStack (S sp)) (VInt k))) by now apply agree_wr.
    assert (C' : closed sp (wr m (LStack (S sp)) (VInt k))) by now apply closed_wr_dead.
    rewrite <- (ag_mv _ _ _ A' _ LQ).
    eapply bind_rel; [apply (wr_index_int_local pbits hash_index new_table HI NT (wr m (LStack (S sp)) (VInt k)) (wr m' (LStack (S sp)) (VInt k)) sp); auto; [apply rmz_start; auto|]|].
    + right. rewrite !wr_eq. split; [auto|split; [|auto]]. intros X. inversion X. lia.
    + intros m1 m1' (P1&P2&P3&P4&P5). constructor. apply orel_if; auto. now apply agree_S.
  - (* ISwap *) apply need_rel; auto. intros N. rewrite Eu in N. constructor. rewrite !MV by (cbn; lia). apply orel_run; auto. now apply agree_wr, agree_wr.
  - (* ISwap2 *) apply need_rel; auto. intros N. rewrite Eu in N. constructor. rewrite !MV by (cbn; lia).
    set (k := wr (wr m (LStack (sp - 1)) (mv m (LStack (sp - a)))) (LStack (sp - a)) (mv m (LStack (sp - 1)))).
    set (k' := wr (wr m' (LStack (sp - 1)) (mv m (LStack (sp - a)))) (LStack (sp - a)) (mv m (LStack (sp - 1)))).
    assert (Ak : agree sp k k') by (now apply agree_wr, agree_wr).
    rewrite <- !(ag_mv _ _ _ Ak) by (cbn; lia). apply orel_run; auto. now apply agree_wr, agree_wr.
  - (* ILoad *) constructor. unfold push. cbn [vsp vmem upd]. apply orel_checked; auto using agree_push.
  - (* IValues *) constructor. split; [left; constructor; try reflexivity; try apply EP|].
    + unfold reach. cbn [vr0 vr1 vsp]. destruct (vloc (vfb s) s0 a); exact A.
    + cbn. split; apply VL; intros k K; cbn; apply in_or_app; auto.
  - (* IBin *) apply need_rel; auto. intros N. eapply bind_rel.
    + apply (eval_bin_local pbits obj_hash as_string trap OH AS m m' sp b0 fuel _ _ (LStack (sp - 2))); auto.
    + intros m1 m1' R1. apply rm_rt in R1; [|auto]. apply trapped_rel; auto; [|apply (ag_mv _ _ _ (proj1 R1)); auto].
      eapply rm_agree; [|eauto]. lia.
  - (* IBinSkip *) unfold regs_ok in RO. destruct (vr0 s) as [x|] eqn:E0; [|constructor]. destruct (vr1 s) as [y|] eqn:E1; [|constructor].
    destruct RO as [Lx Ly].
    eapply bind_rel.
    + apply (patch (eval_bin pbits obj_hash as_string trap b0 fuel y x (LStack sp)) sp m m'); auto.
      * intros a a' Aa Ca. apply eval_bin_local; auto. apply rmz_start; auto.
      * destruct AP as [w W]. exists w. intros v. destruct (W v) as [t [T Tw]]. unfold VmModel.exec, fill in T. cbv zeta in T.
        cbn [vr0 vr1 vmem vsp upd vfb vpc vslice] in T. rewrite E0, E1 in T. fold m sp in T.
        destruct (eval_bin pbits obj_hash as_string trap b0 fuel y x (LStack sp) (wr m (LStack sp) v)) as [m1| |]; cbn [bind] in T; [|destruct T as [T|[e T]]; discriminate T|destruct T as [T|[e T]]; discriminate T].
        exists m1. split; auto. apply checked_mem in T. rewrite T in Tw. exact Tw.
    + intros m1 m1' P. constructor. apply orel_checked; auto.
  - (* IBin2 *) assert (LX : live sp (vloc (vfb s) s1 x)) by (apply VL; intros k K; cbn; apply in_or_app; auto).
    assert (LY : live sp (vloc (vfb s) s2 y)) by (apply VL; intros k K; cbn; apply in_or_app; auto).
    eapply bind_rel.
    + apply (patch (eval_bin pbits obj_hash as_string trap b0 fuel (vloc (vfb s) s2 y) (vloc (vfb s) s1 x) (LStack sp)) sp m m'); auto.
      * intros a a' Aa Ca. apply eval_bin_local; auto. apply rmz_start; auto.
      * destruct AP as [w W]. exists w. intros v. destruct (W v) as [t [T Tw]]. unfold VmModel.exec, fill in T. cbv zeta in T.
        cbn [vr0 vr1 vmem vsp upd vfb vpc vslice] in T. fold m sp in T.
        destruct (eval_bin pbits obj_hash as_string trap b0 fuel _ _ (LStack sp) (wr m (LStack sp) v)) as [m1| |]; cbn [bind] in T; [|destruct T as [T|[e T]]; discriminate T|destruct T as [T|[e T]]; discriminate T].
        exists m1. split; auto. rewrite <- Tw. destruct b0; first [apply checked_mem in T|apply trapped_mem in T]; rewrite T; reflexivity.
    + intros m1 m1' P. assert (O := orel_checked u u' m1 m1' (S sp) EP P). destruct b0; try (constructor; exact O).
      unfold trapped. cbn [vmem upd]. rewrite <- (ag_mv _ _ _ P (LStack sp)) by (cbn; lia). destruct (trap && _); constructor; auto.
      split; auto. cbn. eapply agree_mono; [|exact P]; lia.
  - (* IBinStore *) apply need_rel; auto. intros N. assert (LQ : live sp (vloc (vfb s) s0 n)) by (apply VL; auto).
    eapply bind_rel; [apply (eval_bin_local pbits obj_hash as_string trap OH AS m m' sp b0 fuel _ _ (vloc (vfb s) s0 n)); auto|].
    intros m1 m1' R1. apply rm_rt in R1; [|auto]. apply trapped_rel; auto; [|apply (ag_mv _ _ _ (proj1 R1)); auto].
    eapply rm_agree; [|eauto]. lia.
  - (* INot *) apply need_rel; auto. intros N. rewrite MV by auto. eapply bind_rel; [apply (logical_not_local pbits obj_hash m m'); eauto|].
    intros [h m1] [h' m1'] [P R1]. cbn in P, R1. subst h'. constructor. apply orel_run; auto. eapply rm_agree_wr; eauto.
  - (* INeg *) apply need_rel; auto. intros N. rewrite MV by auto. eapply bind_rel; [apply (negate_local pbits obj_hash m m'); eauto|].
    intros m1 m1' R1. apply rm_rt in R1; [|auto]. constructor. apply orel_run; auto. eapply rm_agree; eauto.
  - (* IBitNot *) apply need_rel; auto. intros N. rewrite MV by auto. eapply bind_rel; [apply (bitwise_not_local pbits obj_hash m m'); eauto|].
    intros [h m1] [h' m1'] [P R1]. cbn in P, R1. subst h'. constructor. apply orel_run; auto. eapply rm_agree_wr; eauto.
  - (* IToInt *) apply need_rel; auto. intros N. eapply bind_rel; [apply (asInt_local pbits m m'); eauto|].
    intros [h m1] [h' m1'] [P R1]. cbn in P, R1. subst h'. constructor. apply orel_run; auto. eapply rm_agree_wr; eauto.
  - (* IToFloat *) apply need_rel; auto. intros N. eapply bind_rel; [apply (as_float_local m m'); eauto|].
    intros [h m1] [h' m1'] [P R1]. cbn in P, R1. subst h'. constructor. apply orel_run; auto. eapply rm_agree_wr; eauto.
  - (* ICmp *) apply need_rel; auto. intros N. eapply bind_rel; [apply (eval_cmp_local pbits obj_hash OH m m' sp); auto|].
    intros [h m1] [h' m1'] [P R1]. cbn in P, R1. subst h'. constructor. apply orel_run; auto. eapply rm_agree_wr; [|eauto]; lia.
  - (* ICmp2 *) assert (LX : live sp (vloc (vfb s) s0 x)) by (apply VL; intros k K; cbn; apply in_or_app; auto).
    assert (LY : live sp (vloc (vfb s) s0 y)) by (apply VL; intros k K; cbn; apply in_or_app; auto).
    eapply bind_rel; [apply (eval_cmp_local pbits obj_hash OH m m' sp); auto|].
    intros [h m1] [h' m1'] [P R1]. cbn in P, R1. subst h'. constructor. apply orel_checked; auto. apply agree_push. exact (proj1 R1).
  - (* ICmpS *) apply need_rel; auto. intros N. assert (LX : live sp (vloc (vfb s) s0 x)) by (apply VL; auto).
    eapply bind_rel; [apply (eval_cmp_local pbits obj_hash OH m m' sp); auto|].
    intros [h m1] [h' m1'] [P R1]. cbn in P, R1. subst h'. constructor. apply orel_run; auto. eapply rm_agree_wr; [|eauto]; lia.
  - (* IJump *) constructor. apply (force_rel b (set_pc u target) (set_pc u' target) m m' sp); auto. split; [apply EP|reflexivity].
  - (* IBZ *) apply need_rel; auto. intros N. rewrite MV by auto. eapply bind_rel; [apply (logical_not_local pbits obj_hash m m'); eauto|].
    intros [h m1] [h' m1'] [P R1]. cbn in P, R1. subst h'. constructor. apply force_set; auto. eapply rm_agree; [|eauto]; lia.
  - (* IVarBZ *) assert (LX : live sp (vloc (vfb s) s0 n)) by (apply VL; auto).
    rewrite MV by auto. eapply bind_rel; [apply (logical_not_local pbits obj_hash m m'); eauto|].
    intros [h m1] [h' m1'] [P R1]. cbn in P, R1. subst h'. constructor. apply force_set; auto. exact (proj1 R1).
  - (* ICmpB *) apply need_rel; auto. intros N. eapply bind_rel; [apply (eval_cmp_local pbits obj_hash OH m m' sp); auto|].
    intros [h m1] [h' m1'] [P R1]. cbn in P, R1. subst h'. constructor. apply force_set'; auto. eapply rm_agree; [|eauto]; lia.
  - (* ICmp2B *) assert (LX : live sp (vloc (vfb s) s0 x)) by (apply VL; intros k K; cbn; apply in_or_app; auto).
    assert (LY : live sp (vloc (vfb s) s0 y)) by (apply VL; intros k K; cbn; apply in_or_app; auto).
    eapply bind_rel; [apply (eval_cmp_local pbits obj_hash OH m m' sp); auto|].
    intros [h m1] [h' m1'] [P R1]. cbn in P, R1. subst h'. constructor. apply orel_set; auto. exact (proj1 R1).
  - (* ICmpSB *) apply need_rel; auto. intros N. assert (LX : live sp (vloc (vfb s) s0 x)) by (apply VL; auto).
    eapply bind_rel; [apply (eval_cmp_local pbits obj_hash OH m m' sp); auto|].
    intros [h m1] [h' m1'] [P R1]. cbn in P, R1. subst h'. constructor. apply orel_set; auto. eapply rm_agree; [|eauto]; lia.
  - (* IPost *) apply need_rel; auto. intros N. unfold eval_post. rewrite MV by auto.
    eapply bind_rel; [apply (unary_post_local pbits obj_hash m m' OH sp); auto|].
    intros m1 m1' R1. constructor. apply orel_run; auto. eapply rm_agree; eauto.
  - (* IPre *) apply need_rel; auto. intros N. unfold eval_pre. rewrite MV by auto.
    eapply bind_rel; [apply (unary_pre_local pbits obj_hash m m' OH sp); auto|].
    intros m1 m1' R1. constructor. apply orel_run; auto. eapply rm_agree; eauto.
  - (* IPrePop *) apply need_rel; auto. intros N. unfold eval_pre. rewrite MV by auto.
    eapply bind_rel; [apply (unary_pre_local pbits obj_hash m m' OH sp); auto|].
    intros m1 m1' R1. constructor. apply orel_run; auto. eapply rm_agree; [|eauto]; lia.
  - (* IIncVar *) assert (LX : live sp (vloc (vfb s) s0 n)) by (apply VL; auto).
    unfold eval_pre. rewrite MV by auto.
    eapply bind_rel; [apply (unary_pre_local pbits obj_hash m m' OH sp); auto|].
    intros m1 m1' R1. constructor. apply orel_run; auto. eapply rm_agree; eauto.
  - (* IAssign *) apply need_rel; auto. intros N. rewrite !MV by auto.
    eapply bind_rel; [apply (wr_assign_local pbits m m' sp); auto|].
    intros m1 m1' R1. apply trapped_rel; auto; [|apply (ag_mv _ _ _ (proj1 R1)); auto]. eapply rm_agree; [|eauto]. lia.
  - (* IAssignPop *) apply need_rel; auto. intros N. rewrite !MV by auto.
    eapply bind_rel; [apply (wr_assign_local pbits m m' sp); auto|].
    intros m1 m1' R1. apply trapped_rel; auto; [|apply (ag_mv _ _ _ (proj1 R1)); auto]. eapply rm_agree; [|eauto]. lia.
  - (* IAssignTo *) apply need_rel; auto. intros N. assert (LX : live sp (vloc (vfb s) s0 n)) by (apply VL; auto).
    rewrite !MV by auto. eapply bind_rel; [apply (wr_assign_local pbits m m' sp); auto|].
    intros m1 m1' R1. constructor. apply orel_run; auto. eapply rm_agree; [|eauto]. lia.
  - (* ICompound *) apply need_rel; auto. intros N.
    eapply bind_rel; [apply (eval_assign_local pbits obj_hash as_string trap OH AS m m' sp); auto|].
    intros m1 m1' R1. apply trapped_rel; auto; [|apply (ag_mv _ _ _ (proj1 R1)); auto]. eapply rm_agree; [|eauto]. lia.
  - (* ICompoundPop *) apply need_rel; auto. intros N.
    eapply bind_rel; [apply (eval_assign_local pbits obj_hash as_string trap OH AS m m' sp); auto|].
    intros m1 m1' R1. apply trapped_rel; auto; [|apply (ag_mv _ _ _ (proj1 R1)); auto]. eapply rm_agree; [|eauto]. lia.
  - (* ILitTo *) constructor. apply orel_run; auto. now apply agree_wr.
  - (* IInitVar *) apply need_rel; auto. intros N. eapply bind_rel; [apply (deref_local pbits m m'); eauto|].
    intros [d m1] [d' m1'] [P [Q R1]]. cbn in P, Q, R1. subst d'. constructor.
    apply orel_run; auto. eapply rm_agree_wr; eauto.
  - (* IInitArray *) apply need_rel; auto. intros N. eapply bind_rel; [apply (single_value_local pbits obj_hash m m'); eauto|].
    intros m1 m1' R1. eapply bind_rel; [apply (deref_local pbits m m'); eauto|].
    intros [d m2] [d' m2'] [P [Q R2]]. cbn in P, Q, R2. subst d'. constructor.
    rewrite (rdi_sync pbits m m' sp m2 m2' LTemp1 R2 I). apply orel_run; auto. eapply rm_agree; [|apply new_array_local; eauto]. lia.
  - (* IAssignArr *) apply need_rel; auto. intros N. unfold op_index. rewrite !wr_eq. cbn [type_of].
    assert (A' : agree (S sp) (wr m (LStack sp) (VInt k)) (wr m' (LStack sp) (VInt k))) by now apply agree_push.
    assert (C' : closed (S sp) (wr m (LStack sp) (VInt k))) by now apply closed_push.
    assert (LT : live (S sp) (LStack (sp - 2))) by (cbn; lia).
    rewrite <- (ag_mv _ _ _ A' (LStack (sp - 2)) LT).
    eapply bind_rel; [apply (wr_index_int_local pbits hash_index new_table HI NT (wr m (LStack sp) (VInt k)) (wr m' (LStack sp) (VInt k)) (S sp)); auto; [apply rmz_start; auto|left; cbn; lia]|].
    intros m1 m1' (P1&P2&P3&P4&P5).
    assert (Q1 : agree (S (S sp)) m1 m1') by now apply agree_S.
    assert (Q2 : closed (S (S sp)) m1).
    { intros l Ll. destruct (loc_eq_dec l (LStack (S sp))) as [->|NE]; [eapply val_ok_mono; [|exact P5]; lia|].
      apply (val_ok_mono (S sp)); [lia|]. apply P2. destruct l; cbn in *; auto. destruct (Nat.eq_dec n (S sp)); [congruence|lia]. }
    rewrite <- !(ag_mv _ _ _ Q1) by (cbn; lia).
    eapply bind_rel; [apply (wr_assign_local pbits m1 m1' (S (S sp))); [cbn; lia|cbn; lia|apply rmz_start; auto]|].
    intros m2 m2' R2. constructor. apply orel_run; auto. eapply rm_agree; [|eauto]; lia.
  - (* ISwitch *) apply need_rel; auto. intros N. eapply bind_rel; [apply (get_hash_local pbits obj_hash m m'); eauto|].
    intros [h m1] [h' m1'] [P R1]. cbn in P, R1. subst h'. apply switch_rel; auto. eapply rm_agree; [|eauto]; lia.
  - (* ISwitchLinear *) apply need_rel; auto. intros N. eapply bind_rel; [apply (get_hash_local pbits obj_hash m m'); eauto|].
    intros [h m1] [h' m1'] [P R1]. cbn in P, R1. subst h'. apply switch_linear_rel; auto. eapply rm_agree; [|eauto]; lia.
  - (* IDebug *) constructor. apply orel_run; auto.
  - (* IExt *) assert (AU : alike u u') by (apply alike_upd; auto).
    assert (TU : tidy u) by (split; [exact C|split; [exact C|exact FB]]).
    destruct (EL o u u' AU TU) as [a a' H| |]; constructor.
    destruct a as [t|t|n f t|e t], a' as [t'|t'|n' f' t'|e' t']; cbn in *; try tauto.
    + destruct H as (H1&H2&H3). split; [auto|]. unfold regs_ok. now rewrite H3.
Qed.

Lemma step_near b n s s' i q : near s s' -> decode code (vpc s) = Some (i, q) -> tidy s -> apt i (at_pc s q) ->
  res_rel orel (step false fuel s) (step b fuel (with_slice n s')).
Proof.
  intros [[AL|PE] RO] D T AP; unfold VmModel.step; cbn [vpc with_slice].
  - rewrite (al_pc _ _ AL), D. apply exec_near; auto. destruct AL as [A B C E F G]. constructor; auto.
  - destruct PE as [A B C E F E' F' (k&v&q'&D'&G)]. rewrite C, D. rewrite D in D'. inversion D'; subst i q'.
    cbn [VmModel.exec with_slice vmem vsp vfb vpc vr0 vr1 vslice upd]. constructor. split; [left|exact I].
    rewrite A, B. constructor; try reflexivity; cbn; auto.
Qed.

Lemma resume_near n t t' : alike t t' -> vr0 t = None -> vr1 t = None -> near t (resume n 0 true t').
Proof.
  intros [A B C D E F] R0 R1. split; [left|unfold regs_ok; now rewrite R1].
  unfold resume. cbn [Nat.eqb]. rewrite Nat.sub_0_r. constructor; cbn; auto; congruence.
Qed.
Lemma reply_near n args v t t' : vsp t' = vsp t -> vfb t' = vfb t -> vpc t' = vpc t -> agree (vsp t) (vmem t) (vmem t') ->
  near (answered args v t) (resume n args false (reply v t')).
Proof.
  intros A B C D. split; [left|exact I]. unfold answered, resume, reply. cbn [vmem vsp vfb vpc]. rewrite A.
  constructor; cbn [vsp vfb vpc vr0 vr1 vmem]; auto. unfold reach. cbn [vr0 vsp].
  destruct (args =? 0)%nat eqn:Z.
  - apply Nat.eqb_eq in Z. subst args. rewrite Nat.sub_0_r. now apply agree_push.
  - apply Nat.eqb_neq in Z. rewrite wr_eq. apply agree_S; [|now rewrite !wr_eq].
    assert (D1 : agree (vsp t - args) (vmem t) (vmem t')) by (eapply agree_mono; [|exact D]; lia).
    apply agree_wr. apply agree_sym, agree_wr_dead; [cbn; lia|]. now apply agree_sym.
Qed.

Notation plain := (plain pbits obj_hash as_string trap hash_index new_table lib_fn native_fn ext code funs base limit protect fuel).
Notation hosted := (hosted pbits obj_hash as_string trap hash_index new_table lib_fn native_fn ext code funs base limit protect fuel).
Notation continued := (continued pbits obj_hash as_string trap hash_index new_table lib_fn native_fn ext code funs base limit protect fuel).
Notation run := (run pbits obj_hash as_string trap hash_index new_table lib_fn native_fn ext code funs base limit protect true fuel).

Lemma orel_end o o' : orel o o' -> match o with Done _ | Failed _ _ => True | _ => False end -> same_end base o o'.
Proof. destruct o, o'; cbn; tauto. Qed.

Lemma hosted_near n l s o : plain n l s o -> forall s' turns, near s s' -> (n <= length turns)%nat ->
  exists o', hosted turns l s' = Ok o' /\ same_end base o o'.
Proof.
  induction 1 as [n l s t o i q D T AP ST PL IH|n v l s args t o i q D T AP ST PL IH|s o i q D T AP ST EN]; intros s' turns NR LE;
    (destruct turns as [|[on k] turns]; cbn [length] in LE; [lia|]); cbn [YieldSpec.hosted];
    pose proof (step_near on k s s' i q NR D T AP) as R; rewrite ST in R; inversion R as [a o' OR Ha Hb| |]; subst; cbn [bind].
  - destruct o' as [t'|t'|args f t'|e t']; cbn [orel same_end] in OR; try tauto.
    + apply IH; [exact OR|lia].
    + destruct args; [|tauto]. destruct f; [|tauto]. destruct OR as (OR&R0&R1). apply IH; [|lia]. now apply resume_near.
  - destruct o' as [t'|t'|args' f t'|e t']; cbn [orel same_end] in OR; try tauto. destruct f; [tauto|].
    destruct OR as (->&A&B&C&E). apply IH; [|lia]. now apply reply_near.
  - apply orel_end in OR; auto. destruct o; try tauto; destruct o'; try (cbn in OR; tauto); eexists; (split; [reflexivity|exact OR]).
Qed.

(* one call of the interpreter *)
Lemma run_near n l s o : plain n l s o -> forall s' N, near s s' -> (n <= N)%nat ->
  exists o', run N s' = Ok o' /\
  (same_end base o o' \/
   (exists t' k t, o' = Yielded 0 true t' /\ (k < n)%nat /\ plain k l t o /\ forall ips, near t (resume ips 0 true t')) \/
   (exists t' k t args v l', o' = Yielded args false t' /\ l = v :: l' /\ (k < n)%nat /\ plain k l' t o /\ forall ips, near t (resume ips args false (reply v t')))).
Proof.
  induction 1 as [n l s t o i q D T AP ST PL IH|n v l s args t o i q D T AP ST PL IH|s o i q D T AP ST EN]; intros s' N NR LE;
    (destruct N as [|N]; [lia|]); cbn [VmModel.run];
    pose proof (step_near true (vslice s') s s' i q NR D T AP) as R; rewrite ST in R;
    replace (with_slice (vslice s') s') with s' in R by (destruct s'; reflexivity);
    inversion R as [a o' OR Ha Hb| |]; subst; cbn [bind].
  - destruct o' as [t'|t'|args f t'|e t']; cbn [orel same_end] in OR; try tauto.
    + destruct (IH t' N OR) as (o'&E&H); [lia|]. exists o'. split; auto.
      destruct H as [H|[(t2&k&t3&H1&H2&H3)|(t2&k&t3&a&v&l'&H1&H2&H3&H4)]]; [auto|right; left|right; right].
      * exists t2, k, t3. split; [auto|split; [lia|auto]].
      * exists t2, k, t3, a, v, l'. split; [auto|split; [auto|split; [lia|auto]]].
    + destruct args; [|tauto]. destruct f; [|tauto]. destruct OR as (OR&R0&R1). eexists. split; [reflexivity|]. right; left.
      exists t', n, t. split; [auto|split; [lia|split; [auto|]]]. intros ips. now apply resume_near.
  - destruct o' as [t'|t'|args' f t'|e t']; cbn [orel same_end] in OR; try tauto. destruct f; [tauto|].
    destruct OR as (->&A&B&C&E). eexists. split; [reflexivity|]. right; right.
    exists t', n, (answered args' v t), args', v, l. split; [auto|split; [auto|split; [lia|split; [auto|]]]]. intros ips. now apply reply_near.
  - apply orel_end in OR; auto. destruct o; try tauto; destruct o'; try (cbn in OR; tauto); eexists; (split; [reflexivity|left; exact OR]).
Qed.
Lemma continued_near N : forall slices n l s o s', plain n l s o -> near s s' -> (n <= N)%nat -> (n <= length slices)%nat ->
  exists o', continued N slices l s' = Ok o' /\ same_end base o o'.
Proof.
  induction slices as [|ips slices IH]; intros n l s o s' PL NR LN LS; destruct (run_near n l s o PL s' N NR LN) as (o'&E&H); cbn [YieldSpec.continued]; rewrite E; cbn [bind].
  - cbn [length] in LS. destruct H as [H|[(t2&k&t3&H1&H2&H3)|(t2&k&t3&a&v&l'&H1&H2&H3&H4)]]; [eauto|lia|lia].
  - cbn [length] in LS. destruct H as [H|[(t2&k&t3&H1&H2&H3&H4)|(t2&k&t3&a&v&l'&H1&H2&H3&H4&H5)]].
    + destruct o' as [| | |]; eauto. destruct o; cbn in H; tauto.
    + subst o'. eapply (IH k); eauto; lia.
    + subst o' l. eapply (IH k); eauto; lia.
Qed.
End Sim.
