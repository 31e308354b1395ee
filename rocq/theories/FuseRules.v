(* What the fused instructions do, against the sequences they replace. *)
From Verif Require Import Base HashModel FloatModel OpsModel VmModel VmSpec OpsLocal ArrayModel EmitModel FuseSpec VmProofs.

Lemma agree_push sp m m' v : agree sp m m' -> agree (S sp) (wr m (LStack sp) v) (wr m' (LStack sp) v).
Proof.
  intros [A B C D]. constructor; cbn [mo mraw mnext wr]; auto.
  intros x L. cbn. destruct (loc_eq_dec x (LStack sp)); auto. apply A.
  destruct x; cbn in *; auto. destruct (Nat.eq_dec n0 sp); [congruence|lia].
Qed.
Lemma rmz_start sp m m' : agree sp m m' -> closed sp m -> rmz m m' sp m m'.
Proof. intros. split; [auto|split; auto]. Qed.

(* + and * of floats do not depend on the order *)
From Coq Require Import SpecFloat.
Lemma f32_add_comm a b : f32_add a b = f32_add b a.
Proof.
  unfold f32_add. f_equal. destruct (f32_decode a) as [sa|sa| |sa ma ea], (f32_decode b) as [sb|sb| |sb mb eb]; cbn [SFadd]; auto.
  - destruct sa, sb; reflexivity.
  - destruct sa, sb; reflexivity.
  - rewrite (Z.min_comm ea eb), Z.add_comm. reflexivity.
Qed.
Lemma f32_mul_comm a b : f32_mul a b = f32_mul b a.
Proof.
  unfold f32_mul. f_equal. destruct (f32_decode a) as [sa|sa| |sa ma ea], (f32_decode b) as [sb|sb| |sb mb eb]; cbn [SFmul]; auto;
  try (now rewrite xorb_comm).
  now rewrite xorb_comm, Pos.mul_comm, Z.add_comm.
Qed.

Section Rules.
Variable pbits : value -> Z.
Variable obj_hash : mem -> value -> Z.
Variable as_string : mem -> value -> list Z.
Variable trap : bool.
Variable hash_index : loc -> loc -> loc -> mem -> res mem.
Variable new_table : loc -> mem -> mem.
Variable lib_fn : Z -> option (nat -> nat -> mem -> res (mem * bool)).
Variable native_fn : Z -> option (nat -> nat -> mem -> res mem).
Variable ext : opcode -> vm -> res outcome.
Variable code : list Z.
Variable funs : list fn.
Variable base limit : nat.
Variable protect slices : bool.
Variable depth : nat.
Variable fw : nat.
Hypothesis OH : local_fn obj_hash.
Hypothesis AS : local_fn as_string.
Hypothesis LL : lib_local lib_fn.
Notation exec := (exec pbits obj_hash as_string trap hash_index new_table lib_fn native_fn ext code funs base limit protect slices).
Notation does := (does pbits obj_hash as_string trap hash_index new_table lib_fn native_fn ext code funs base limit protect slices depth).
Notation calm := (calm fw).
Notation tame := (tame fw).
Notation runs := (runs pbits obj_hash as_string trap hash_index new_table lib_fn native_fn ext code funs base limit protect slices depth fw).

Lemma asInt_local z z' sp fuel l m m' : live sp l -> rmz z z' sp m m' ->
  res_rel (rzm z z' sp) (asInt pbits fuel l m) (asInt pbits fuel l m').
Proof.
  intros L H. unfold asInt. rewrite (rm_mv _ _ sp m m' l H L).
  assert (T : res_rel (rzm z z' sp)
    (' (d, m1) <- deref pbits fuel l m ;; let m2 := wr m1 LTemp1 (mv m1 d) in
     match mv m1 d with VInt u => Ok (s32 u, m2) | VFlt u => match f32_to_int u with Some i => Ok (i, m2) | None => UB end | _ => UB end)
    (' (d, m1) <- deref pbits fuel l m' ;; let m2 := wr m1 LTemp1 (mv m1 d) in
     match mv m1 d with VInt u => Ok (s32 u, m2) | VFlt u => match f32_to_int u with Some i => Ok (i, m2) | None => UB end | _ => UB end)).
  { eapply bind_rel; [apply deref_local; eauto|]. intros [d m1] [d' m1'] [P [Q R]]. cbn in P, Q, R. subst d'. cbv zeta.
    rewrite (rm_mv _ _ sp m1 m1' d R Q).
    assert (R0 : rmz z z' sp (wr m1 LTemp1 (mv m1 d)) (wr m1' LTemp1 (mv m1 d))) by (apply rm_wr; auto; [exact I|eapply rm_val; eauto]).
    destruct (mv m1 d) eqn:E; try constructor; [now split|]. destruct (f32_to_int u); constructor. now split. }
  destruct (mv m l); auto; [constructor; now split|]. destruct (f32_to_int u); constructor. now split.
Qed.


Lemma checked_run_inv s t : checked_run limit protect s = Run t -> t = s /\ protect && (limit <=? vsp s)%nat = false.
Proof. unfold checked_run. destruct (protect && _) eqn:E; intros H; inversion H; auto. Qed.
Lemma checked_run_ok s : protect && (limit <=? vsp s)%nat = false -> checked_run limit protect s = Run s.
Proof. unfold checked_run. intros ->. reflexivity. Qed.
Lemma need_inv n s e r : need n s e = Ok r -> (n <= vsp s)%nat /\ e = Ok r.
Proof. unfold need. destruct (vsp s <? n)%nat eqn:E; [discriminate|]. apply Nat.ltb_ge in E. auto. Qed.
Lemma need_ok n s e : (n <= vsp s)%nat -> need n s e = e.
Proof. unfold need. intros L. apply Nat.ltb_ge in L. now rewrite L. Qed.
Lemma bind_inv {A B} (x : res A) (f : A -> res B) r : bind x f = Ok r -> exists a, x = Ok a /\ f a = Ok r.
Proof. destruct x; cbn; try discriminate. eauto. Qed.
Lemma rel_ok {A B} (R : A -> B -> Prop) x y a : res_rel R x y -> x = Ok a -> exists b, y = Ok b /\ R a b.
Proof. intros H ->. inversion H; subst. eauto. Qed.

(* the same outcome *)
Definition orel (a b : outcome) : Prop :=
  match a, b with
  | Run s, Run t => same s t
  | Failed e s, Failed e' t => e = e' /\ same s t
  | _, _ => False
  end.

Lemma same_upd s s' m m' k : same s s' -> agree k m m' -> same (upd s m k) (upd s' m' k).
Proof. intros [A B C D E] F. constructor; cbn; auto. Qed.
Lemma orel_checked s s' : same s s' -> orel (checked_run limit protect s) (checked_run limit protect s').
Proof.
  intros H. unfold checked_run. rewrite (same_sp _ _ H). destruct (protect && _); cbn; auto.
Qed.
Lemma trapped_rel l s s' : same s s' -> mv (vmem s) l = mv (vmem s') l ->
  res_rel orel (trapped trap l s (Run s)) (trapped trap l s' (Run s')).
Proof. intros H E. unfold trapped. rewrite E. destruct (trap && _); constructor; cbn; auto. Qed.
Lemma need_rel n s s' e e' : same s s' -> ((n <= vsp s)%nat -> res_rel orel e e') -> res_rel orel (need n s e) (need n s' e').
Proof.
  intros H K. unfold need. rewrite (same_sp _ _ H). destruct (vsp s <? n)%nat eqn:E; [constructor|]. apply K. now apply Nat.ltb_ge.
Qed.
Lemma rm_agree z z' sp m m' k : (k <= sp)%nat -> rmz z z' sp m m' -> agree k m m'.
Proof. intros L [A _]. eapply agree_mono; eauto. Qed.
Lemma rm_agree_wr z z' sp m m' k l v : (k <= sp)%nat -> rmz z z' sp m m' -> agree k (wr m l v) (wr m' l v).
Proof. intros L [A _]. apply agree_wr. eapply agree_mono; eauto. Qed.

Lemma eval_bin_local z z' sp b fuel l r target m m' : live sp l -> live sp r -> rmz z z' sp m m' ->
  res_rel (rt z z' sp target) (eval_bin pbits obj_hash as_string trap b fuel l r target m)
    (eval_bin pbits obj_hash as_string trap b fuel l r target m').
Proof.
  intros L1 L2 H. unfold eval_bin. cbv zeta. rewrite !(fun l => rm_mv z z' sp m m' l H) by auto.
  destruct b; first [apply int_binary_local | apply arith_binary_local | apply add_binary_local]; auto.
Qed.
Lemma eval_assign_local z z' sp b fuel l r m m' : live sp l -> live sp r -> rmz z z' sp m m' ->
  res_rel (rmz z z' sp) (eval_assign pbits obj_hash as_string trap b fuel l r m)
    (eval_assign pbits obj_hash as_string trap b fuel l r m').
Proof.
  intros L1 L2 H. unfold eval_assign. cbv zeta. rewrite !(fun l => rm_mv z z' sp m m' l H) by auto.
  destruct b; first [apply logic_assign_local | apply arith_assign_local]; auto.
Qed.
Lemma eval_cmp_local z z' sp c fuel l r m m' : live sp l -> live sp r -> rmz z z' sp m m' ->
  res_rel (rzm z z' sp) (eval_cmp pbits obj_hash c fuel l r m) (eval_cmp pbits obj_hash c fuel l r m').
Proof.
  intros L1 L2 H. unfold eval_cmp. destruct (cmp_table c) as [o inv]. rewrite !(fun l => rm_mv z z' sp m m' l H) by auto.
  eapply bind_rel; [apply compare_local; eauto|]. intros [x m1] [y m1'] [P R]. cbn in P, R. subst y. constructor. split; auto.
Qed.

Ltac obind L := eapply bind_rel; [eapply L; eauto; fail|].
Lemma exec_rel i fuel s s' : straight i = true -> same s s' -> calm s -> res_rel orel (exec fuel i s) (exec fuel i s').
Proof.
  intros SI SS [C _]. unfold VmModel.exec. pose proof (same_upd s s' _ _ _ SS (same_mem _ _ SS)) as SU.
  rewrite (same_sp _ _ SS). set (u := upd s (vmem s) (vsp s)) in *. set (u' := upd s' (vmem s') (vsp s)) in *.
  assert (Eu : vsp u = vsp s) by reflexivity. assert (Eu' : vsp u' = vsp s) by reflexivity.
  cbv zeta. rewrite Eu, Eu'. set (sp := vsp s) in *.
  change (vmem u) with (vmem s). change (vmem u') with (vmem s'). change (vfb u) with (vfb s). change (vfb u') with (vfb s').
  rewrite (same_fb _ _ SS). set (m := vmem s) in *. set (m' := vmem s') in *.
  assert (A : agree sp m m') by apply (same_mem _ _ SS).
  assert (R : rmz m m' sp m m') by (apply rmz_start; auto).
  assert (L1 : (1 <= sp)%nat -> live sp (LStack (sp - 1))) by (cbn; lia).
  assert (L2 : (2 <= sp)%nat -> live sp (LStack (sp - 2))) by (cbn; lia).
  assert (MV : forall l, live sp l -> mv m' l = mv m l) by (intros; symmetry; now apply (ag_mv _ _ _ A)).
  destruct i; try discriminate SI.
  - (* ILit *) constructor. destruct check; [apply orel_checked|cbn]; apply same_upd; auto using agree_push.
  - (* ILitStr *) constructor. apply orel_checked, same_upd; auto. unfold new_string. rewrite (ag_next _ _ _ A).
    apply agree_push. destruct A as [A1 A2 A3 A4]. constructor; cbn; auto. intros k. rewrite <- A4. destruct (Nat.eq_dec k (mnext m)); auto.
  - (* ILib *) destruct pop; [discriminate|]. destruct (lib_fn hash) as [f|] eqn:F; [|constructor; split; auto].
    apply need_rel; auto. intros N.
    assert (A' : agree (S sp) (wr m (LStack sp) (VInt 0)) (wr m' (LStack sp) (VInt 0))) by now apply agree_push.
    eapply bind_rel.
    + eapply (LL hash f F sp args (S sp)); eauto. intros x Lx. cbn. destruct (loc_eq_dec x (LStack sp)); [exact I|].
      apply (val_ok_mono sp); [lia|]. apply C. unfold sp in *. destruct x; cbn in *; auto. destruct (Nat.eq_dec n0 (vsp s)); [congruence|lia].
    + intros [m1 e] [m1' e'] [P Q]. cbn in P, Q. subst e'.
      assert (S1 : same (copy_down u m1 args) (copy_down u' m1' args)).
      { unfold copy_down. rewrite Eu, Eu'. destruct (args =? 0)%nat; apply same_upd; auto.
        rewrite (ag_mv _ _ _ P (LStack sp)) by (cbn; lia). apply agree_wr. eapply agree_mono; [|exact P]. lia. }
      constructor. destruct e; [split; auto|]. now apply orel_checked.
  - (* IPop *) apply need_rel; auto. intros N. constructor. apply same_upd; auto. eapply agree_mono; [|exact A]. lia.
  - (* IDeref *) apply need_rel; auto. intros N. eapply bind_rel; [apply (deref_local pbits m m'); eauto|].
    intros [d m1] [d' m1'] [P [Q R1]]. cbn in P, Q, R1. subst d'. constructor.
    rewrite (rm_mv _ _ _ _ _ d R1 Q). apply same_upd; auto. eapply rm_agree_wr; eauto.
  - (* IHashOf *) apply need_rel; auto. intros N. eapply bind_rel; [apply (get_hash_local pbits obj_hash m m'); eauto|].
    intros [h m1] [h' m1'] [P R1]. cbn in P, R1. subst h'. constructor. apply same_upd; auto. eapply rm_agree_wr; eauto.
  - (* ISwap *) apply Nat.leb_le in SI. apply need_rel; auto. intros N. constructor. rewrite !MV by (cbn; lia). apply same_upd; auto. now apply agree_wr, agree_wr.
  - (* ISwap2 *) apply andb_prop in SI. destruct SI as [SA SB]. apply Nat.leb_le in SA. apply Nat.leb_le in SB. apply need_rel; auto. intros N. constructor. rewrite !MV by (cbn; lia).
    assert (A1 : agree sp (wr (wr m (LStack (sp - 1)) (mv m (LStack (sp - a)))) (LStack (sp - a)) (mv m (LStack (sp - 1))))
                          (wr (wr m' (LStack (sp - 1)) (mv m (LStack (sp - a)))) (LStack (sp - a)) (mv m (LStack (sp - 1))))) by now apply agree_wr, agree_wr.
    rewrite <- !(ag_mv _ _ _ A1) by (cbn; lia). apply same_upd; auto. now apply agree_wr, agree_wr.
  - (* ILoad *) constructor. apply orel_checked, same_upd; auto using agree_push.
  - (* IBin *) apply need_rel; auto. intros N. eapply bind_rel.
    + apply (eval_bin_local m m' sp b fuel _ _ (LStack (sp - 2))); [apply L1; lia|auto|auto].
    + intros m1 m1' R1. apply rm_rt in R1; [|auto]. apply trapped_rel; [|cbn; apply (ag_mv _ _ _ (proj1 R1)); auto].
      apply same_upd; auto. eapply rm_agree; [|eauto]. lia.
  - (* INot *) apply need_rel; auto. intros N. rewrite MV by auto. eapply bind_rel; [apply (logical_not_local pbits obj_hash m m'); eauto|].
    intros [h m1] [h' m1'] [P R1]. cbn in P, R1. subst h'. constructor. apply same_upd; auto. eapply rm_agree_wr; eauto.
  - (* INeg *) apply need_rel; auto. intros N. rewrite MV by auto. eapply bind_rel; [apply (negate_local pbits obj_hash m m'); eauto|].
    intros m1 m1' R1. apply rm_rt in R1; [|auto]. constructor. apply same_upd; auto. eapply rm_agree; eauto.
  - (* IBitNot *) apply need_rel; auto. intros N. rewrite MV by auto. eapply bind_rel; [apply (bitwise_not_local pbits obj_hash m m'); eauto|].
    intros [h m1] [h' m1'] [P R1]. cbn in P, R1. subst h'. constructor. apply same_upd; auto. eapply rm_agree_wr; eauto.
  - (* IToInt *) apply need_rel; auto. intros N. eapply bind_rel; [apply (asInt_local m m'); eauto|].
    intros [h m1] [h' m1'] [P R1]. cbn in P, R1. subst h'. constructor. apply same_upd; auto. eapply rm_agree_wr; eauto.
  - (* ICmp *) apply need_rel; auto. intros N. eapply bind_rel; [apply (eval_cmp_local m m' sp); [apply L1; lia|auto|auto]|].
    intros [h m1] [h' m1'] [P R1]. cbn in P, R1. subst h'. constructor. apply same_upd; auto. eapply rm_agree_wr; [|eauto]; lia.
  - (* IPost *) apply need_rel; auto. intros N. unfold eval_post. rewrite MV by auto.
    eapply bind_rel; [apply (unary_post_local pbits obj_hash m m' OH sp); auto|].
    intros m1 m1' R1. constructor. apply same_upd; auto. eapply rm_agree; eauto.
  - (* IPre *) apply need_rel; auto. intros N. unfold eval_pre. rewrite MV by auto.
    eapply bind_rel; [apply (unary_pre_local pbits obj_hash m m' OH sp); auto|].
    intros m1 m1' R1. constructor. apply same_upd; auto. eapply rm_agree; eauto.
  - (* IAssign *) apply need_rel; auto. intros N. rewrite !MV by (auto; apply L1; lia).
    eapply bind_rel; [apply (wr_assign_local pbits m m' sp); [apply L1; lia|auto|auto]|].
    intros m1 m1' R1. apply trapped_rel; [|cbn; apply (ag_mv _ _ _ (proj1 R1)); apply L1; lia].
    apply same_upd; auto. eapply rm_agree; [|eauto]. lia.
  - (* ICompound *) apply need_rel; auto. intros N.
    eapply bind_rel; [apply (eval_assign_local m m' sp); [apply L1; lia|auto|auto]|].
    intros m1 m1' R1. apply trapped_rel; [|cbn; apply (ag_mv _ _ _ (proj1 R1)); apply L1; lia].
    apply same_upd; auto. eapply rm_agree; [|eauto]. lia.
  - (* IInitVar *) apply need_rel; auto. intros N. eapply bind_rel; [apply (deref_local pbits m m'); eauto|].
    intros [d m1] [d' m1'] [P [Q R1]]. cbn in P, Q, R1. subst d'. constructor.
    apply same_upd; auto. eapply rm_agree_wr; eauto.
  - (* IDebug *) constructor. exact SU.
Qed.

(* an instruction from similar states *)
Lemma congr i s s' t : straight i = true -> same s s' -> calm s -> does i s (Run t) ->
  exists t', does i s' (Run t') /\ same t t'.
Proof.
  intros SI SS C [fuel [LE E]]. pose proof (exec_rel i fuel s s' SI SS C) as R. destruct (rel_ok _ _ _ _ R E) as [o [E' Q]].
  destruct o; cbn in Q; try tauto. exists s0. split; [exists fuel; split; auto|auto].
Qed.

(* ---- one sequence against another ---- *)
Definition fits (is js : list instr) : Prop := forall s t, runs is s t -> exists t', runs js s t' /\ same t t'.

Lemma runs_inv i r s u : runs (i :: r) s u -> exists t, calm s /\ tame i s t /\ does i s (Run t) /\ runs r t u.
Proof. intros H. inversion H; subst. eauto. Qed.
Lemma runs_nil_inv s t : runs [] s t -> s = t /\ calm s.
Proof. intros H. inversion H; subst. auto. Qed.
Lemma runs_calm is s t : runs is s t -> calm t.
Proof. induction 1; auto. Qed.
Lemma runs_one i s t : calm s -> tame i s t -> does i s (Run t) -> calm t -> runs [i] s t.
Proof. intros. econstructor; eauto. now constructor. Qed.
Lemma runs_app a b s u : runs (a ++ b) s u <-> exists t, runs a s t /\ runs b t u.
Proof.
  revert s. induction a as [|i a IH]; intros s; cbn [app]; split.
  - intros H. exists s. split; auto. constructor. inversion H; auto.
  - intros [t [H1 H2]]. apply runs_nil_inv in H1. destruct H1 as [-> _]. auto.
  - intros H. apply runs_inv in H. destruct H as [t [C [T [D H]]]]. apply IH in H. destruct H as [x [H1 H2]].
    exists x. split; auto. econstructor; eauto.
  - intros [t [H1 H2]]. apply runs_inv in H1. destruct H1 as [x [C [T [D H]]]]. econstructor; eauto. apply IH. eauto.
Qed.
Lemma same_refl s : same s s.
Proof. constructor; auto using agree_refl. Qed.
Lemma same_trans a b c : same a b -> same b c -> same a c.
Proof.
  intros [A1 A2 A3 A4 A5] [B1 B2 B3 B4 B5]. constructor; try congruence. eapply agree_trans; eauto. now rewrite <- A1.
Qed.
Lemma same_calm s t : same s t -> calm s -> calm t.
Proof. intros H [C1 C2]. split; rewrite (same_sp _ _ H); [|now rewrite (same_fb _ _ H)]. eapply closed_agree; eauto. apply same_mem; auto. Qed.

Lemma agree_S sp m m' : agree sp m m' -> mv m (LStack sp) = mv m' (LStack sp) -> agree (S sp) m m'.
Proof.
  intros [A B C D] E. constructor; auto. intros l L. destruct (loc_eq_dec l (LStack sp)) as [->|N]; auto.
  apply A. destruct l; cbn in *; auto. destruct (Nat.eq_dec n sp); [congruence|lia].
Qed.
Lemma same_of s m k m' : agree k m m' -> same (upd s m k) (upd s m' k).
Proof. constructor; cbn; auto. Qed.

(* single instructions *)
Lemma do_lit v c s t : does (ILit v c) s (Run t) ->
  t = upd s (wr (vmem s) (LStack (vsp s)) v) (S (vsp s)) /\ (c = true -> protect && (limit <=? S (vsp s))%nat = false).
Proof.
  intros [fuel [LE E]]. cbn in E. inversion E as [E']. clear E. destruct c.
  - apply checked_run_inv in E'. destruct E' as [-> P]. auto.
  - inversion E'. split; [reflexivity|discriminate].
Qed.
Lemma lit_does v c s : (c = true -> protect && (limit <=? S (vsp s))%nat = false) ->
  does (ILit v c) s (Run (upd s (wr (vmem s) (LStack (vsp s)) v) (S (vsp s)))).
Proof.
  intros H. exists O. split; [lia|]. cbn. destruct c; [|reflexivity]. f_equal. apply checked_run_ok. auto.
Qed.
Lemma do_load q n s t : does (ILoad q n) s (Run t) ->
  t = upd s (wr (vmem s) (LStack (vsp s)) (VRef (vloc (vfb s) q n))) (S (vsp s)) /\ protect && (limit <=? S (vsp s))%nat = false.
Proof.
  intros [fuel [LE E]]. cbn in E. inversion E as [E']. apply checked_run_inv in E'. destruct E' as [-> P]. auto.
Qed.
Lemma do_pop s t : does IPop s (Run t) -> t = upd s (vmem s) (vsp s - 1) /\ (1 <= vsp s)%nat.
Proof.
  intros [fuel [LE E]]. cbn [VmModel.exec] in E. apply need_inv in E. destruct E as [N E]. inversion E. auto.
Qed.
Lemma sub_SS n : (S (S n) - 2 = n)%nat. Proof. lia. Qed.
Lemma sub_S1 n : (S n - 1 = n)%nat. Proof. lia. Qed.

Lemma load_live q n s t : calm s -> tame (ILoad q n) s t -> live (vsp s) (vloc (vfb s) q n).
Proof. intros [_ C] T. destruct q; cbn in *; [exact I|lia]. Qed.

Lemma fit_load_pop q n : fits [ILoad q n; IPop] [].
Proof.
  intros s t H. apply runs_inv in H. destruct H as [s1 [C [T [D H]]]]. apply runs_inv in H. destruct H as [s2 [C1 [T1 [D1 H]]]].
  apply runs_nil_inv in H. destruct H as [-> C2]. apply do_load in D. destruct D as [-> P]. apply do_pop in D1. destruct D1 as [-> _].
  exists s. split; [now constructor|]. cbn [vsp upd]. rewrite sub_S1. constructor; cbn; auto.
  apply agree_wr_dead; [cbn; lia|apply agree_refl].
Qed.
Lemma fit_lit_pop v c : fits [ILit v c; IPop] [].
Proof.
  intros s t H. apply runs_inv in H. destruct H as [s1 [C [T [D H]]]]. apply runs_inv in H. destruct H as [s2 [C1 [T1 [D1 H]]]].
  apply runs_nil_inv in H. destruct H as [-> C2]. apply do_lit in D. destruct D as [-> P]. apply do_pop in D1. destruct D1 as [-> _].
  exists s. split; [now constructor|]. cbn [vsp upd]. rewrite sub_S1. constructor; cbn; auto.
  apply agree_wr_dead; [cbn; lia|apply agree_refl].
Qed.

(* the literal's negation *)
Definition neg_of (v : value) : value := match v with VInt u => VInt (u32 (- u)) | VFlt u => VFlt (f32_neg u) | _ => v end.
Lemma fit_negate v c v' : is_num v = true -> v' = neg_of v -> fits [ILit v c; INeg] [ILit v' c].
Proof.
  intros NV HV s t H. subst v'. apply runs_inv in H. destruct H as [s1 [C [T [D H]]]]. apply runs_inv in H. destruct H as [s2 [C1 [T1 [D1 H]]]].
  apply runs_nil_inv in H. destruct H as [-> C2]. apply do_lit in D. destruct D as [-> P].
  destruct D1 as [fuel [LE E]]. cbn [VmModel.exec] in E. apply need_inv in E. destruct E as [_ E]. cbn [vsp upd vmem] in E. rewrite sub_S1, wr_eq in E.
  apply bind_inv in E. destruct E as [m1 [E1 E2]]. inversion E2; subst t. clear E2.
  assert (M : m1 = wr (wr (vmem s) (LStack (vsp s)) v) (LStack (vsp s)) (neg_of v)).
  { destruct fuel; [discriminate|]. destruct v; try discriminate; cbn [negate type_of] in E1; unfold rdi in E1; rewrite wr_eq in E1; inversion E1; reflexivity. }
  subst m1. assert (SM : same (upd (upd s (wr (vmem s) (LStack (vsp s)) v) (S (vsp s))) (wr (wr (vmem s) (LStack (vsp s)) v) (LStack (vsp s)) (neg_of v)) (S (vsp s)))
     (upd s (wr (vmem s) (LStack (vsp s)) (neg_of v)) (S (vsp s)))).
  { constructor; cbn; auto. constructor; cbn; auto. intros l _. destruct (loc_eq_dec l (LStack (vsp s))); auto. }
  eexists. split; [|exact SM]. apply runs_one; [exact C|exact I|now apply lit_does|]. eapply same_calm; [exact SM|exact C2].
Qed.

(* ---- a reference on the stack is looked through ---- *)
Lemma eval_bin_peel b n l r x y target m : mv m l = VRef x -> mv m r = VRef y ->
  eval_bin pbits obj_hash as_string trap b (S n) l r target m = eval_bin pbits obj_hash as_string trap b n x y target m.
Proof.
  intros E1 E2. unfold eval_bin. rewrite E1, E2. cbv zeta.
  destruct b; cbn [type_of add_binary arith_binary int_binary]; now rewrite E1, E2.
Qed.
Lemma eval_cmp_peel c n l r x y m : mv m l = VRef x -> mv m r = VRef y ->
  eval_cmp pbits obj_hash c (S n) l r m = eval_cmp pbits obj_hash c n x y m.
Proof.
  intros E1 E2. unfold eval_cmp. rewrite E1, E2. destruct (cmp_table c). cbn [type_of compare]. now rewrite E1, E2.
Qed.
Lemma eval_cmp_peel1 c n l r x m : mv m l = VRef x -> is_num (mv m r) = true ->
  eval_cmp pbits obj_hash c (S n) l r m = eval_cmp pbits obj_hash c n x r m.
Proof.
  intros E1 E2. unfold eval_cmp. rewrite E1. destruct (cmp_table c). destruct (mv m r); try discriminate; cbn [type_of compare]; now rewrite E1.
Qed.

(* two loads *)
Definition mem2 (s : vm) (x y : loc) : mem := wr (wr (vmem s) (LStack (vsp s)) (VRef x)) (LStack (S (vsp s))) (VRef y).
Lemma two_loads q0 a q1 b r s t : runs (ILoad q0 a :: ILoad q1 b :: r) s t ->
  calm s /\ live (vsp s) (vloc (vfb s) q0 a) /\ live (vsp s) (vloc (vfb s) q1 b) /\
  protect && (limit <=? S (vsp s))%nat = false /\
  runs r (upd s (mem2 s (vloc (vfb s) q0 a) (vloc (vfb s) q1 b)) (S (S (vsp s)))) t.
Proof.
  intros H. apply runs_inv in H. destruct H as [s1 [C [T [D H]]]]. apply runs_inv in H. destruct H as [s2 [C1 [T1 [D1 H]]]].
  apply do_load in D. destruct D as [-> P]. apply do_load in D1. destruct D1 as [-> P1].
  split; [auto|]. split; [eapply load_live; eauto|]. split; [|split; [auto|exact H]].
  destruct C as [_ C]. destruct q1; cbn in *; [exact I|lia].
Qed.

Lemma mem2_rm s x y : closed (vsp s) (vmem s) -> rmz (mem2 s x y) (vmem s) (vsp s) (mem2 s x y) (vmem s).
Proof.
  intros C. assert (A : agree (vsp s) (mem2 s x y) (vmem s)).
  { unfold mem2. apply agree_wr_dead; [cbn; lia|]. apply agree_wr_dead; [cbn; lia|]. apply agree_refl. }
  apply rmz_start; auto. eapply closed_agree; [apply agree_sym, A|auto].
Qed.
Lemma mem2_top s x y : mv (mem2 s x y) (LStack (S (vsp s))) = VRef y.
Proof. apply wr_eq. Qed.
Lemma mem2_second s x y : mv (mem2 s x y) (LStack (vsp s)) = VRef x.
Proof. unfold mem2. rewrite wr_ne by (intros E; inversion E; lia). apply wr_eq. Qed.

(* an operator on two variables *)
Lemma bin_two q0 a q1 b o s t : runs [ILoad q0 a; ILoad q1 b; IBin o] s t ->
  calm s /\ live (vsp s) (vloc (vfb s) q0 a) /\ live (vsp s) (vloc (vfb s) q1 b) /\
  protect && (limit <=? S (vsp s))%nat = false /\ calm t /\
  tame (IBin o) (upd s (mem2 s (vloc (vfb s) q0 a) (vloc (vfb s) q1 b)) (S (S (vsp s)))) t /\
  (trap = true -> mv (vmem t) (LStack (vsp s)) <> VInvalid) /\
  exists n m1, (n <= depth)%nat /\ eval_bin pbits obj_hash as_string trap o n (vloc (vfb s) q1 b) (vloc (vfb s) q0 a) (LStack (vsp s)) (vmem s) = Ok m1 /\
    same t (upd s m1 (S (vsp s))).
Proof.
  intros H. apply two_loads in H. destruct H as [C [L0 [L1 [P H]]]].
  apply runs_inv in H. destruct H as [s2 [C1 [T [D H]]]]. apply runs_nil_inv in H. destruct H as [-> C2].
  split; [auto|]. split; [auto|]. split; [auto|]. split; [auto|]. split; [auto|]. split; [auto|].
  set (x := vloc (vfb s) q0 a) in *. set (y := vloc (vfb s) q1 b) in *.
  destruct D as [fuel [LE E]]. cbn [VmModel.exec] in E. apply need_inv in E. destruct E as [_ E]. cbn [vsp upd vmem] in E.
  rewrite sub_S1, sub_SS in E. apply bind_inv in E. destruct E as [m1 [E1 E2]].
  unfold trapped in E2. cbn [vmem upd] in E2.
  assert (NI : trap = true -> mv m1 (LStack (vsp s)) <> VInvalid).
  { intros ->. destruct (mv m1 (LStack (vsp s))) eqn:Q; intros F; try discriminate. }
  destruct (trap && is_invalid (mv m1 (LStack (vsp s)))) eqn:TR; [discriminate|]. inversion E2; subst t. clear E2.
  cbn [vmem upd]. split; [auto|].
  destruct fuel as [|n].
  { exfalso. revert E1. unfold eval_bin. destruct o; discriminate. }
  rewrite (eval_bin_peel o n _ _ y x) in E1 by (apply mem2_top || apply mem2_second).
  pose proof (eval_bin_local (mem2 s x y) (vmem s) (vsp s) o n y x (LStack (vsp s)) _ _ L1 L0 (mem2_rm s x y (proj1 C))) as R.
  destruct (rel_ok _ _ _ _ R E1) as [m2 [E2 [A [Cl [Fr Tg]]]]].
  exists n, m2. split; [lia|]. split; [exact E2|].
  assert (EQ : mv m1 (LStack (vsp s)) = mv m2 (LStack (vsp s))).
  { destruct Tg as [[Q _]|[Q1 Q2]]; [cbn; lia|auto|]. exfalso.
    destruct T as [T _]. unfold top2 in T. cbn [vmem upd vsp] in T. rewrite sub_SS, Q1, mem2_second in T. destruct T as [T|T]; [discriminate|congruence]. }
  constructor; cbn; auto. now apply agree_S.
Qed.

Lemma fit_var2 q0 a q1 b o : fits [ILoad q0 a; ILoad q1 b; IBin o] [IBin2 o q0 q1 a b].
Proof.
  intros s t H. apply bin_two in H. destruct H as [C [L0 [L1 [P [C2 [_ [NI [n [m1 [LE [E SM]]]]]]]]]]].
  eexists. split; [|exact SM]. apply runs_one; [exact C|exact I| |eapply same_calm; eauto].
  exists n. split; [lia|]. cbn [VmModel.exec]. cbn [vsp upd vmem vfb]. rewrite E. cbn [bind].
  assert (K : checked_run limit protect (upd s m1 (S (vsp s))) = Run (upd s m1 (S (vsp s)))) by now apply checked_run_ok.
  assert (TI : trap && is_invalid (mv m1 (LStack (vsp s))) = false).
  { destruct trap; [|reflexivity]. specialize (NI eq_refl). pose proof (ag_mv _ _ _ (same_mem _ _ SM) (LStack (vsp s))) as Q.
    rewrite (same_sp _ _ SM) in Q || idtac. cbn [vmem upd] in Q. rewrite <- Q.
    - cbn. destruct (mv (vmem t) (LStack (vsp s))); auto. congruence.
    - pose proof (same_sp _ _ SM) as Z. cbn in Z. rewrite <- Z. cbn. lia. }
  change (upd (upd s (vmem s) (vsp s)) m1 (S (vsp s))) with (upd s m1 (S (vsp s))). rewrite K.
  destruct o; try reflexivity. unfold trapped. cbn [vmem upd]. now rewrite TI.
Qed.
Lemma fit_skip q0 a q1 b o : fits [ILoad q0 a; ILoad q1 b; IBin o] [IValues q0 q1 a b; IBinSkip o].
Proof.
  intros s t H. apply bin_two in H. destruct H as [C [L0 [L1 [P [C2 [_ [NI [n [m1 [LE [E SM]]]]]]]]]]].
  eexists. split; [|exact SM]. eapply runs_cons; [exact C|exact I|exists O; split; [lia|reflexivity]|].
  apply runs_one; [exact C|exact I| |eapply same_calm; eauto].
  exists n. split; [lia|]. cbn [VmModel.exec vr0 vr1 vsp upd vmem vfb vpc vslice]. rewrite E. cbn [bind]. f_equal.
  now apply checked_run_ok.
Qed.

(* a comparison of two variables *)
Lemma fit_cmp2 q a b c : fits [ILoad q a; ILoad q b; ICmp c] [ICmp2 c q a b].
Proof.
  intros s t H. apply two_loads in H. destruct H as [C [L0 [L1 [P H]]]].
  apply runs_inv in H. destruct H as [s2 [C1 [T [D H]]]]. apply runs_nil_inv in H. destruct H as [-> C2].
  set (x := vloc (vfb s) q a) in *. set (y := vloc (vfb s) q b) in *.
  destruct D as [fuel [LE E]]. cbn [VmModel.exec] in E. apply need_inv in E. destruct E as [_ E]. cbn [vsp upd vmem] in E.
  rewrite !sub_S1, sub_SS in E. apply bind_inv in E. destruct E as [[r m1] [E1 E2]]. inversion E2; subst t. clear E2.
  destruct fuel as [|n].
  { exfalso. revert E1. unfold eval_cmp. destruct (cmp_table c); discriminate. }
  rewrite (eval_cmp_peel c n _ _ y x) in E1 by (apply mem2_top || apply mem2_second).
  pose proof (eval_cmp_local (mem2 s x y) (vmem s) (vsp s) c n y x _ _ L1 L0 (mem2_rm s x y (proj1 C))) as R.
  destruct (rel_ok _ _ _ _ R E1) as [[r' m2] [E2 [Q [A _]]]]. cbn in Q, A. subst r'.
  assert (SM : same (upd s (wr m1 (LStack (vsp s)) (VInt (Z.b2z r))) (S (vsp s))) (upd s (wr m2 (LStack (vsp s)) (VInt (Z.b2z r))) (S (vsp s))))
    by (apply same_of, agree_push, A).
  eexists. split; [|exact SM]. apply runs_one; [exact C|exact I| |eapply same_calm; [exact SM|exact C2]].
  exists n. split; [lia|]. cbn [VmModel.exec]. cbn [vsp upd vmem vfb]. fold x y. rewrite E2. cbn [bind]. f_equal. now apply checked_run_ok.
Qed.

(* a literal and a variable *)
Lemma fit_cmpS v c q a k : is_num v = true -> fits [ILit v c; ILoad q a; ICmp k] [ILit v c; ICmpS k q a].
Proof.
  intros NV s t H. apply runs_inv in H. destruct H as [s1 [C [T [D H]]]]. apply do_lit in D. destruct D as [-> P].
  apply runs_inv in H. destruct H as [s2 [C1 [T1 [D H]]]]. apply do_load in D. destruct D as [-> P1].
  apply runs_inv in H. destruct H as [s3 [C2 [T2 [D H]]]]. apply runs_nil_inv in H. destruct H as [-> C3].
  cbn [vfb upd vmem vsp] in *. set (x := vloc (vfb s) q a) in *. set (sp := vsp s) in *.
  set (m := wr (vmem s) (LStack sp) v) in *. set (mu := wr m (LStack (S sp)) (VRef x)) in *.
  assert (LX : live sp x). { destruct C as [_ C]. unfold x. destruct q; cbn in *; [exact I|lia]. }
  destruct D as [fuel [LE E]]. cbn [VmModel.exec] in E. apply need_inv in E. destruct E as [_ E]. cbn [vsp upd vmem] in E.
  rewrite !sub_S1, sub_SS in E. apply bind_inv in E. destruct E as [[r m1] [E1 E2]]. inversion E2; subst t. clear E2.
  destruct fuel as [|n].
  { exfalso. revert E1. unfold eval_cmp. destruct (cmp_table k); discriminate. }
  assert (V2 : mv mu (LStack sp) = v) by (unfold mu; rewrite wr_ne by (intros F; inversion F; lia); apply wr_eq).
  rewrite (eval_cmp_peel1 k n _ _ x) in E1; [|apply wr_eq|now rewrite V2].
  assert (A : agree (S sp) mu m) by (apply agree_wr_dead; [cbn; lia|apply agree_refl]).
  assert (R0 : rmz mu m (S sp) mu m) by (apply rmz_start; [auto|eapply closed_agree; [apply agree_sym, A|apply C1]]).
  pose proof (eval_cmp_local mu m (S sp) k n x (LStack sp) mu m (live_mono _ (S sp) _ (Nat.le_succ_diag_r _) LX) (Nat.lt_succ_diag_r _) R0) as R.
  destruct (rel_ok _ _ _ _ R E1) as [[r' m2] [E2 [Q [A2 _]]]]. cbn in Q, A2. subst r'.
  assert (SM : same (upd s (wr m1 (LStack sp) (VInt (Z.b2z r))) (S sp)) (upd s (wr m2 (LStack sp) (VInt (Z.b2z r))) (S sp)))
    by (apply same_of, agree_wr, A2).
  eexists. split; [|exact SM]. eapply runs_cons; [exact C|exact I|apply lit_does; exact P|].
  apply runs_one; [exact C1|exact I| |eapply same_calm; [exact SM|exact C3]].
  exists n. split; [lia|]. cbn [VmModel.exec]. rewrite need_ok by (cbn; lia). cbn [vsp upd vmem vfb]. rewrite sub_S1. fold x sp m. rewrite E2. cbn [bind]. reflexivity.
Qed.

(* the same with the operands exchanged *)
Definition mirror (c : cmpop) : cmpop :=
  match c with CLt => CGt | CGt => CLt | CLe => CGe | CGe => CLe | c => c end.
Definition mirrored (o o' : cmp) : Prop :=
  (forall a b, c_ii o a b = c_ii o' b a) /\ (forall a b, c_ff o a b = c_ff o' b a) /\
  (forall a b, c_if o a b = c_fi o' b a) /\ (forall a b, c_fi o a b = c_if o' b a).
Lemma lt_gt : mirrored lt_op gt_op.
Proof. repeat split; intros; reflexivity. Qed.
Lemma gt_lt : mirrored gt_op lt_op.
Proof. repeat split; intros; reflexivity. Qed.

Lemma compare_mirror z z' sp p p' v o o' : ~ live sp p -> ~ live sp p' -> mv z p = v -> mv z' p' = v -> is_num v = true -> mirrored o o' ->
  forall n x m m' r m1, live sp x -> rmz z z' sp m m' -> (type_of v = TF -> floats m x) ->
  compare pbits obj_hash o n (type_of v) (type_of (mv m x)) p x m = Ok (r, m1) ->
  exists m1', compare pbits obj_hash o' n (type_of (mv m' x)) (type_of v) x p' m' = Ok (r, m1') /\ agree sp m1 m1'.
Proof.
  intros NP NP' ZP ZP' NV [M1 [M2 [M3 M4]]]. induction n; intros x m m' r m1 L R FL E; [discriminate|].
  pose proof (rm_mv _ _ _ _ _ x R L) as EX. pose proof R as R0. destruct R0 as [A [C F]].
  destruct (F p NP) as [Pm _]. destruct (F p' NP') as [_ Pm'].
  assert (NX : x <> p) by (intros ->; tauto). assert (NX' : x <> p') by (intros ->; tauto).
  cbn [compare] in E |- *. unfold rdi in *. rewrite EX.
  (* a container: only with an int *)
  Ltac cont z z' sp n x m m' L R FL VX IHn E v r m1 := destruct v as [u0|u0| | | | | | | | |]; try discriminate; cbn [type_of] in *;
      [|exfalso; specialize (FL eq_refl); inversion FL as [l9 W|l9 l8 W]; rewrite VX in W; discriminate];
      apply bind_inv in E; destruct E as [ma [E1 E2]];
      destruct (rel_ok _ _ _ _ (single_value_local pbits obj_hash z z' OH sp n x m m' L R) E1) as [mb [E3 R1]];
      rewrite E3; cbn [bind];
      apply (IHn LTemp1 ma mb r m1 I R1); [intros W; discriminate|exact E2].
  destruct (mv m x) eqn:VX; cbn [type_of] in E |- *;
    [| | |cont z z' sp n x m m' L R FL VX IHn E v r m1 ..].
  - (* int variable *) destruct v as [u0|u0| | | | | | | | |]; try discriminate; cbn [type_of] in *.
    + injection E as E1 E2. subst m1. exists m'. split; [|auto]. rewrite Pm, ZP in E1. rewrite Pm', ZP'. cbn in *. rewrite <- M1. now subst r.
    + exfalso. specialize (FL eq_refl). inversion FL as [l W|l l' W]; rewrite VX in W; discriminate.
  - (* float variable *) destruct v as [u0|u0| | | | | | | | |]; try discriminate; cbn [type_of] in *.
    + injection E as E1 E2. exists m'. split.
      * rewrite Pm', ZP'. cbn [bits]. f_equal. f_equal. rewrite <- M3. subst r. destruct (c_retag o).
        -- rewrite wr_eq, (wr_ne _ _ _ _ NX), Pm, ZP, VX. reflexivity.
        -- rewrite Pm, ZP, VX. reflexivity.
      * subst m1. destruct (c_retag o); auto. now apply agree_wr_dead.
    + injection E as E1 E2. subst m1. exists m'. split; [|auto]. rewrite Pm, ZP in E1. rewrite Pm', ZP'. cbn in *. rewrite <- M2. now subst r.
  - (* reference *) assert (LL2 : live sp l) by (pose proof (rm_val _ _ _ _ _ x R L) as W; rewrite VX in W; exact W).
    assert (E' : compare pbits obj_hash o n (type_of v) (type_of (mv m l)) p l m = Ok (r, m1)).
    { destruct v; try discriminate; cbn [type_of] in E |- *; exact E. }
    destruct (IHn l m m' r m1 LL2 R) as [m1' [Q1 Q2]]; auto.
    { intros X. specialize (FL X). inversion FL as [l0 W|l0 r0 W W2]; rewrite VX in W; [discriminate|]. inversion W; subst; auto. }
    exists m1'. split; auto. destruct v; try discriminate; cbn [type_of] in Q1 |- *; exact Q1.
Qed.
(* == on ints *)
Lemma compare_eq_ints z z' sp p p' u : ~ live sp p -> ~ live sp p' -> mv z p = VInt u -> mv z' p' = VInt u ->
  forall n x m m' r m1, live sp x -> rmz z z' sp m m' -> ints m x ->
  compare pbits obj_hash eq_op n TI (type_of (mv m x)) p x m = Ok (r, m1) ->
  exists m1', compare pbits obj_hash eq_op n (type_of (mv m' x)) TI x p' m' = Ok (r, m1') /\ agree sp m1 m1'.
Proof.
  intros NP NP' ZP ZP'. induction n; intros x m m' r m1 L R FL E; [discriminate|].
  pose proof (rm_mv _ _ _ _ _ x R L) as EX. pose proof R as R0. destruct R0 as [A [C F]].
  destruct (F p NP) as [Pm _]. destruct (F p' NP') as [_ Pm'].
  cbn [compare] in E |- *. unfold rdi in *. rewrite EX.
  inversion FL as [l W|l l' W W2]; subst l.
  - destruct (mv m x) eqn:VX; try discriminate. cbn [type_of] in *. injection E as E1 E2. subst m1. exists m'. split; [|auto].
    rewrite Pm, ZP in E1. rewrite Pm', ZP'. cbn in *. rewrite Z.eqb_sym. now subst r.
  - rewrite W in *. cbn [type_of] in *.
    assert (LL2 : live sp l') by (pose proof (rm_val _ _ _ _ _ x R L) as Q; rewrite W in Q; exact Q).
    eapply IHn; eauto.
Qed.

Lemma eval_cmp_mirror z z' sp p p' v c : ~ live sp p -> ~ live sp p' -> mv z p = v -> mv z' p' = v -> is_num v = true ->
  match c with CAnd | COr => False | _ => True end ->
  forall n x m m' r m1, live sp x -> rmz z z' sp m m' ->
  match c with CEq | CNe => type_of v = TI /\ ints m x | _ => type_of v = TF -> floats m x end ->
  eval_cmp pbits obj_hash c n p x m = Ok (r, m1) ->
  exists m1', eval_cmp pbits obj_hash (mirror c) n x p' m' = Ok (r, m1') /\ agree sp m1 m1'.
Proof.
  intros NP NP' ZP ZP' NV MC n x m m' r m1 L R FL E.
  assert (Pm : mv m p = v) by (destruct R as [_ [_ F]]; destruct (F p NP); congruence).
  assert (Pm' : mv m' p' = v) by (destruct R as [_ [_ F]]; destruct (F p' NP'); congruence).
  unfold eval_cmp in E |- *. rewrite Pm in E. rewrite Pm'.
  destruct c; cbn [cmp_table mirror] in *; try tauto; apply bind_inv in E; destruct E as [[b0 m0] [E1 E2]]; injection E2 as E2 E3.
  1, 2: destruct FL as [T1 T2]; destruct v; try discriminate; cbn [type_of] in E1;
    eapply (compare_eq_ints z z' sp p p' u) in E1; eauto.
  3, 4, 5, 6: eapply (compare_mirror z z' sp p p' v) in E1; eauto using lt_gt, gt_lt.
  all: destruct E1 as [m1' [Q1 Q2]]; cbn [type_of]; rewrite Q1; cbn [bind]; exists m1'; subst; auto.
Qed.

Lemma fit_cmpI v c q a k : is_num v = true -> match k with CAnd | COr => False | _ => True end ->
  fits [ILoad q a; ILit v c; ICmp k] [ILit v c; ICmpS (mirror k) q a].
Proof.
  intros NV NK s t H. apply runs_inv in H. destruct H as [s1 [C [T [D H]]]]. apply do_load in D. destruct D as [-> P].
  apply runs_inv in H. destruct H as [s2 [C1 [T1 [D H]]]]. apply do_lit in D. destruct D as [-> P1].
  apply runs_inv in H. destruct H as [s3 [C2 [T2 [D H]]]]. apply runs_nil_inv in H. destruct H as [-> C3].
  cbn [vfb upd vmem vsp] in *. set (x := vloc (vfb s) q a) in *. set (sp := vsp s) in *.
  set (m := wr (vmem s) (LStack sp) v) in *. set (mu := wr (wr (vmem s) (LStack sp) (VRef x)) (LStack (S sp)) v) in *.
  assert (LX : live sp x). { destruct C as [_ C]. unfold x. destruct q; cbn in *; [exact I|lia]. }
  assert (V1 : mv mu (LStack (S sp)) = v) by apply wr_eq.
  assert (V2 : mv mu (LStack sp) = VRef x) by (unfold mu; rewrite wr_ne by (intros F; inversion F; lia); apply wr_eq).
  destruct D as [fuel [LE E]]. cbn [VmModel.exec] in E. apply need_inv in E. destruct E as [_ E]. cbn [vsp upd vmem] in E.
  rewrite !sub_S1, sub_SS in E. apply bind_inv in E. destruct E as [[r m1] [E1 E2]]. inversion E2; subst t. clear E2.
  unfold tame, top1, top2 in T2. cbn [vmem upd vsp] in T2. rewrite sub_S1, sub_SS, V1, V2 in T2. specialize (T2 x NV eq_refl).
  destruct fuel as [|n].
  { exfalso. revert E1. unfold eval_cmp. destruct (cmp_table k); discriminate. }
  assert (E1' : eval_cmp pbits obj_hash k n (LStack (S sp)) x mu = Ok (r, m1)).
  { rewrite <- E1. unfold eval_cmp. rewrite V1, V2. destruct (cmp_table k). cbn [type_of compare]. destruct v; try discriminate; cbn [type_of]; now rewrite V2. }
  assert (A : agree sp mu m).
  { unfold mu, m. eapply agree_trans; [|apply agree_sym, agree_wr_dead; [|apply agree_refl]]; [|cbn; lia].
    apply agree_wr_dead; [cbn; lia|]. apply agree_wr_dead; [cbn; lia|]. apply agree_refl. }
  assert (CU : closed sp mu).
  { eapply closed_agree; [apply agree_sym, A|]. apply closed_wr_dead; [cbn; lia|apply C]. }
  destruct (eval_cmp_mirror mu m sp (LStack (S sp)) (LStack sp) v k) with (n := n) (x := x) (m := mu) (m' := m) (r := r) (m1 := m1) as [m2 [E2 A2]]; auto.
  1, 2: cbn; lia.
  1: apply wr_eq.
  1: apply rmz_start; auto.
  assert (SM : same (upd s (wr m1 (LStack sp) (VInt (Z.b2z r))) (S sp)) (upd s (wr m2 (LStack sp) (VInt (Z.b2z r))) (S sp)))
    by (apply same_of, agree_push, A2).
  eexists. split; [|exact SM]. eapply runs_cons; [exact C|exact I|apply lit_does; intros _; exact P|].
  apply runs_one; [|exact I| |eapply same_calm; [exact SM|exact C3]].
  - destruct C as [Ca Cb]. split; cbn [vsp upd vfb vmem]; [|lia]. intros y Ly. cbn.
    destruct (loc_eq_dec y (LStack (vsp s))) as [->|NY]; [destruct v; try discriminate; exact I|].
    eapply val_ok_mono; [|apply Ca]; [lia|]. destruct y as [|k0| | | |]; cbn in *; auto. destruct (Nat.eq_dec k0 (vsp s)); [congruence|lia].
  - exists n. split; [lia|]. cbn [VmModel.exec]. rewrite need_ok by (cbn; lia). cbn [vsp upd vmem vfb]. rewrite sub_S1. fold x sp m. rewrite E2. cbn [bind]. reflexivity.
Qed.

(* local + global and local * global are emitted with the operands exchanged *)
Lemma leaf_comm o t f a b : (o = add_op \/ o = mul_op) -> (t = TI \/ t = TF) -> (f = TI \/ f = TF) -> leaf trap o t f a b = leaf trap o f t b a.
Proof.
  intros [-> | ->] [-> | ->] [-> | ->]; cbn [leaf add_op mul_op a_div a_ii a_ff andb option_map iadd_wrap imul_wrap];
  try (rewrite f32_add_comm; reflexivity); try (rewrite f32_mul_comm; reflexivity).
  - now rewrite Z.add_comm.
  - now rewrite Z.mul_comm.
Qed.
Lemma num_type v : is_num v = true -> type_of v = TI \/ type_of v = TF.
Proof. destruct v; try discriminate; auto. Qed.
Lemma numeric_cases m x : numeric m x -> (is_num (mv m x) = true) \/ exists r, mv m x = VRef r /\ numeric m r.
Proof. intros H. inversion H; subst; eauto. Qed.
Lemma arith_comm o target m : (o = add_op \/ o = mul_op) -> forall n x y, numeric m x -> numeric m y ->
  arith_binary pbits obj_hash trap o n (type_of (mv m x)) (type_of (mv m y)) x y target m =
  arith_binary pbits obj_hash trap o n (type_of (mv m y)) (type_of (mv m x)) y x target m.
Proof.
  intros O. induction n; intros x y NX NY; [reflexivity|]. cbn [arith_binary].
  destruct (numeric_cases m x NX) as [X|[x' [X NX']]], (numeric_cases m y NY) as [Y|[y' [Y NY']]].
  - destruct (num_type _ X) as [TX|TX], (num_type _ Y) as [TY|TY]; rewrite TX, TY; rewrite (leaf_comm o) by auto; try rewrite (leaf_comm o TI TF) by auto; reflexivity.
  - rewrite Y. cbn [type_of]. destruct (num_type _ X) as [TX|TX]; rewrite TX, <- TX; apply IHn; auto.
  - rewrite X. cbn [type_of]. destruct (num_type _ Y) as [TY|TY]; rewrite TY, <- TY; apply IHn; auto.
  - rewrite X, Y. cbn [type_of]. now apply IHn.
Qed.
Lemma add_arith target m : forall n x y, numeric m x -> numeric m y ->
  add_binary pbits obj_hash as_string trap n (type_of (mv m x)) (type_of (mv m y)) x y target m =
  arith_binary pbits obj_hash trap add_op n (type_of (mv m x)) (type_of (mv m y)) x y target m.
Proof.
  induction n; intros x y NX NY; [reflexivity|]. cbn [arith_binary add_binary].
  destruct (numeric_cases m x NX) as [X|[x' [X NX']]], (numeric_cases m y NY) as [Y|[y' [Y NY']]].
  - destruct (num_type _ X) as [TX|TX], (num_type _ Y) as [TY|TY]; rewrite TX, TY; reflexivity.
  - rewrite Y. cbn [type_of]. destruct (num_type _ X) as [TX|TX]; rewrite TX, <- TX; apply IHn; auto.
  - rewrite X. cbn [type_of]. destruct (num_type _ Y) as [TY|TY]; rewrite TY, <- TY; apply IHn; auto.
  - rewrite X, Y. cbn [type_of]. now apply IHn.
Qed.
Lemma eval_bin_comm o n x y target m : (o = BAdd \/ o = BMul) -> numeric m x -> numeric m y ->
  eval_bin pbits obj_hash as_string trap o n x y target m = eval_bin pbits obj_hash as_string trap o n y x target m.
Proof.
  intros [-> | ->] NX NY; unfold eval_bin; cbv zeta; [rewrite !add_arith by auto|]; apply arith_comm; auto.
Qed.
Lemma leads_agree P sp m m' x : agree sp m m' -> closed sp m -> live sp x -> leads P m x -> leads P m' x.
Proof.
  intros A C L H. induction H as [l H|l r E H IH].
  - apply leads_here. now rewrite <- (ag_mv _ _ _ A).
  - apply (leads_ref _ _ l r); [now rewrite <- (ag_mv _ _ _ A)|]. apply IH. pose proof (C l L) as W. rewrite E in W. exact W.
Qed.
Lemma fit_var2_swap a b o : o = BAdd \/ o = BMul -> fits [ILoad SG a; ILoad SL b; IBin o] [IBin2 o SL SG b a].
Proof.
  intros O s t H. apply bin_two in H. destruct H as [C [L0 [L1 [P [C2 [T [NI [n [m1 [LE [E SM]]]]]]]]]]].
  assert (NN : numeric (vmem s) (LStack (vfb s + b)) /\ numeric (vmem s) (LGlobal a)).
  { destruct T as [_ T]. unfold top1, top2 in T. cbn [vmem upd vsp vloc] in T. rewrite sub_S1, sub_SS, mem2_top, mem2_second in T.
    assert (N2 : numeric (mem2 s (LGlobal a) (LStack (vfb s + b))) (LStack (vfb s + b)) /\ numeric (mem2 s (LGlobal a) (LStack (vfb s + b))) (LGlobal a)).
    { destruct O as [-> | ->]; apply (T (vfb s + b)%nat a); reflexivity. }
    pose proof (mem2_rm s (LGlobal a) (LStack (vfb s + b)) (proj1 C)) as [A [Cl _]].
    split; eapply leads_agree; try apply N2; eauto. }
  cbn [vloc] in E. rewrite (eval_bin_comm o) in E by tauto.
  eexists. split; [|exact SM]. apply runs_one; [exact C|exact I| |eapply same_calm; eauto].
  exists n. split; [lia|]. cbn [VmModel.exec]. cbn [vsp upd vmem vfb vloc]. rewrite E. cbn [bind].
  change (upd (upd s (vmem s) (vsp s)) m1 (S (vsp s))) with (upd s m1 (S (vsp s))). rewrite checked_run_ok by exact P.
  destruct O as [-> | ->]; reflexivity.
Qed.

(* ---- results that are dropped ---- *)
Lemma runs2 i j s t : runs [i; j] s t -> exists u, calm s /\ tame i s u /\ does i s (Run u) /\ calm u /\ tame j u t /\ does j u (Run t) /\ calm t.
Proof.
  intros H. apply runs_inv in H. destruct H as [u [C [T [D H]]]]. apply runs_inv in H. destruct H as [w [C1 [T1 [D1 H]]]].
  apply runs_nil_inv in H. destruct H as [-> C2]. exists u. auto 8.
Qed.
Lemma fit_lib_pop args h : fits [ILib false args h; IPop] [ILib true args h].
Proof.
  intros s t H. apply runs2 in H. destruct H as [u [C [_ [D [C1 [_ [D1 C2]]]]]]]. apply do_pop in D1. destruct D1 as [-> N1].
  destruct D as [fuel [LE E]]. cbn [VmModel.exec] in E. destruct (lib_fn h) as [f|] eqn:F; [|discriminate].
  apply need_inv in E. destruct E as [N E]. cbn [vsp upd vmem] in *. apply bind_inv in E. destruct E as [[m1 e] [E1 E2]].
  assert (A : agree (vsp s) (wr (vmem s) (LStack (vsp s)) (VInt 0)) (vmem s)) by (apply agree_wr_dead; [cbn; lia|apply agree_refl]).
  pose proof (LL h f F (vsp s) args (vsp s) _ _ (le_n _) A (closed_agree _ _ _ (agree_sym _ _ _ A) (proj1 C))) as R.
  destruct (rel_ok _ _ _ _ R E1) as [[m2 e'] [E3 [A2 Q]]]. cbn in A2, Q. subst e'.
  destruct e; [discriminate|]. injection E2 as E2. apply checked_run_inv in E2. destruct E2 as [-> P].
  assert (SM : same (upd (copy_down (upd s (vmem s) (vsp s)) m1 args) (vmem (copy_down (upd s (vmem s) (vsp s)) m1 args)) (vsp (copy_down (upd s (vmem s) (vsp s)) m1 args) - 1)) (upd s m2 (vsp s - args))).
  { unfold copy_down. cbn [vsp upd]. destruct (args =? 0)%nat eqn:Z0; cbn [vsp upd vmem].
    - apply Nat.eqb_eq in Z0. subst args. rewrite sub_S1, Nat.sub_0_r. constructor; cbn; auto.
    - apply Nat.eqb_neq in Z0. replace (S (vsp s) - args - 1)%nat with (vsp s - args)%nat by lia. constructor; cbn; auto.
      apply agree_wr_dead; [cbn; lia|]. eapply agree_mono; [|exact A2]. lia. }
  eexists. split; [|exact SM]. apply runs_one; [exact C|exact I| |eapply same_calm; [exact SM|exact C2]].
  exists fuel. split; [lia|]. cbn [VmModel.exec]. rewrite F. rewrite need_ok by exact N. cbn [vsp upd vmem]. rewrite E3. cbn [bind]. reflexivity.
Qed.
(* an instruction that has a form that pops *)
Lemma fit_pop i j : (forall s t, does i s (Run t) -> (1 <= vsp t)%nat -> does j s (Run (upd t (vmem t) (vsp t - 1)))) ->
  (forall s t, tame j s t) -> fits [i; IPop] [j].
Proof.
  intros H TJ s t R. apply runs2 in R. destruct R as [u [C [_ [D [C1 [_ [D1 C2]]]]]]]. apply do_pop in D1. destruct D1 as [-> N1].
  eexists. split; [|apply same_refl]. apply runs_one; auto.
Qed.
Lemma sub_2 n : (n - 1 - 1 = n - 2)%nat. Proof. lia. Qed.
Lemma fit_assign_pop : fits [IAssign; IPop] [IAssignPop].
Proof.
  apply fit_pop; [|intros; exact I]. intros s t [fuel [LE E]] N1. exists fuel. split; [lia|]. cbn [VmModel.exec] in E |- *. apply need_inv in E. destruct E as [N E].
  rewrite need_ok by exact N. apply bind_inv in E. destruct E as [m1 [E1 E2]]. rewrite E1. cbn [bind]. unfold trapped in *. cbn [vmem upd] in *.
  destruct (trap && _); [discriminate|]. injection E2 as <-. cbn [vsp upd vmem]. now rewrite sub_2.
Qed.
Lemma fit_compound_pop b : fits [ICompound b; IPop] [ICompoundPop b].
Proof.
  apply fit_pop; [|intros; exact I]. intros s t [fuel [LE E]] N1. exists fuel. split; [lia|]. cbn [VmModel.exec] in E |- *. apply need_inv in E. destruct E as [N E].
  rewrite need_ok by exact N. apply bind_inv in E. destruct E as [m1 [E1 E2]]. rewrite E1. cbn [bind]. unfold trapped in *. cbn [vmem upd] in *.
  destruct (trap && _); [discriminate|]. injection E2 as <-. cbn [vsp upd vmem]. now rewrite sub_2.
Qed.
Lemma fit_pre_pop d : fits [IPre d; IPop] [IPrePop d].
Proof.
  apply fit_pop; [|intros; exact I]. intros s t [fuel [LE E]] N1. exists fuel. split; [lia|]. cbn [VmModel.exec] in E |- *. apply need_inv in E. destruct E as [N E].
  rewrite need_ok by exact N. apply bind_inv in E. destruct E as [m1 [E1 E2]]. rewrite E1. cbn [bind]. injection E2 as <-. reflexivity.
Qed.

Lemma live_S sp l : live sp l -> live (S sp) l.
Proof. intros. eapply live_mono; [|eauto]. lia. Qed.
Lemma dead_top sp : ~ live sp (LStack sp). Proof. cbn. lia. Qed.
Lemma dead_next sp : ~ live sp (LStack (S sp)). Proof. cbn. lia. Qed.
(* the memory with one more value on the stack *)
Lemma push_rm s v : closed (vsp s) (vmem s) ->
  rmz (wr (vmem s) (LStack (vsp s)) v) (vmem s) (vsp s) (wr (vmem s) (LStack (vsp s)) v) (vmem s).
Proof.
  intros C. assert (A : agree (vsp s) (wr (vmem s) (LStack (vsp s)) v) (vmem s)) by (apply agree_wr_dead; [apply dead_top|apply agree_refl]).
  split; [exact A|split; [eapply closed_agree; [apply agree_sym; exact A|exact C]|auto]].
Qed.
Lemma fit_inc_pre d q n : fits [ILoad q n; IPre d; IPop] [IIncVar d q n].
Proof.
  intros s t H. apply runs_inv in H. destruct H as [u [C [T [D H]]]]. apply do_load in D. destruct D as [-> P].
  apply runs2 in H. destruct H as [w [C1 [_ [[fuel [LE E]] [C2 [_ [D2 C3]]]]]]]. apply do_pop in D2. destruct D2 as [-> N].
  pose proof (load_live _ _ _ _ C T) as L. set (x := vloc (vfb s) q n) in *.
  cbn [VmModel.exec] in E. apply need_inv in E. destruct E as [_ E]. apply bind_inv in E. destruct E as [m2 [E E2]].
  injection E2 as <-. cbn [vsp upd vmem] in *. rewrite sub_S1 in *. unfold eval_pre in E. rewrite wr_eq in E. cbn [type_of] in E.
  destruct fuel as [|fuel]; [discriminate|]. cbn [unary_pre] in E. rewrite wr_eq in E. apply bind_inv in E. destruct E as [m3 [E E2]]. injection E2 as <-.
  assert (X : mv (wr (vmem s) (LStack (vsp s)) (VRef x)) x = mv (vmem s) x) by (apply wr_ne; intros Q; rewrite Q in L; now apply dead_top in L).
  rewrite X in E. pose proof (push_rm s (VRef x) (proj1 C)) as R.
  destruct (rel_ok _ _ _ _ (unary_pre_local pbits obj_hash _ _ OH (vsp s) d fuel (type_of (mv (vmem s) x)) x _ _ L R) E) as [m4 [E4 R4]].
  assert (SM : same (upd s (wr m3 (LStack (vsp s)) (mv m3 x)) (vsp s)) (upd s m4 (vsp s))).
  { apply same_of. apply agree_wr_dead; [apply dead_top|exact (proj1 R4)]. }
  eexists. split; [|exact SM]. apply runs_one; [exact C|exact I| |eapply same_calm; [exact SM|exact C3]].
  exists fuel. split; [lia|]. cbn [VmModel.exec]. cbn [vmem vsp upd vfb]. fold x. unfold eval_pre. cbn [vmem vfb upd]. fold x. rewrite E4. reflexivity.
Qed.
Lemma fit_inc_post d q n : fits [ILoad q n; IPost d; IPop] [IIncVar d q n].
Proof.
  intros s t H. apply runs_inv in H. destruct H as [u [C [T [D H]]]]. apply do_load in D. destruct D as [-> P].
  apply runs2 in H. destruct H as [w [C1 [T1 [[fuel [LE E]] [C2 [_ [D2 C3]]]]]]]. apply do_pop in D2. destruct D2 as [-> N].
  pose proof (load_live _ _ _ _ C T) as L. set (x := vloc (vfb s) q n) in *.
  cbn [VmModel.exec] in E. apply need_inv in E. destruct E as [_ E]. apply bind_inv in E. destruct E as [m2 [E E2]].
  injection E2 as <-. unfold FuseSpec.tame, top1 in T1. cbn [vsp upd vmem] in *. rewrite sub_S1 in *. unfold eval_post in E. rewrite wr_eq in E, T1. cbn [type_of] in E.
  assert (X : mv (wr (vmem s) (LStack (vsp s)) (VRef x)) x = mv (vmem s) x) by (apply wr_ne; intros Q; rewrite Q in L; now apply dead_top in L).
  destruct T1 as [T1|[y [Q T1]]]; [discriminate|]. injection Q as <-. rewrite X in T1.
  destruct fuel as [|fuel]; [discriminate|]. cbn [unary_post] in E. rewrite wr_eq, X in E.
  destruct fuel as [|fuel]; [discriminate|]. cbn [unary_post] in E. rewrite X in E.
  assert (E' : (v <- of_opt (incr d (mv (vmem s) x)) ;; Ok (wr (wr (wr (vmem s) (LStack (vsp s)) (VRef x)) x v) (LStack (vsp s)) (mv (vmem s) x))) = Ok m2).
  { destruct (num_type _ T1) as [Q|Q]; rewrite Q in E; exact E. }
  clear E. apply bind_inv in E'. destruct E' as [v [E E2]]. injection E2 as <-.
  assert (SM : same (upd s (wr (wr (wr (vmem s) (LStack (vsp s)) (VRef x)) x v) (LStack (vsp s)) (mv (vmem s) x)) (vsp s)) (upd s (wr (vmem s) x v) (vsp s))).
  { apply same_of. apply agree_wr_dead; [apply dead_top|]. apply agree_wr. apply agree_wr_dead; [apply dead_top|apply agree_refl]. }
  eexists. split; [|exact SM]. apply runs_one; [exact C|exact I| |eapply same_calm; [exact SM|exact C3]].
  exists 1%nat. split; [lia|]. cbn [VmModel.exec]. unfold eval_pre. cbn [vmem vfb upd]. fold x. cbn [unary_pre].
  destruct (num_type _ T1) as [Q|Q]; rewrite Q, E; reflexivity.
Qed.
Lemma fit_post_pop d : fits [IPost d; IPop] [IPrePop d].
Proof.
  intros s t H. apply runs2 in H. destruct H as [w [C [T1 [[fuel [LE E]] [C2 [_ [D2 C3]]]]]]]. apply do_pop in D2. destruct D2 as [-> N].
  cbn [VmModel.exec] in E. apply need_inv in E. destruct E as [N1 E]. apply bind_inv in E. destruct E as [m2 [E E2]]. injection E2 as <-.
  unfold FuseSpec.tame, top1 in T1. cbn [vsp upd vmem] in *. unfold eval_post in E. set (p := LStack (vsp s - 1)) in *.
  assert (DP : ~ live (vsp s - 1) p) by (cbn; lia).
  assert (Z : exists k m3, (k <= depth)%nat /\ eval_pre pbits obj_hash d k p (vmem s) = Ok m3 /\ agree (vsp s - 1) m2 m3).
  { unfold eval_pre. destruct T1 as [T1|[x [Q T1]]].
    - destruct fuel as [|fuel]; [discriminate|]. cbn [unary_post unary_pre] in *.
      assert (E' : (v <- of_opt (incr d (mv (vmem s) p)) ;; Ok (wr (wr (vmem s) p v) p (mv (vmem s) p))) = Ok m2).
      { destruct (num_type _ T1) as [Q|Q]; rewrite Q in E; exact E. }
      apply bind_inv in E'. destruct E' as [v [E1 E2]]. injection E2 as <-. exists 1%nat, (wr (vmem s) p v). split; [lia|]. cbn [unary_pre]. split.
      + destruct (num_type _ T1) as [Q|Q]; rewrite Q, E1; reflexivity.
      + apply agree_wr_dead; [exact DP|apply agree_refl].
    - destruct fuel as [|fuel]; [discriminate|]. rewrite Q in *. cbn [type_of] in *. cbn [unary_post unary_pre] in *. rewrite Q in *.
      destruct fuel as [|fuel]; [discriminate|]. cbn [unary_post unary_pre] in *.
      assert (E' : (v <- of_opt (incr d (mv (vmem s) x)) ;; Ok (wr (wr (vmem s) x v) p (mv (vmem s) x))) = Ok m2).
      { destruct (num_type _ T1) as [Q1|Q1]; rewrite Q1 in E; exact E. }
      apply bind_inv in E'. destruct E' as [v [E1 E2]]. injection E2 as <-. exists 2%nat, (wr (wr (vmem s) x v) p v). split; [lia|]. cbn [unary_pre]. rewrite ?Q. cbn [type_of unary_pre]. split.
      + destruct (num_type _ T1) as [Q1|Q1]; rewrite Q1, E1; cbn [bind]; rewrite wr_eq; reflexivity.
      + apply agree_wr_dead; [exact DP|]. apply agree_sym. apply agree_wr_dead; [exact DP|]. apply agree_refl. }
  destruct Z as [k [m3 [LK [E3 A]]]].
  assert (SM : same (upd s m2 (vsp s - 1)) (upd s m3 (vsp s - 1))) by now apply same_of.
  eexists. split; [|exact SM]. apply runs_one; [exact C|exact I| |eapply same_calm; [exact SM|exact C3]].
  exists k. split; [lia|]. cbn [VmModel.exec]. rewrite need_ok by exact N1. cbn [vsp vmem upd]. fold p. rewrite E3. reflexivity.
Qed.

(* ---- assignments ---- *)
(* a value that is neither a reference nor a member is stored in a variable that is neither *)
Definition flat (v : value) : Prop := match v with VRef _ | VMem _ _ | VHMem _ _ => False | _ => True end.
Lemma flat_deref n l m d m1 : flat (mv m l) -> deref pbits n l m = Ok (d, m1) -> d = l /\ m1 = m.
Proof.
  intros F. destruct n; [discriminate|]. cbn [deref]. destruct (mv m l); cbn in F; try tauto; intros H; injection H; auto.
Qed.
Lemma flat_assign n x p m m1 : flat (mv m x) -> flat (mv m p) ->
  wr_assign pbits n (type_of (mv m x)) (type_of (mv m p)) x p m = Ok m1 -> m1 = wr m x (mv m p).
Proof.
  intros FX FP. destruct n; [discriminate|]. cbn [wr_assign].
  assert (NR : forall v, flat v -> type_of v <> TR) by (intros []; cbn; intros; try discriminate; tauto).
  assert (NM : is_member (mv m x) = false) by (destruct (mv m x); cbn in *; tauto).
  assert (DD : forall (k : loc -> mem -> res mem) r, (' (d, m2) <- deref pbits n p m ;; k d m2) = Ok r -> k p m = Ok r).
  { intros k r H. apply bind_inv in H. destruct H as [[d m2] [D H]]. apply flat_deref in D; auto. destruct D as [-> ->]. exact H. }
  destruct (type_of (mv m x)) eqn:TX, (type_of (mv m p)) eqn:TP; try (exfalso; now eapply NR; [|eassumption]; auto); intros H;
  first [injection H as <-; reflexivity | apply DD in H; try rewrite NM in H; injection H as <-; reflexivity].
Qed.

Lemma assign_peel n l r x m : mv m l = VRef x -> type_of (mv m r) <> TR ->
  wr_assign pbits (S n) (type_of (mv m l)) (type_of (mv m r)) l r m = wr_assign pbits n (type_of (mv m x)) (type_of (mv m r)) x r m.
Proof. intros E N. rewrite E. cbn [type_of wr_assign]. rewrite E. destruct (type_of (mv m r)); congruence. Qed.
Lemma num_flat v : is_num v = true -> flat v.
Proof. destruct v; cbn; tauto || discriminate. Qed.
Lemma flat_not_ref v : flat v -> type_of v <> TR.
Proof. destruct v; cbn; try discriminate; tauto. Qed.
Lemma flat_of v : match v with VRef _ | VMem _ _ | VHMem _ _ => False | _ => True end -> flat v.
Proof. auto. Qed.
(* x = e; for a flat value in the slot below the reference, x being flat *)
Lemma do_assign_flat s t x v : mv (vmem s) (top1 s) = VRef x -> mv (vmem s) (top2 s) = v -> flat v -> flat (mv (vmem s) x) ->
  does IAssign s (Run t) -> t = upd s (wr (vmem s) x v) (vsp s - 1) /\ (2 <= vsp s)%nat.
Proof.
  intros Q1 Q2 F FX [fuel [LE E]]. cbn [VmModel.exec] in E. apply need_inv in E. destruct E as [N E]. apply bind_inv in E. destruct E as [m2 [E E2]].
  unfold trapped in E2. destruct (trap && _); [discriminate|]. injection E2 as <-. cbn [vsp upd vmem] in *. unfold top1, top2 in *.
  destruct fuel as [|fuel]; [discriminate|]. rewrite (assign_peel fuel _ _ x) in E; [|exact Q1|rewrite Q2; now apply flat_not_ref].
  apply flat_assign in E; [|exact FX|now rewrite Q2]. rewrite Q2 in E. subst m2. auto.
Qed.
Lemma fit_lit_to v c q n : is_num v = true -> fits [ILit v c; ILoad q n; IAssign; IPop] [ILitTo q n v].
Proof.
  intros V s t H. apply runs_inv in H. destruct H as [u [C [_ [D H]]]]. apply do_lit in D. destruct D as [-> P0].
  apply runs_inv in H. destruct H as [u [C1 [T1 [D H]]]]. apply do_load in D. destruct D as [-> P1].
  apply runs2 in H. destruct H as [u [C2 [T2 [D2 [C3 [_ [D3 C4]]]]]]]. apply do_pop in D3. destruct D3 as [-> N3].
  assert (L : live (vsp s) (vloc (vfb s) q n)). { cbn in T1. destruct C as [_ C]. destruct q; cbn in *; [exact I|lia]. }
  cbn [vsp upd vmem vfb] in *. set (x := vloc (vfb s) q n) in *.
  set (m2 := wr (wr (vmem s) (LStack (vsp s)) v) (LStack (S (vsp s))) (VRef x)) in *.
  assert (X : mv m2 x = mv (vmem s) x).
  { unfold m2. rewrite !wr_ne; auto; intros Q; rewrite Q in L; [now apply dead_top in L|now apply dead_next in L]. }
  unfold FuseSpec.tame, top1, top2 in T2. cbn [vsp vmem upd] in T2. rewrite sub_S1, sub_SS in T2.
  assert (Q1 : mv m2 (LStack (S (vsp s))) = VRef x) by apply wr_eq.
  assert (Q2 : mv m2 (LStack (vsp s)) = v). { unfold m2. rewrite wr_ne by (intros K; inversion K; lia). apply wr_eq. }
  specialize (T2 x Q1). rewrite Q2 in T2.
  assert (F : flat (mv m2 x)). { destruct (mv m2 x); cbn; auto; destruct T2 as [y [Y _]]; subst v; discriminate. }
  apply (do_assign_flat _ _ x v) in D2; [|unfold top1; cbn [vsp upd vmem]; now rewrite sub_S1|unfold top2; cbn [vsp upd vmem]; now rewrite sub_SS|now apply num_flat|exact F].
  destruct D2 as [-> _]. cbn [vsp upd vmem] in *.
  assert (SM : same (upd s (wr m2 x v) (vsp s)) (upd s (wr (vmem s) x v) (vsp s))).
  { apply same_of, agree_wr. unfold m2. apply agree_wr_dead; [apply dead_next|]. apply agree_wr_dead; [apply dead_top|apply agree_refl]. }
  replace (S (S (vsp s)) - 1 - 1)%nat with (vsp s) in * by lia.
  eexists. split; [|exact SM]. apply runs_one; [exact C|exact I| |eapply same_calm; [exact SM|exact C4]].
  exists O. split; [lia|reflexivity].
Qed.
Lemma fit_assign_to q n : fits [ILoad q n; IAssign; IPop] [IAssignTo q n].
Proof.
  intros s t H. apply runs_inv in H. destruct H as [u [C [T [D H]]]]. apply do_load in D. destruct D as [-> P1].
  apply runs2 in H. destruct H as [u [C2 [T2 [[fuel [LE E]] [C3 [_ [D3 C4]]]]]]]. apply do_pop in D3. destruct D3 as [-> N3].
  pose proof (load_live _ _ _ _ C T) as L. set (x := vloc (vfb s) q n) in *.
  cbn [VmModel.exec] in E. apply need_inv in E. destruct E as [N E]. apply bind_inv in E. destruct E as [m2 [E E2]].
  unfold trapped in E2. destruct (trap && _); [discriminate|]. injection E2 as <-.
  unfold FuseSpec.tame, top1, top2 in T2. cbn [vsp upd vmem vfb] in *. replace (S (vsp s) - 2)%nat with (vsp s - 1)%nat in * by lia.
  rewrite sub_S1 in *. set (p := LStack (vsp s - 1)) in *. set (m1 := wr (vmem s) (LStack (vsp s)) (VRef x)) in *.
  assert (LP : live (vsp s) p) by (cbn; lia).
  assert (Q1 : mv m1 (LStack (vsp s)) = VRef x) by apply wr_eq. rewrite Q1 in *.
  pose proof (push_rm s (VRef x) (proj1 C)) as R. fold m1 in R.
  assert (X : forall l, live (vsp s) l -> mv m1 l = mv (vmem s) l) by (intros; symmetry; eapply rm_mv; eauto).
  assert (Z : exists k m3, (k <= depth)%nat /\ wr_assign pbits k (type_of (mv (vmem s) x)) (type_of (mv (vmem s) p)) x p (vmem s) = Ok m3 /\ agree (vsp s) m2 m3).
  { destruct fuel as [|fuel]; [discriminate|]. specialize (T2 x eq_refl). rewrite !X in T2 by auto.
    destruct (type_of (mv (vmem s) p)) eqn:TP.
    1,2,4: (rewrite <- Q1 in E; rewrite (assign_peel fuel _ _ x) in E by (rewrite ?X by auto; rewrite ?TP; congruence);
      rewrite !X in E by auto;
      destruct (rel_ok _ _ _ _ (wr_assign_local pbits _ _ (vsp s) fuel (type_of (mv (vmem s) x)) (type_of (mv (vmem s) p)) x p _ _ L LP R) E) as [m3 [E3 R3]];
      exists fuel, m3; split; [lia|]; rewrite TP in E3; split; [exact E3|exact (proj1 R3)]).
    (* a variable is assigned *)
    destruct (mv (vmem s) p) as [| |y| | | | | | | |] eqn:VP; try discriminate.
    assert (LY : live (vsp s) y). { pose proof (proj1 C p LP) as K. rewrite VP in K. exact K. }
    rewrite X, VP in E by auto. cbn [type_of wr_assign] in E. rewrite Q1, X, VP in E by auto. rewrite !X in E by auto.
    destruct (type_of (mv (vmem s) x)) eqn:TX.
    1,2,4: (destruct (rel_ok _ _ _ _ (wr_assign_local pbits _ _ (vsp s) fuel _ (type_of (mv (vmem s) y)) x y _ _ L LY R) E) as [m3 [E3 R3]];
      exists (S fuel), m3; split; [lia|]; cbn [wr_assign type_of]; rewrite VP; split; [exact E3|exact (proj1 R3)]).
    destruct (mv (vmem s) x) as [| |r| | | | | | | |] eqn:VX; try discriminate. destruct T2 as [y' [Y NY]]. injection Y as <-. rewrite X in NY by auto.
    assert (LR : live (vsp s) r). { pose proof (proj1 C x L) as K. rewrite VX in K. exact K. }
    destruct fuel as [|fuel]; [discriminate|].
    assert (E' : wr_assign pbits fuel (type_of (mv (vmem s) r)) (type_of (mv (vmem s) y)) r y m1 = Ok m2).
    { cbn [wr_assign] in E. rewrite X, VX in E by auto. rewrite X in E by auto. destruct (type_of (mv (vmem s) y)); try congruence. }
    destruct (rel_ok _ _ _ _ (wr_assign_local pbits _ _ (vsp s) fuel _ (type_of (mv (vmem s) y)) r y _ _ LR LY R) E') as [m3 [E3 R3]].
    exists (S fuel), m3. split; [lia|]. cbn [wr_assign type_of]. rewrite VX, VP. split; [exact E3|exact (proj1 R3)]. }
  destruct Z as [k [m3 [LK [E3 A]]]]. rewrite Nat.sub_0_r in *.
  assert (SM : same (upd s m2 (vsp s - 1)) (upd s m3 (vsp s - 1))). { apply same_of. eapply agree_mono; [|exact A]. lia. }
  eexists. split; [|exact SM]. apply runs_one; [exact C|exact I| |eapply same_calm; [exact SM|exact C4]].
  exists k. split; [lia|]. cbn [VmModel.exec]. rewrite need_ok by (cbn; lia). cbn [vsp vmem upd vfb]. fold x p. rewrite E3. reflexivity.
Qed.

(* the result of + - * / does not depend on where it goes *)
Definition keeps (m m' : mem) : Prop := forall k, mv m' (LStack k) = mv m (LStack k).
Lemma keeps_refl m : keeps m m. Proof. intros k. reflexivity. Qed.
Lemma keeps_trans a b c : keeps a b -> keeps b c -> keeps a c.
Proof. intros H K k. now rewrite K. Qed.
Lemma keeps_wr m l v : match l with LStack _ => False | _ => True end -> keeps m (wr m l v).
Proof. intros H k. apply wr_ne. intros <-. exact H. Qed.
Lemma deref_keeps fuel l m d m1 : deref pbits fuel l m = Ok (d, m1) -> keeps m m1.
Proof. intros E. apply deref_frame in E. destruct E as [E _]. intros k. now apply E. Qed.
Lemma get_hash_keeps : forall fuel l m h m1, get_hash pbits obj_hash fuel l m = Ok (h, m1) -> keeps m m1.
Proof.
  induction fuel; intros l m h m1 E; cbn [get_hash] in E; [discriminate|].
  destruct (mv m l); try (injection E as <- <-; apply keeps_refl); eauto.
  all: first [ apply bind_inv in E; destruct E as [[d m2] [D E]]; eapply keeps_trans; [eapply deref_keeps; eauto|eauto; fail]
             | destruct (mo m _) as [[]|]; try discriminate; injection E as <- <-; apply keeps_refl ].
Qed.
Lemma single_keeps fuel l m m1 : single_value pbits obj_hash fuel l m = Ok m1 -> keeps m m1.
Proof.
  unfold single_value. intros E. apply bind_inv in E. destruct E as [[d m2] [D E]]. apply deref_keeps in D. cbv zeta in E.
  assert (K : keeps m (wr m2 LTemp1 (mv m2 d))) by (eapply keeps_trans; [exact D|now apply keeps_wr]).
  destruct (type_of _); try (injection E as <-; exact K).
  all: apply bind_inv in E; destruct E as [[h m3] [G E]]; injection E as <-; apply get_hash_keeps in G;
    eapply keeps_trans; [exact K|]; eapply keeps_trans; [exact G|now apply keeps_wr].
Qed.
Definition plainv (v : value) : Prop := flat v.
Definition stored (ev : loc -> res mem) : Prop := exists m0 v, flat v /\ forall tgt, ev tgt = Ok (wr m0 tgt v).
Lemma leaf_flat o t f a b v : leaf trap o t f a b = Some v -> flat v.
Proof.
  unfold leaf. destruct t, f; repeat (match goal with |- context[if ?b then _ else _] => destruct b end); try (intros H; injection H as <-; exact I);
  destruct (a_ii o a b); cbn; intros H; try discriminate; injection H as <-; exact I.
Qed.
Lemma arith_stored o : forall fuel t f to from tgt m m1, arith_binary pbits obj_hash trap o fuel t f to from tgt m = Ok m1 ->
  stored (fun g => arith_binary pbits obj_hash trap o fuel t f to from g m).
Proof.
  induction fuel; intros t f to from tgt m m1 E; cbn [arith_binary] in E |- *; [discriminate|].
  assert (LF : forall a b, (v <- of_opt (leaf trap o t f a b) ;; Ok (wr m tgt v)) = Ok m1 ->
     stored (fun g => v <- of_opt (leaf trap o t f a b) ;; Ok (wr m g v))).
  { intros a b H. destruct (leaf trap o t f a b) as [v|] eqn:Q; [|discriminate]. exists m, v. split; [now apply leaf_flat in Q|reflexivity]. }
  assert (SV : forall l (k : loc -> mem -> res mem), (m2 <- single_value pbits obj_hash fuel l m ;; k tgt m2) = Ok m1 ->
     (forall m2, k tgt m2 = Ok m1 -> stored (fun g => k g m2)) -> stored (fun g => m2 <- single_value pbits obj_hash fuel l m ;; k g m2)).
  { intros l k H K. apply bind_inv in H. destruct H as [m2 [H1 H2]]. rewrite H1. cbn [bind]. now apply K. }
  destruct t, f; eauto;
  try (destruct (mv m to); try discriminate; destruct (mv m from); try discriminate; eauto; fail);
  try (destruct (mv m to); try discriminate; eauto; fail);
  try (destruct (mv m from); try discriminate; eauto; fail).
  apply bind_inv in E. destruct E as [m2 [H1 E]]. rewrite H1. cbn [bind]. cbv zeta in *.
    apply bind_inv in E. destruct E as [m3 [H2 E]]. rewrite H2. cbn [bind]. eauto.
Qed.

Definition untouched (m : mem) (f : vtype) (ev : loc -> res mem) : Prop :=
  f <> TI /\ f <> TF /\ exists m0, keeps m m0 /\ forall tgt, ev tgt = Ok m0.
Lemma concat_stored m to from g m1 : concat_check as_string m to from g = Some m1 ->
  exists m0 v, flat v /\ forall tgt, concat_check as_string m to from tgt = Some (wr m0 tgt v).
Proof.
  unfold concat_check, new_string. intros H.
  destruct (char_array m (mv m to)) as [[tb [|]]|], (char_array m (mv m from)) as [[fb [|]]|]; try discriminate;
  eexists _, _; (split; [|intros; reflexivity]); exact I.
Qed.
Lemma concat_none m to from g g' : concat_check as_string m to from g = None -> concat_check as_string m to from g' = None.
Proof.
  unfold concat_check. destruct (char_array m (mv m to)) as [[tb [|]]|], (char_array m (mv m from)) as [[fb [|]]|]; congruence.
Qed.
Lemma add_stored : forall fuel t f to from tgt m m1, add_binary pbits obj_hash as_string trap fuel t f to from tgt m = Ok m1 ->
  stored (fun g => add_binary pbits obj_hash as_string trap fuel t f to from g m) \/
  untouched m f (fun g => add_binary pbits obj_hash as_string trap fuel t f to from g m).
Proof.
  induction fuel; intros t f to from tgt m m1 E; cbn [add_binary] in E |- *; [discriminate|].
  assert (LF : forall a b, (v <- of_opt (leaf trap add_op t f a b) ;; Ok (wr m tgt v)) = Ok m1 ->
     stored (fun g => v <- of_opt (leaf trap add_op t f a b) ;; Ok (wr m g v))).
  { intros a b H. destruct (leaf trap add_op t f a b) as [v|] eqn:Q; [|discriminate]. exists m, v. split; [now apply leaf_flat in Q|reflexivity]. }
  assert (UM : forall f f' m' ev, keeps m m' -> untouched m' f' ev -> (f' = f \/ f <> TI /\ f <> TF) -> untouched m f ev).
  { intros f0 f' m' ev K [U1 [U2 [m0 [K0 U3]]]] [<-|[N1 N2]]; (split; [auto|split; [auto|]]); exists m0; (split; [eapply keeps_trans; eauto|auto]). }
  assert (CC : forall (k : loc -> res mem), (match concat_check as_string m to from tgt with Some m' => Ok m' | None => k tgt end) = Ok m1 ->
     (k tgt = Ok m1 -> stored k \/ untouched m f k) ->
     stored (fun g => match concat_check as_string m to from g with Some m' => Ok m' | None => k g end) \/
     untouched m f (fun g => match concat_check as_string m to from g with Some m' => Ok m' | None => k g end)).
  { intros k H K. destruct (concat_check as_string m to from tgt) as [m'|] eqn:Q.
    - left. apply concat_stored in Q. destruct Q as [m0 [v [F Q]]]. exists m0, v. split; auto. intros g. now rewrite Q.
    - destruct (K H) as [[m0 [v [F K1]]]|[U1 [U2 [m0 [K1 K2]]]]].
      + left. exists m0, v. split; auto. intros g. rewrite (concat_none _ _ _ _ g Q). auto.
      + right. split; [auto|split; [auto|]]. exists m0. split; auto. intros g. rewrite (concat_none _ _ _ _ g Q). auto. }
  assert (SV : forall l (k : loc -> mem -> res mem), (m2 <- single_value pbits obj_hash fuel l m ;; k tgt m2) = Ok m1 ->
     (forall m2, keeps m m2 -> k tgt m2 = Ok m1 -> stored (fun g => k g m2) \/ untouched m f (fun g => k g m2)) ->
     stored (fun g => m2 <- single_value pbits obj_hash fuel l m ;; k g m2) \/ untouched m f (fun g => m2 <- single_value pbits obj_hash fuel l m ;; k g m2)).
  { intros l k H K. apply bind_inv in H. destruct H as [m2 [H1 H2]]. rewrite H1. cbn [bind]. apply K; auto. eapply single_keeps; eauto. }
  assert (GO : forall t' f' to' from' m', keeps m m' -> (f' = f \/ f <> TI /\ f <> TF) ->
     add_binary pbits obj_hash as_string trap fuel t' f' to' from' tgt m' = Ok m1 ->
     stored (fun g => add_binary pbits obj_hash as_string trap fuel t' f' to' from' g m') \/
     untouched m f (fun g => add_binary pbits obj_hash as_string trap fuel t' f' to' from' g m')).
  { intros t' f' to' from' m' K FF H. apply IHfuel in H. destruct H as [H|H]; [left; exact H|right; eapply UM; eauto]. }
  assert (NE : f = TE -> f <> TI /\ f <> TF) by (intros ->; split; discriminate).
  assert (NR : f = TR -> f <> TI /\ f <> TF) by (intros ->; split; discriminate).
  pose proof (keeps_refl m) as KR.
  destruct t, f; auto;
  try (destruct (mv m to); try discriminate; destruct (mv m from); try discriminate; auto; fail);
  try (destruct (mv m to); try discriminate; auto; fail);
  try (destruct (mv m from); try discriminate; auto; fail).
  - apply (CC (fun g => m2 <- single_value pbits obj_hash fuel from m ;; add_binary pbits obj_hash as_string trap fuel TI (type_of (mv m2 LTemp1)) to LTemp1 g m2)); auto.
  - destruct (is_member (mv m to) || is_member (mv m from)).
    + apply bind_inv in E. destruct E as [[d m2] [D E]]. rewrite D. cbn [bind]. cbv zeta in *. apply bind_inv in E. destruct E as [[d2 m3] [D2 E]]. rewrite D2. cbn [bind].
      apply GO; auto. apply deref_keeps in D, D2. eapply keeps_trans; [exact D|]. eapply keeps_trans; [|exact D2]. now apply keeps_wr.
    + apply (CC (fun g => Ok m)); auto. intros _. right. split; [discriminate|split; [discriminate|]]. exists m. auto.
Qed.
Lemma do_assign_sp s t : does IAssign s (Run t) -> vsp t = (vsp s - 1)%nat /\ vfb t = vfb s.
Proof.
  intros [fuel [LE E]]. cbn [VmModel.exec] in E. apply need_inv in E. destruct E as [N E]. apply bind_inv in E. destruct E as [m2 [E E2]].
  unfold trapped in E2. destruct (trap && _); [discriminate|]. injection E2 as <-. auto.
Qed.
Lemma fit_bin_store o q n : o = BAdd \/ o = BSub \/ o = BMul \/ o = BDiv ->
  fits [IBin o; ILoad q n; IAssign; IPop] [IBinStore o q n].
Proof.
  intros O s t H. apply runs_inv in H. destruct H as [u [C [T [[fuel [LE E]] H]]]].
  cbn [VmModel.exec] in E. apply need_inv in E. destruct E as [N E]. apply bind_inv in E. destruct E as [m1 [E E2]].
  unfold trapped in E2. cbn [vmem upd vsp] in *. set (p := LStack (vsp s - 2)) in *. set (l := LStack (vsp s - 1)) in *.
  destruct (trap && is_invalid (mv m1 p)) eqn:TV; [discriminate|]. injection E2 as <-.
  assert (ST : stored (fun g => eval_bin pbits obj_hash as_string trap o fuel l p g (vmem s))).
  { unfold eval_bin in *. cbv zeta in *. destruct O as [-> |[-> |[-> | -> ]]]; try (eapply arith_stored; eauto; fail).
    pose proof E as E'. apply add_stored in E'. destruct E' as [E'|[U1 [U2 [m0 [K U3]]]]]; [exact E'|].
    exfalso. rewrite U3 in E. injection E as <-. destruct T as [T _]. unfold top2 in T. cbn [vmem upd] in T. fold p in T.
    unfold p in T. rewrite K in T. fold p in T. destruct T as [T|T]; [|congruence]. apply num_type in T. tauto. }
  destruct ST as [m0 [v [F ST]]]. pose proof (ST p) as E'. cbv beta in E'. rewrite E in E'. injection E' as ->.
  apply runs_inv in H. destruct H as [u [C1 [T1 [D H]]]]. apply do_load in D. destruct D as [-> P1].
  apply runs2 in H. destruct H as [u [C2 [T2 [D2 [C3 [_ [D3 C4]]]]]]]. apply do_pop in D3. destruct D3 as [-> N3].
  pose proof (load_live _ _ _ _ C1 T1) as L. cbn [vsp upd vmem vfb] in *. set (x := vloc (vfb s) q n) in *.
  replace (S (vsp s - 1)) with (vsp s) in * by lia. replace (vsp s - 1 - 1)%nat with (vsp s - 2)%nat in * by lia.
  assert (L2 : live (vsp s - 2) x). { destruct q; [exact I|]. apply do_assign_sp in D2. cbn [vsp upd] in D2. destruct C4 as [_ C4].
    cbn [vsp vfb upd] in C4. destruct D2 as [D2 D2']. rewrite D2, D2' in C4. cbn [vfb upd] in C4. cbn in T1 |- *. unfold x. cbn. lia. }
  fold l in T2, D2, C2. set (m2 := wr (wr m0 p v) l (VRef x)) in *.
  assert (XL : x <> l) by (intros Q; rewrite Q in L2; cbn in L2; lia).
  assert (XP : x <> p) by (intros Q; rewrite Q in L2; cbn in L2; lia).
  assert (PL : p <> l) by (intros Q; injection Q; lia).
  assert (Q1 : mv m2 l = VRef x) by apply wr_eq.
  assert (Q2 : mv m2 p = v). { unfold m2. rewrite wr_ne by exact PL. apply wr_eq. }
  unfold FuseSpec.tame, top1, top2 in T2. cbn [vsp vmem upd] in T2. fold l p in T2. specialize (T2 x Q1). rewrite Q2 in T2.
  assert (FX : flat (mv m2 x)). { destruct (mv m2 x); cbn; auto; destruct T2 as [y [Y _]]; subst v; exact F. }
  apply (do_assign_flat _ _ x v) in D2; [|exact Q1|exact Q2|exact F|exact FX]. destruct D2 as [-> _]. cbn [vsp upd vmem vfb] in *.
  assert (SM : same (upd s (wr m2 x v) (vsp s - 2)) (upd s (wr m0 x v) (vsp s - 2))).
  { apply same_of, agree_wr. unfold m2. apply agree_wr_dead; [cbn; lia|]. apply agree_wr_dead; [cbn; lia|apply agree_refl]. }
  replace (vsp s - 1 - 1)%nat with (vsp s - 2)%nat in * by lia.
  eexists. split; [|exact SM]. apply runs_one; [exact C|exact I| |eapply same_calm; [exact SM|exact C4]].
  exists fuel. split; [lia|]. cbn [VmModel.exec]. rewrite need_ok by exact N. cbn [vsp vmem upd vfb]. fold x l p. pose proof (ST x) as E'. cbv beta in E'. rewrite E'. cbn [bind].
  unfold trapped. cbn [vmem upd]. rewrite wr_eq in *. rewrite TV. reflexivity.
Qed.
End Rules.
