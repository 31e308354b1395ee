From Verif Require Import Base BaseLemmas HashTableModel HashTableSpec HashTableProofs.
Ltac Zify.zify_post_hook ::= Z.div_mod_to_equations.

Local Arguments ht_get : simpl never.
Local Arguments ht_set : simpl never.
Local Arguments ht_exists : simpl never.

Section P.
Context {V : Type}.
Variable zero : V.
Notation table := (table V).
Notation lookup := (lookup zero).

Lemma upd_repeat_same {A} (x : A) n i : upd (repeat x n) i x = repeat x n.
Proof. revert i; induction n as [|n IH]; intros [|i]; cbn; auto. f_equal. apply IH. Qed.

Lemma drop_primes_cons start : 0 <= start < 49157 ->
  exists p l, drop_primes prime_table start = p :: l /\ In p prime_table.
Proof.
  intro H. destruct (drop_primes prime_table start) as [|p l] eqn:E.
  - exfalso. unfold prime_table in E. cbn [drop_primes] in E.
    repeat match type of E with (if ?a <=? ?b then _ else _) = _ =>
      destruct (Z.leb_spec a b); [|discriminate] end. lia.
  - exists p, l. split; [reflexivity|]. apply (drop_primes_in _ start). rewrite E. left; reflexivity.
Qed.

Lemma ht_init_spec hint : 0 <= hint < 49157 ->
  exists t, ht_init zero hint = Some t /\ twf t /\ pmod t /\ t_size t = hint /\
  hint < t_mod t /\
  (forall k, k <> NULL_HASH -> lookup t k = None) /\
  (forall j, 0 <= j < t_mod t -> key_at (t_keys t) j = NULL_HASH -> val_at zero (t_vals t) j = zero) /\
  live (t_keys t) = [].
Proof.
  intro Hh. unfold ht_init, growHash. cbn [t_mod t_keys t_vals t_size].
  assert (Hu : u16 hint = hint) by (apply u16_id; unfold is_u16; lia). rewrite Hu.
  set (start := if 0 <? hint then hint else 0).
  assert (Hst : start = hint) by (unfold start; destruct (Z.ltb_spec 0 hint); lia).
  destruct (drop_primes_cons start) as (p & l & Ep & Hp); [lia|]. rewrite Ep.
  cbn [try_primes place_all]. rewrite upd_repeat_same. cbn [move_vals].
  assert (Hpp : 0 < p <= 49157).
  { pose proof prime_table_pos as HP. rewrite Forall_forall in HP. apply HP. exact Hp. }
  assert (Hgt : start < p).
  { apply (drop_primes_gt prime_table start p prime_table_sorted). rewrite Ep. left; reflexivity. }
  unfold find_slot. rewrite key_at_repeat, Z.eqb_refl.
  set (t := mkTable _ _ _ _). exists t. split; [reflexivity|].
  assert (Hw : twf t).
  { split; [|apply repeat_length]. split; [split; [cbn; lia|cbn; apply repeat_length]|]. split.
    - intros i Hi Hne. cbn [t_keys t] in Hne. rewrite key_at_repeat in Hne. congruence.
    - intros i j Hi Hj Hne. cbn [t_keys t] in Hne. rewrite key_at_repeat in Hne. congruence. }
  split; [exact Hw|]. split; [exact Hp|]. split; [reflexivity|]. split; [cbn; lia|]. split.
  { intros k Hk. apply lookup_none; auto. intros (i & Hi & E). cbn [t_keys t] in E.
    rewrite key_at_repeat in E. congruence. }
  split.
  { intros j Hj _. unfold val_at. cbn [t_vals t]. generalize (Z.to_nat j), (Z.to_nat p).
    intros a b; revert a; induction b as [|b IH]; intros [|a]; cbn; auto. }
  cbn [t_keys t]. clear Hw. clearbody t. generalize (Z.to_nat p). clear. intro m; induction m as [|n IH]; [reflexivity|]. cbn. exact IH.
Qed.

Definition agrees (t : table) (s : status V) (k : Z) : Prop :=
  match s with
  | Absent => lookup t k = None
  | PresentDefault => exists v, lookup t k = Some v
  | Present v => lookup t k = Some v
  end.

Lemma step_agrees (t t' : table) o k s :
  twf t -> pmod t -> op_key o <> NULL_HASH -> k <> NULL_HASH ->
  ht_step zero t o = Some t' -> agrees t s k ->
  twf t' /\ pmod t' /\ agrees t' (spec_step k s o) k.
Proof.
  intros Hw Hp Ho Hk E Ha. destruct o as [k' v|k'|k']; cbn in *.
  - apply ht_set_ok in E as (H1 & H2 & H3 & H4 & _); auto. split; [exact H1|]. split; [exact H2|].
    destruct (Z.eqb_spec k' k) as [->|Hn]; [exact H3|].
    unfold agrees in *. destruct s; rewrite H4 by auto; exact Ha.
  - destruct (ht_get zero t k') as [[t1 i]|] eqn:G; [|discriminate]. inversion E; subst t'; clear E.
    apply ht_get_ok in G; auto. destruct G as [G1 G2 G3 G4 G5 G6 G7 G8 G9].
    cbn. split; [exact G1|]. split; [exact G2|].
    destruct (Z.eqb_spec k' k) as [->|Hn].
    + destruct s; cbn in *.
      * exists (val_at zero (t_vals t1) i). apply lookup_char; auto. exists i; auto.
      * destruct Ha as [v Hv]. exists v. apply G6. exact Hv.
      * apply G6. exact Ha.
    + unfold agrees in *. destruct s; rewrite G5 by auto; exact Ha.
  - inversion E; subst t'; clear E. destruct (ht_remove_ok zero t k' Hw Hp Ho) as (H1 & H2 & H3 & H4 & _).
    split; [exact H1|]. split; [exact H2|].
    destruct (Z.eqb_spec k' k) as [->|Hn]; [exact H3|].
    unfold agrees in *. destruct s; rewrite H4 by auto; exact Ha.
Qed.

Lemma run_agrees ops : forall (t t' : table) k s,
  twf t -> pmod t -> ops_ok ops -> k <> NULL_HASH ->
  ht_run zero t ops = Some t' -> agrees t s k ->
  twf t' /\ pmod t' /\ agrees t' (fold_left (spec_step k) ops s) k.
Proof.
  induction ops as [|o ops IH]; intros t t' k s Hw Hp Ho Hk E Ha; cbn in E.
  - inversion E; subst. auto.
  - destruct (ht_step zero t o) as [t1|] eqn:ES; [|discriminate].
    inversion Ho as [|? ? [_ Hok] Hos]; subst.
    destruct (step_agrees t t1 o k s Hw Hp Hok Hk ES Ha) as (H1 & H2 & H3).
    cbn. apply (IH t1 t' k); auto.
Qed.

Lemma history_refines hint ops (t0 t : table) :
  0 <= hint < 49157 -> ops_ok ops ->
  ht_init zero hint = Some t0 -> ht_run zero t0 ops = Some t ->
  forall k, key_ok k -> agrees t (spec_status ops k) k.
Proof.
  intros Hh Ho E0 E k [_ Hk].
  destruct (ht_init_spec hint Hh) as (t1 & E1 & H1 & H2 & H3 & H4 & H5 & _).
  rewrite E0 in E1. inversion E1; subst t1.
  apply (run_agrees ops t0 t k Absent); auto. apply H5; exact Hk.
Qed.

Lemma history_wf hint ops (t0 t : table) :
  0 <= hint < 49157 -> ops_ok ops ->
  ht_init zero hint = Some t0 -> ht_run zero t0 ops = Some t -> twf t /\ pmod t.
Proof.
  intros Hh Ho E0 E.
  destruct (ht_init_spec hint Hh) as (t1 & E1 & H1 & H2 & H3 & H4 & H5 & _).
  rewrite E0 in E1. inversion E1; subst t1.
  destruct (run_agrees ops t0 t 0 Absent H1 H2 Ho) as (A & B & _); auto. discriminate.
  apply H5. discriminate.
Qed.

(* ---- default values when nothing was ever removed ---- *)
Definition clean (t : table) : Prop :=
  forall j, 0 <= j < t_mod t -> key_at (t_keys t) j = NULL_HASH -> val_at zero (t_vals t) j = zero.
Definition agrees0 (t : table) (s : status V) (k : Z) : Prop :=
  match s with
  | Absent => lookup t k = None
  | PresentDefault => lookup t k = Some zero
  | Present v => lookup t k = Some v
  end.
Lemma step_agrees0 (t t' : table) o k s :
  twf t -> pmod t -> clean t -> op_key o <> NULL_HASH -> k <> NULL_HASH -> is_remove o = false ->
  ht_step zero t o = Some t' -> agrees0 t s k ->
  twf t' /\ pmod t' /\ clean t' /\ agrees0 t' (spec_step k s o) k.
Proof.
  intros Hw Hp Hc Ho Hk Hr E Ha. destruct o as [k' v|k'|k']; cbn in *; [| |discriminate].
  - apply ht_set_ok in E as (H1 & H2 & H3 & H4 & _ & _ & _ & H5); auto.
    split; [exact H1|]. split; [exact H2|]. split; [exact (H5 Hc)|].
    destruct (Z.eqb_spec k' k) as [->|Hn]; [exact H3|].
    unfold agrees0 in *. destruct s; rewrite H4 by auto; exact Ha.
  - destruct (ht_get zero t k') as [[t1 i]|] eqn:G; [|discriminate]. inversion E; subst t'; clear E.
    apply ht_get_ok in G; auto. destruct G as [G1 G2 G3 G4 G5 G6 G7 G8 G9].
    cbn. split; [exact G1|]. split; [exact G2|]. destruct (G9 Hc) as [Hc' Hz].
    split; [exact Hc'|].
    destruct (Z.eqb_spec k' k) as [->|Hn].
    + destruct s; cbn in *; [apply Hz; exact Ha|apply G6; exact Ha|apply G6; exact Ha].
    + unfold agrees0 in *. destruct s; rewrite G5 by auto; exact Ha.
Qed.
Lemma history_default hint ops (t0 t : table) :
  0 <= hint < 49157 -> ops_ok ops -> forallb (fun o => negb (is_remove o)) ops = true ->
  ht_init zero hint = Some t0 -> ht_run zero t0 ops = Some t ->
  forall k, key_ok k -> agrees0 t (spec_status ops k) k.
Proof.
  intros Hh Ho Hr E0 E k [_ Hk].
  destruct (ht_init_spec hint Hh) as (t1 & E1 & H1 & H2 & H3 & H4 & H5 & H6 & _).
  rewrite E0 in E1. inversion E1; subst t1. unfold spec_status.
  assert (Ha : agrees0 t0 Absent k) by (apply H5; exact Hk).
  clear E0 E1 H3 H4 H5. revert t0 E H1 H2 H6 Ha. generalize (@Absent V).
  induction ops as [|o ops IH]; intros s t0 E Hw Hp Hc Ha; cbn in E.
  - inversion E; subst. exact Ha.
  - destruct (ht_step zero t0 o) as [t1|] eqn:ES; [|discriminate].
    inversion Ho as [|? ? [_ Hok] Hos]; subst. cbn in Hr. apply andb_prop in Hr as [Hr1 Hr2].
    destruct (step_agrees0 t0 t1 o k s Hw Hp Hc Hok Hk ltac:(destruct (is_remove o); auto) ES Ha)
      as (A1 & A2 & A3 & A4).
    cbn. apply (IH Hos Hr2 _ t1); auto.
Qed.

(* ---- counting ---- *)
Lemma step_count (t t' : table) o :
  twf t -> pmod t -> op_key o <> NULL_HASH -> ht_step zero t o = Some t' ->
  twf t' /\ pmod t' /\
  u32 (t_size t' - lenZ (live (t_keys t'))) =
  u32 (t_size t - lenZ (live (t_keys t)) - (if t_mod t' =? t_mod t then 0 else 1)).
Proof.
  intros Hw Hp Ho E. pose proof Hw as ((Hs & Hho & Hu) & Hv).
  assert (INS : forall (t1 : table) k,
     twf t1 -> k <> NULL_HASH -> lookup t k = None ->
     (forall x, x <> NULL_HASH -> (has (t_keys t1) (t_mod t1) x <-> x = k \/ has (t_keys t) (t_mod t) x)) ->
     ((t_mod t1 = t_mod t /\ t_size t1 = u32 (t_size t + 1)) \/ (t_mod t < t_mod t1 /\ t_size t1 = t_size t)) ->
     u32 (t_size t1 - lenZ (live (t_keys t1))) =
     u32 (t_size t - lenZ (live (t_keys t)) - (if t_mod t1 =? t_mod t then 0 else 1))).
  { intros t1 k ((Hs1 & Hho1 & Hu1) & Hv1) Hk Hl Hhas Hcase.
    assert (HL : length (live (t_keys t1)) = S (length (live (t_keys t)))).
    { eapply live_cons_length; eauto. apply lookup_none in Hl; auto. }
    unfold lenZ. rewrite HL. unfold u32 in *.
    destruct Hcase as [[-> ->]|[Hlt ->]].
    - rewrite Z.eqb_refl. lia.
    - replace (t_mod t1 =? t_mod t) with false by lia. lia. }
  destruct o as [k v|k|k]; cbn in *.
  - pose proof E as E'. apply ht_set_ok in E as (H1 & H2 & H3 & H4 & H5 & H6 & H7 & _); auto.
    split; [exact H1|]. split; [exact H2|].
    destruct (lookup t k) as [w|] eqn:L.
    + destruct (H6 w eq_refl) as [-> Hm]. rewrite Hm, Z.eqb_refl.
      assert (HL : length (live (t_keys t')) = length (live (t_keys t))).
      { destruct H1 as ((Hs1 & Hho1 & Hu1) & Hv1). eapply live_same_length; eauto.
        intros x Hx. rewrite H5 by exact Hx. split; [|auto]. intros [->|]; auto.
        apply lookup_char in L as (i & Hi & Hki & _); auto. exists i; auto. }
      unfold lenZ. rewrite HL. f_equal. lia.
    + apply (INS t' k); auto.
  - destruct (ht_get zero t k) as [[t1 i]|] eqn:G; [|discriminate]. inversion E; subst t'; clear E.
    apply ht_get_ok in G; auto. destruct G as [G1 G2 G3 G4 G5 G6 G7 G8 G9]. cbn.
    split; [exact G1|]. split; [exact G2|].
    destruct (lookup t k) as [w|] eqn:L.
    + destruct (G6 w eq_refl) as [_ ->]. rewrite Z.eqb_refl. f_equal. lia.
    + apply (INS t1 k); auto.
  - inversion E; subst t'; clear E.
    destruct (ht_remove_ok zero t k Hw Hp Ho) as (H1 & H2 & H3 & H4 & H5 & H6 & H7 & H8).
    split; [exact H1|]. split; [exact H2|]. rewrite H6, Z.eqb_refl.
    destruct (lookup t k) as [w|] eqn:L.
    + rewrite (H8 w eq_refl).
      assert (HL : length (live (t_keys t)) = S (length (live (t_keys (fst (ht_exists zero t k true)))))).
      { destruct H1 as ((Hs1 & Hho1 & Hu1) & Hv1).
        eapply live_cons_length with (k := k); eauto.
        - apply lookup_none in H3; auto. repeat split; auto; apply Hs1.
        - intros x Hx. split.
          + intros Hhx. destruct (Z.eq_dec x k) as [->|Hxk]; [auto|right].
            destruct (lookup (fst (ht_exists zero t k true)) x) as [u|] eqn:LX.
            * apply lookup_char in LX as (i & Hi & Hki & _); auto; [exists i; auto|repeat split; auto; apply Hs1].
            * exfalso. rewrite H4 in LX by auto. apply lookup_none in LX; auto.
          + intros [->|Hhx].
            * apply lookup_char in L as (i & Hi & Hki & _); auto. exists i; auto.
            * destruct (Z.eq_dec x k) as [->|Hxk].
              { exfalso. apply lookup_none in H3; auto. repeat split; auto; apply Hs1. }
              destruct (lookup t x) as [u|] eqn:LX.
              { apply lookup_char in LX as (i & Hi & Hki & _); auto. exists i; auto. }
              exfalso. rewrite <- H4 in LX by auto. apply lookup_none in LX; auto.
              repeat split; auto; apply Hs1. }
      unfold lenZ. rewrite HL. unfold u32. lia.
    + rewrite (H7 eq_refl). f_equal. lia.
Qed.

Lemma run_count ops : forall (t t' : table),
  twf t -> pmod t -> ops_ok ops -> ht_run zero t ops = Some t' ->
  u32 (t_size t' - lenZ (live (t_keys t'))) =
  u32 (t_size t - lenZ (live (t_keys t)) - growths zero t ops).
Proof.
  induction ops as [|o ops IH]; intros t t' Hw Hp Ho E; cbn in E.
  - inversion E; subst. cbn. f_equal. lia.
  - destruct (ht_step zero t o) as [t1|] eqn:ES; [|discriminate].
    inversion Ho as [|? ? [_ Hok] Hos]; subst.
    destruct (step_count t t1 o Hw Hp Hok ES) as (H1 & H2 & H3).
    rewrite (IH t1 t' H1 H2 Hos E). cbn. rewrite ES. unfold u32 in *. lia.
Qed.

Lemma step_size_u32 (t t' : table) o : is_u32 (t_size t) -> twf t -> pmod t -> op_key o <> NULL_HASH ->
  ht_step zero t o = Some t' -> is_u32 (t_size t').
Proof.
  intros Hsz Hw Hp Ho E. destruct o as [k v|k|k]; cbn in *.
  - apply ht_set_ok in E as (_ & _ & _ & _ & _ & H6 & H7 & _); auto.
    destruct (lookup t k) as [w|] eqn:L.
    + destruct (H6 w eq_refl) as [-> _]. exact Hsz.
    + destruct (H7 eq_refl) as [[_ ->]|[_ ->]]; [apply u32_range|exact Hsz].
  - destruct (ht_get zero t k) as [[t1 i]|] eqn:G; [|discriminate]. inversion E; subst t'; clear E.
    apply ht_get_ok in G; auto. destruct G as [G1 G2 G3 G4 G5 G6 G7 G8 G9]. cbn.
    destruct (lookup t k) as [w|] eqn:L.
    + destruct (G6 w eq_refl) as [_ ->]. exact Hsz.
    + destruct (G8 eq_refl) as [[_ ->]|[_ ->]]; [apply u32_range|exact Hsz].
  - inversion E; subst t'. unfold ht_exists. destruct (exists_slot t k); cbn; [apply u32_range|exact Hsz].
Qed.
Lemma run_size_u32 ops : forall (t t' : table), is_u32 (t_size t) -> twf t -> pmod t -> ops_ok ops ->
  ht_run zero t ops = Some t' -> is_u32 (t_size t').
Proof.
  induction ops as [|o ops IH]; intros t t' Hsz Hw Hp Ho E; cbn in E.
  - inversion E; subst. exact Hsz.
  - destruct (ht_step zero t o) as [t1|] eqn:ES; [|discriminate].
    inversion Ho as [|? ? [_ Hok] Hos]; subst.
    destruct (step_count t t1 o Hw Hp Hok ES) as (H1 & H2 & _).
    apply (IH t1 t'); auto. eapply step_size_u32; eauto.
Qed.

Lemma history_count hint ops (t0 t : table) :
  0 <= hint < 49157 -> ops_ok ops ->
  ht_init zero hint = Some t0 -> ht_run zero t0 ops = Some t ->
  t_size t = u32 (hint + lenZ (ht_iterate t) - growths zero t0 ops).
Proof.
  intros Hh Ho E0 E.
  destruct (ht_init_spec hint Hh) as (t1 & E1 & H1 & H2 & H3 & H4 & H5 & H6 & H7).
  rewrite E0 in E1. inversion E1; subst t1.
  pose proof (run_count ops t0 t H1 H2 Ho E) as C. rewrite H7, H3 in C.
  assert (Hsz : is_u32 (t_size t)).
  { apply (run_size_u32 ops t0 t); auto. rewrite H3. unfold is_u32. lia. }
  destruct (history_wf hint ops t0 t Hh Ho E0 E) as [Hw Hp].
  assert (HL : lenZ (ht_iterate t) = lenZ (live (t_keys t))).
  { unfold lenZ. rewrite <- (map_length fst (ht_iterate t)). rewrite iterate_keys; [reflexivity|].
    destruct Hw as ((Hs & _) & Hv). rewrite Hv. symmetry. apply Hs. }
  rewrite HL. cbn in C. unfold is_u32, u32 in *. lia.
Qed.

Lemma history_iterate hint ops (t0 t : table) :
  0 <= hint < 49157 -> ops_ok ops ->
  ht_init zero hint = Some t0 -> ht_run zero t0 ops = Some t ->
  NoDup (map fst (ht_iterate t)) /\
  Forall (fun k => k <> NULL_HASH) (map fst (ht_iterate t)) /\
  (forall k, key_ok k -> (In k (map fst (ht_iterate t)) <-> spec_status ops k <> Absent)) /\
  (forall k v, key_ok k -> (In (k, v) (ht_iterate t) <-> lookup t k = Some v)).
Proof.
  intros Hh Ho E0 E. destruct (history_wf hint ops t0 t Hh Ho E0 E) as [Hw Hp].
  pose proof Hw as ((Hs & Hho & Hu) & Hv).
  assert (HK : map fst (ht_iterate t) = live (t_keys t)).
  { apply iterate_keys. rewrite Hv. symmetry. apply Hs. }
  split; [rewrite HK; eapply live_NoDup; eauto|].
  split; [rewrite HK; apply Forall_forall; intros k Hk; apply filter_In in Hk; lia|].
  assert (IT : forall k v, key_ok k -> (In (k, v) (ht_iterate t) <-> lookup t k = Some v)).
  { intros k v [_ Hk]. apply iterate_in; auto. }
  split; [|exact IT].
  intros k Hk. pose proof (history_refines hint ops t0 t Hh Ho E0 E k Hk) as HA. split.
  - intros Hin. apply in_map_iff in Hin as ((k' & v) & Hk' & Hin). cbn in Hk'. subst k'.
    apply IT in Hin; [|exact Hk]. intro HN. rewrite HN in HA. cbn in HA. congruence.
  - intro Hne. assert (exists v, lookup t k = Some v) as [v Hl].
    { destruct (spec_status ops k) as [| |v]; cbn in HA; [contradiction|exact HA|eauto]. }
    apply IT in Hl; [|exact Hk]. apply in_map_iff. exists (k, v). auto.
Qed.

(* the registry accessor (hand-unrolled probe) and the table accessor agree *)
Lemma getRaw_eq_get (t : table) k : twf t -> pmod t -> k <> NULL_HASH ->
  ht_getRaw zero t k = ht_get zero t k.
Proof.
  intros Hw Hp Hk. pose proof Hw as ((Hs & Hho & Hu) & Hv). pose proof Hs as [Hmd _].
  unfold ht_get, getIndexOfHit.
  destruct (has_dec (t_keys t) (t_mod t) k Hmd) as [(j & Hj & Hkj)|Hab].
  - rewrite (find_slot_present _ _ _ j (proj1 Hw) Hk Hj Hkj).
    destruct (ht_getRaw zero t k) as [[t1 i]|] eqn:G.
    + apply ht_getRaw_ok in G; auto. destruct G as [G1 G2 G3 G4 G5 G6 G7 G8 G9].
      destruct (G6 (val_at zero (t_vals t) j)) as [_ ->]; [apply lookup_char; auto; exists j; auto|].
      f_equal. f_equal. apply Hu; auto; congruence.
    + exfalso. unfold ht_getRaw in G. cbv zeta in G.
      assert (M : forall d, ((k + d) mod t_mod t + 1) mod t_mod t = (k + (d+1)) mod t_mod t)
        by (intro; apply mod_succ; exact Hmd).
      rewrite (home_0 k (t_mod t)), (M 0), (M (0+1)), (M (0+1+1)) in G.
      destruct (Hho j Hj) as (e & He & Hje); [congruence|]. rewrite Hkj in Hje.
      repeat match goal with
      | H : (if key_at ?ks ?j =? ?k then _ else _) = _ |- _ =>
        destruct (Z.eqb_spec (key_at ks j) k) in H; [discriminate H|]
      end.
      assert (e = 0 \/ e = 0+1 \/ e = 0+1+1 \/ e = 0+1+1+1) as [->|[->|[->| ->]]] by lia; congruence.
  - rewrite find_slot_absent by assumption. unfold ht_getRaw. cbv zeta.
    assert (R : forall i, 0 <= i < t_mod t -> (key_at (t_keys t) i =? k) = false).
    { intros i Hi. apply Z.eqb_neq. intro E. apply Hab. exists i; auto. }
    rewrite !R by (apply mod_range; exact Hmd). reflexivity.
Qed.
End P.
