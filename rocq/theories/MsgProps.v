(* Properties of the message mailbox (C42). *)
From Verif Require Import Base BaseLemmas HashTableModel HashTableSpec HashTableProofs HashTableProps MsgModel MsgSpec.

Section P.
Variables (hint : Z) (t0 : table rval).
Hypothesis Hh : 0 <= hint < 49157.
Hypothesis E0 : ht_init rzero hint = Some t0.

(* the table is the result of some sequence of basic operations that agrees with the box *)
Definition hist (t : table rval) (b : box) : Prop :=
  exists ops, ops_ok ops /\ ht_run rzero t0 ops = Some t /\
    forall k, key_ok k -> match spec_status ops k with Absent => b k = None | Present v => b k = Some v | PresentDefault => False end.

Lemma run_app ops o t : ht_run rzero t0 ops = Some t -> ht_run rzero t0 (ops ++ [o]) = ht_step rzero t o.
Proof.
  generalize t0. induction ops as [|x r IH]; cbn; intros u H.
  - injection H as ->. now destruct (ht_step rzero t o).
  - destruct (ht_step rzero u x); [auto|discriminate].
Qed.
Lemma status_app ops o k : spec_status (V := rval) (ops ++ [o]) k = spec_step k (spec_status ops k) o.
Proof. unfold spec_status. rewrite fold_left_app. reflexivity. Qed.
Lemma hist_exists t b k : hist t b -> key_ok k -> snd (ht_exists rzero t k false) = b k.
Proof.
  intros [ops [O [R S]]] K. pose proof (hash_table_refines_map rval rzero hint ops t0 t Hh O E0 R k K) as X.
  specialize (S k K). destruct (spec_status ops k); [congruence|tauto|congruence].
Qed.
Lemma hist_remove t b k : hist t b -> key_ok k -> hist (fst (ht_exists rzero t k true)) (put b k None).
Proof.
  intros [ops [O [R S]]] K. exists (ops ++ [OpRemove k]). split; [apply Forall_app; split; auto; constructor; auto|].
  split; [rewrite (run_app _ _ _ R); reflexivity|]. intros x Hx. rewrite status_app. cbn [spec_step]. unfold put.
  rewrite (Z.eqb_sym k x). destruct (x =? k); [auto|]. now apply S.
Qed.
Lemma hist_set t b k v t' : hist t b -> key_ok k -> reg_set k v t = Some t' -> hist t' (put b k (Some v)).
Proof.
  intros [ops [O [R S]]] K H. exists (ops ++ [OpSet k v]). split; [apply Forall_app; split; auto; constructor; auto|].
  split.
  - rewrite (run_app _ _ _ R). cbn [ht_step]. unfold ht_set.
    rewrite <- (registry_accessor_agrees rval rzero hint ops t0 t k Hh O K E0 R). exact H.
  - intros x Hx. rewrite status_app. cbn [spec_step]. unfold put. rewrite (Z.eqb_sym k x). destruct (x =? k); [auto|]. now apply S.
Qed.
Lemma hist_lookup t b k t' : hist t b -> key_ok k -> b k <> None -> reg_lookup k t = Some t' -> hist t' b.
Proof.
  intros [ops [O [R S]]] K N H. exists (ops ++ [OpGet k]). split; [apply Forall_app; split; auto; constructor; auto|].
  split.
  - rewrite (run_app _ _ _ R). cbn [ht_step]. rewrite <- (registry_accessor_agrees rval rzero hint ops t0 t k Hh O K E0 R). exact H.
  - intros x Hx. rewrite status_app. cbn [spec_step]. specialize (S x Hx). destruct (k =? x) eqn:E; [|auto].
    apply Z.eqb_eq in E. subst x. destruct (spec_status ops k); [congruence|tauto|auto].
Qed.
Lemma exists_snd t k r : snd (ht_exists (V := rval) rzero t k r) = snd (ht_exists rzero t k false).
Proof. unfold ht_exists. now destruct (exists_slot t k). Qed.
Lemma exists_fst t k : fst (ht_exists (V := rval) rzero t k false) = t.
Proof. unfold ht_exists. now destruct (exists_slot t k). Qed.

Lemma step_hist t b o t' a : hist t b -> mop_ok o -> match o with MLookup k => b k <> None | _ => True end ->
  m_step t o = Some (t', a) -> hist t' (fst (box_step b o)) /\ a = snd (box_step b o).
Proof.
  intros H K L S. destruct o as [l|l|l|l|k f|k]; cbn [m_step mop_ok] in *.
  - destruct l as [|k r]; cbn [mbox_read box_step fst snd] in *; [injection S as <- <-; auto|].
    assert (F : flag (k :: r) = negb ((match r with c :: _ => a_int c | [] => 0 end) =? 0)) by (destruct r; reflexivity).
    rewrite F. set (c := negb _) in *.
    destruct (ht_exists rzero t (a_hash k) c) as [t1 m] eqn:X. injection S as <- <-.
    assert (M : m = b (a_hash k)) by (rewrite <- (hist_exists t b _ H K), <- (exists_snd t _ c), X; reflexivity).
    split; [|subst m; reflexivity].
    destruct c; [replace t1 with (fst (ht_exists rzero t (a_hash k) true)) by (now rewrite X); now apply hist_remove|].
    replace t1 with t; auto. rewrite <- (exists_fst t (a_hash k)) at 1. now rewrite X.
  - destruct l as [|k [|v r]]; cbn [mbox_write box_step fst snd] in *; try (injection S as <- <-; auto; fail).
    destruct (ht_getRaw rzero t (a_hash k)) as [[t1 i]|] eqn:X; [|discriminate]. injection S as <- <-. split; auto.
    apply (hist_set t b); auto. unfold reg_set. now rewrite X.
  - destruct l as [|k r]; cbn [mbox_clear box_step fst snd] in *; injection S as <- <-; auto. split; auto. now apply hist_remove.
  - destruct l as [|k r]; cbn [mbox_peek box_step fst snd] in *; injection S as <- <-; auto. split; auto.
    rewrite (hist_exists t b _ H K). reflexivity.
  - destruct (reg_set k (RFn f) t) eqn:X; [|discriminate]. injection S as <- <-. split; auto. eapply hist_set; eauto.
  - destruct (reg_lookup k t) eqn:X; [|discriminate]. injection S as <- <-. split; auto. eapply hist_lookup; eauto.
Qed.
End P.

(* C42: whatever the interleaving of reads, writes, clears, peeks, registrations and calls of
   registered functions, the answers are those of a keyed mailbox holding the last stored hash;
   read removes the message exactly when it is asked to.  (partial: only for runs in which the
   registry finds room, see hash_table_always_grows_refuted; and the mailbox shares its keys with
   the registered names.) *)
Theorem c42_mailbox_partial : forall hint t0 os answers,
  0 <= hint < 49157 -> ht_init rzero hint = Some t0 ->
  Forall mop_ok os -> lookups_found (fun _ => None) os ->
  m_run t0 os = Some answers -> answers = box_run (fun _ => None) os.
Proof.
  intros hint t0 os answers Hh E0 K L H.
  assert (I : hist t0 t0 (fun _ => None)).
  { exists []. split; [constructor|]. split; [reflexivity|]. intros k _. reflexivity. }
  revert I L H. generalize t0 at 2 3 as t. generalize (fun _ : Z => @None rval) as b. revert answers.
  induction K as [|o os Ko K IH]; intros ans b t I L H; cbn [m_run box_run lookups_found] in *; [congruence|].
  destruct L as [L1 L2]. destruct (m_step t o) as [[t' a]|] eqn:S; [|discriminate].
  destruct (step_hist hint t0 Hh E0 t b o t' a I Ko L1 S) as [I' ->].
  destruct (m_run t' os) as [r|] eqn:R; [|discriminate]. injection H as <-.
  destruct (box_step b o) as [b' a']. cbn [fst snd] in *. f_equal. eapply IH; eauto.
Qed.
(* a message is delivered once when read with the flag set, whatever other keys are used meanwhile *)
Definition touches (k : Z) (o : mop) : Prop :=
  match o with
  | MRead (a :: _) | MWrite (a :: _) | MClear (a :: _) => a_hash a = k
  | MRegister x _ => x = k
  | _ => False
  end.
Lemma box_frame k os b : Forall (fun o => ~ touches k o) os -> fold_left (fun b o => fst (box_step b o)) os b k = b k.
Proof.
  intros H. revert b. induction H as [|o os Ho H IH]; intros b; cbn [fold_left]; [reflexivity|]. rewrite IH.
  destruct o as [l|l|l|l|x f|x]; cbn [box_step touches] in *; try (destruct l as [|a r]); cbn [box_step fst]; auto.
  - destruct (flag (a :: r)); cbn [fst]; auto. unfold put. replace (k =? a_hash a) with false; auto. symmetry. apply Z.eqb_neq. congruence.
  - destruct r; cbn [fst]; auto. unfold put. replace (k =? a_hash a) with false; auto. symmetry. apply Z.eqb_neq. congruence.
  - unfold put. replace (k =? a_hash a) with false; auto. symmetry. apply Z.eqb_neq. congruence.
  - cbn [fst]. unfold put. replace (k =? x) with false; auto. symmetry. apply Z.eqb_neq. congruence.
Qed.
Lemma box_run_app b xs ys : box_run b (xs ++ ys) = box_run b xs ++ box_run (fold_left (fun b o => fst (box_step b o)) xs b) ys.
Proof.
  revert b. induction xs as [|o xs IH]; intros b; cbn [box_run app fold_left]; [reflexivity|].
  destruct (box_step b o) as [b' a]. cbn [fst]. now rewrite IH.
Qed.
Lemma box_run_length b xs : length (box_run b xs) = length xs.
Proof. revert b. induction xs as [|o xs IH]; intros b; cbn; [reflexivity|]. destruct (box_step b o). cbn. now rewrite IH. Qed.
Theorem c42_delivered_once_partial : forall hint t0 before between k v yes answers,
  0 <= hint < 49157 -> ht_init rzero hint = Some t0 ->
  a_int yes <> 0 -> Forall (fun o => ~ touches (a_hash k) o) between ->
  let os := before ++ MWrite [k; v] :: between ++ [MRead [k; yes]; MPeek [k]; MRead [k; yes]] in
  Forall mop_ok os -> lookups_found (fun _ => None) os ->
  m_run t0 os = Some answers ->
  skipn (length before + 1 + length between) answers = [RInt (a_hash v); RInt 0; RInt 0].
Proof.
  intros hint t0 before between k v yes answers Hh E0 Hy Hb os K L H.
  rewrite (c42_mailbox_partial hint t0 os answers Hh E0 K L H). unfold os.
  rewrite box_run_app. set (b0 := fold_left _ before _). cbn [box_run box_step].
  rewrite box_run_app. set (b1 := fold_left _ between _).
  assert (B1 : b1 (a_hash k) = Some (RInt (a_hash v))).
  { unfold b1. rewrite box_frame by auto. unfold put. now rewrite Z.eqb_refl. }
  rewrite skipn_app, skipn_all2 by (rewrite box_run_length; lia). rewrite box_run_length.
  replace (length before + 1 + length between - length before)%nat with (S (length between)) by lia.
  cbn [app skipn]. rewrite skipn_app, skipn_all2 by (rewrite box_run_length; lia). rewrite box_run_length, Nat.sub_diag.
  cbn [app skipn box_run box_step flag]. replace (a_int yes =? 0) with false by (symmetry; now apply Z.eqb_neq). cbn [negb].
  unfold put. rewrite B1, !Z.eqb_refl. reflexivity.
Qed.
(* by default read leaves the message in place: it is delivered again *)
Theorem c42_default_read_refuted : exists t0 k v answers,
  ht_init rzero 0 = Some t0 /\ mop_ok (MRead [k]) /\
  m_run t0 [MWrite [k; v]; MRead [k]; MRead [k]] = Some answers /\ answers = [RInt 0; RInt (a_hash v); RInt (a_hash v)].
Proof.
  exists (mkTable 2 [NULL_HASH; NULL_HASH] [rzero; rzero] 0), (mkArg 7 7), (mkArg 9 9). eexists.
  split; [reflexivity|]. split; [split; cbn; [split; discriminate || reflexivity|discriminate]|]. split; vm_compute; reflexivity.
Qed.
(* the mailbox and the registered functions are one table: a message key equal to the hash of a
   registered name reads the function, and clearing it removes the function; and calling an unknown
   function leaves a message under its name *)
Theorem c42_shared_with_functions_refuted : exists t0 k,
  ht_init rzero 0 = Some t0 /\ key_ok (a_hash k) /\
  m_run t0 [MRegister (a_hash k) 5; MPeek [k]; MRead [k; k]; MPeek [k]] = Some [RInt 0; RInt 1; RFn 5; RInt 0] /\
  m_run t0 [MPeek [k]; MLookup (a_hash k); MPeek [k]] = Some [RInt 0; RInt 0; RInt 1].
Proof.
  exists (mkTable 2 [NULL_HASH; NULL_HASH] [rzero; rzero] 0), (mkArg 7 7).
  split; [reflexivity|]. split; [split; cbn; [split; discriminate || reflexivity|discriminate]|]. split; vm_compute; reflexivity.
Qed.
Example c42_ex : exists t0,
  let os := [MRegister 77 3; MWrite [mkArg 5 0; mkArg 50 0]; MPeek [mkArg 5 0]; MLookup 77; MWrite [mkArg 5 0; mkArg 51 0];
     MRead [mkArg 5 0; mkArg 1 1]; MRead [mkArg 5 0]; MWrite [mkArg 8 8; mkArg 9 9]; MClear [mkArg 8 8]; MPeek [mkArg 8 8]] in
  ht_init rzero 0 = Some t0 /\ Forall mop_ok os /\ lookups_found (fun _ => None) os /\
  m_run t0 os = Some [RInt 0; RInt 0; RInt 1; RInt 0; RInt 0; RInt 51; RInt 0; RInt 0; RInt 0; RInt 0].
Proof.
  exists (mkTable 2 [NULL_HASH; NULL_HASH] [rzero; rzero] 0). cbv zeta. split; [reflexivity|].
  split; [repeat constructor; cbn; try (split; discriminate || reflexivity); discriminate|].
  split; [cbn; repeat split; discriminate|]. vm_compute. reflexivity.
Qed.
Print Assumptions c42_mailbox_partial.
Print Assumptions c42_delivered_once_partial.
Print Assumptions c42_default_read_refuted.
Print Assumptions c42_shared_with_functions_refuted.
