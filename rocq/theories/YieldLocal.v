(* The index operator looks only at what is in use. *)
From Verif Require Import Base OpsModel VmModel VmSpec OpsLocal ArrayModel FuseSpec YieldSpec.

Section IndexLocal.
Variable pbits : value -> Z.
Variable hash_index : loc -> loc -> loc -> mem -> res mem.
Variable new_table : loc -> mem -> mem.
Hypothesis HI : index_local hash_index.
Hypothesis NT : table_local new_table.
Variable z z' : mem.
Notation rm := (rmz z z').
Notation rt := (rt z z').

(* the target is written on both sides *)
Definition rw (sp : nat) (target : loc) (m m' : mem) : Prop :=
  agree sp m m' /\ closed sp m /\
  (forall x, ~ live sp x -> x <> target -> mv m x = mv z x /\ mv m' x = mv z' x) /\
  (mv m target = mv m' target /\ val_ok sp (mv m target)).
Lemma rw_rt sp target m m' : rw sp target m m' -> rt sp target m m'.
Proof. intros (A&B&C&D). repeat split; try apply A; auto; apply C; auto. Qed.
Lemma rw_wr sp target m m' v : rm sp m m' -> val_ok sp v -> rw sp target (wr m target v) (wr m' target v).
Proof.
  intros [A [B C]] V. split; [now apply agree_wr|split; [now apply closed_wr|split]].
  - intros x N Q. rewrite !wr_ne by auto. auto.
  - rewrite !wr_eq. auto.
Qed.
Lemma rw_of sp target m m' a b : rm sp m m' -> wrote sp target m m' a b -> rw sp target a b.
Proof.
  intros [A [B C]] [D E F G]. split; [auto|split; [auto|split; [|auto]]]. intros x N Q. destruct (F x N Q) as [-> ->]. auto.
Qed.
Lemma rm_new_table sp v m m' : rm sp m m' -> live sp v -> rm sp (new_table v m) (new_table v m').
Proof.
  intros [A [B C]] L. destruct (NT sp v m m' A B L) as (D&E&F). split; [auto|split; [auto|]].
  intros x N. destruct (F x N) as [-> ->]. auto.
Qed.

(* the index may lie in the free part if it is a number, the same on both sides *)
Definition idx_ok (sp : nat) (target ix : loc) : Prop :=
  live sp ix \/ (~ live sp ix /\ ix <> target /\ mv z ix = mv z' ix /\ is_num (mv z ix) = true).
Lemma idx_mv sp target ix m m' : idx_ok sp target ix -> rm sp m m' -> mv m' ix = mv m ix.
Proof.
  intros [L|(N&_&E&_)] R; [eapply rm_mv; eauto|]. destruct R as [_ [_ C]]. destruct (C ix N) as [-> ->]. auto.
Qed.
Lemma idx_hash sp target ix m m' : idx_ok sp target ix -> rm sp m m' ->
  live sp ix \/ (ix <> target /\ mv m ix = mv m' ix /\ is_num (mv m ix) = true).
Proof.
  intros [L|(N&Q&E&I)] R; [auto|right]. destruct R as [_ [_ C]]. destruct (C ix N) as [-> ->]. auto.
Qed.
Lemma idx_rdi sp target ix m m' : idx_ok sp target ix -> rm sp m m' -> rdi pbits m' ix = rdi pbits m ix.
Proof. intros I R. unfold rdi. now rewrite (idx_mv _ _ _ _ _ I R). Qed.
Definition rim (sp : nat) (target : loc) (x x' : loc * mem) : Prop := fst x = fst x' /\ idx_ok sp target (fst x) /\ rm sp (snd x) (snd x').
Lemma deref_idx sp target fuel ix m m' : idx_ok sp target ix -> rm sp m m' ->
  res_rel (rim sp target) (deref pbits fuel ix m) (deref pbits fuel ix m').
Proof.
  intros I R. destruct I as [L|(N&Q&E&I)].
  - pose proof (deref_local pbits z z' sp fuel ix m m' L R) as D. inversion D as [x y H X Y|X Y|X Y]; constructor. destruct H as (A&B&C). split; [auto|split; [left; auto|auto]].
  - assert (X : mv m' ix = mv m ix) by (apply (idx_mv sp target ix m m'); [right; auto|exact R]).
    assert (Y : mv m ix = mv z ix) by (destruct R as [_ [_ C]]; now destruct (C ix N)).
    destruct fuel; cbn [deref]; [constructor|]. rewrite X, Y.
    assert (G : rim sp target (ix, m) (ix, m')) by (split; [auto|split; [right; auto|auto]]).
    destruct (mv z ix); try discriminate I; constructor; exact G.
Qed.

Lemma new_array_local sp m m' l n : rm sp m m' -> live sp l -> rm sp (new_array m l n) (new_array m' l n).
Proof.
  intros H L. unfold new_array. cbv zeta. rewrite (rm_next z z' sp m m' H). apply rm_wr; auto; [|exact I]. apply rm_wr_obj.
  destruct H as [[A B C D] [E F]]. split; [constructor; cbn; auto|split].
  - intros x Lx. cbn in *. destruct x; auto. destruct (Nat.eq_dec id (mnext m)); auto.
  - intros x Lx. cbn. destruct x; try (apply (E _ Lx)). destruct (Nat.eq_dec id (mnext m)); [exact I|apply (E _ Lx)].
  - intros x N. cbn. destruct x; try (apply F; exact N). exfalso. apply N. exact I.
Qed.
Lemma grow_local sp m m' id n : rm sp m m' -> res_rel (rm sp) (grow m id n) (grow m' id n).
Proof.
  intros H. unfold grow. cbv zeta. rewrite (rm_mo z z' sp m m' id H). destruct (mo m id) as [[old|bs c| |]|]; try constructor.
  - destruct (_ && _); constructor. now apply grow_array_local.
  - destruct (_ && _); constructor. now apply grow_array_local.
Qed.
Lemma element_local sp index target value m m' : rm sp m m' -> live sp value ->
  res_rel (rw sp target) (elementToTarget index target value m) (elementToTarget index target value m').
Proof.
  intros H L. unfold elementToTarget. destruct (loc_eq_dec target value) as [->|N].
  - rewrite (rm_mv z z' sp m m' value H L). destruct (mv m value); try constructor.
    rewrite (rm_mo z z' sp m m' id H). destruct (mo m id) as [[n|bs c| |]|]; try constructor.
    + destruct (_ && _); constructor. rewrite (rm_mv z z' sp m m' (LElem id (Z.to_nat index)) H I). apply rw_wr; auto.
      eapply rm_val; eauto. exact I.
    + destruct (nthZ bs index); constructor. apply rw_wr; auto. exact I.
  - unfold member. destruct (_ =? 0); cbn [bind]; constructor. apply rw_wr; auto.
Qed.

Lemma index_I_X_local sp index value target m m' : rm sp m m' -> idx_ok sp target index -> live sp value ->
  res_rel (rw sp target) (index_I_X pbits index value target m) (index_I_X pbits index value target m').
Proof.
  intros H I L. unfold index_I_X. cbv zeta. rewrite (idx_rdi sp target index m m' I H). destruct (_ <? 0); [constructor|].
  apply element_local; auto. now apply new_array_local.
Qed.
Lemma index_I_E_local sp fuel index value target m m' : rm sp m m' -> idx_ok sp target index -> live sp value ->
  res_rel (rw sp target) (index_I_E pbits hash_index new_table fuel index value target m) (index_I_E pbits hash_index new_table fuel index value target m').
Proof.
  intros H IX L. unfold index_I_E. cbv zeta.
  set (go := fun m => ' (v, m1) <- deref pbits fuel value m ;;
    match mv m1 v with
    | VHash _ | VStruct _ => hash_index index v target m1
    | VRaw _ n => if Z.of_nat n <=? rdi pbits m1 index then Ok (wr m1 target (VInt 0)) else elementToTarget (rdi pbits m1 index) target v m1
    | VArr id =>
      match mo m1 id with
      | Some (OVal n) =>
        if Z.of_nat n <=? rdi pbits m1 index then m2 <- grow m1 id (rdi pbits m1 index) ;; elementToTarget (rdi pbits m1 index) target v m2 else elementToTarget (rdi pbits m1 index) target v m1
      | Some (OChar bs nocontext) =>
        if lenZ bs <=? rdi pbits m1 index then
          if nocontext then Ok (wr m1 target (VInt 0))
          else m2 <- grow m1 id (rdi pbits m1 index) ;; elementToTarget (rdi pbits m1 index) target v m2
        else elementToTarget (rdi pbits m1 index) target v m1
      | _ => UB
      end
    | _ =>
      ' (ix, m2) <- deref pbits fuel index m1 ;;
      match mv m2 ix with
      | VInt _ =>
        if s32 (rdi pbits m1 index + 1) <? 0 then UB else elementToTarget (rdi pbits m1 index) target v (new_array m2 v (Z.to_nat (s32 (rdi pbits m1 index + 1))))
      | _ => hash_index ix v target (new_table v m2)
      end
    end).
  assert (G : res_rel (rw sp target) (go m) (go m')).
  { unfold go. eapply bind_rel; [apply (deref_local pbits z z' sp); eauto|]. intros [v m1] [v' m1'] (P&Q&R). cbn in P, Q, R. subst v'.
    rewrite (idx_rdi sp target index m1 m1' IX R). set (i := rdi pbits m1 index). rewrite (rm_mv z z' sp m1 m1' v R Q).
    assert (HX : res_rel (rw sp target) (hash_index index v target m1) (hash_index index v target m1')).
    { pose proof (HI sp index v target m1 m1' (proj1 R) (proj1 (proj2 R)) Q (idx_hash _ _ _ _ _ IX R)) as D.
      destruct D; constructor. eapply rw_of; eauto. }
    assert (DX : res_rel (rw sp target)
      (' (ix, m2) <- deref pbits fuel index m1 ;;
      match mv m2 ix with
      | VInt _ => if s32 (i + 1) <? 0 then UB else elementToTarget i target v (new_array m2 v (Z.to_nat (s32 (i + 1))))
      | _ => hash_index ix v target (new_table v m2)
      end)
      (' (ix, m2) <- deref pbits fuel index m1' ;;
      match mv m2 ix with
      | VInt _ => if s32 (i + 1) <? 0 then UB else elementToTarget i target v (new_array m2 v (Z.to_nat (s32 (i + 1))))
      | _ => hash_index ix v target (new_table v m2)
      end)).
    { eapply bind_rel; [apply (deref_idx sp target); eauto|]. intros [ix m2] [ix' m2'] (P1&Q1&R1). cbn in P1, Q1, R1. subst ix'.
      rewrite (idx_mv sp target ix m2 m2' Q1 R1).
      assert (HX2 : res_rel (rw sp target) (hash_index ix v target (new_table v m2)) (hash_index ix v target (new_table v m2'))).
      { pose proof (rm_new_table sp v m2 m2' R1 Q) as R2.
        pose proof (HI sp ix v target _ _ (proj1 R2) (proj1 (proj2 R2)) Q (idx_hash _ _ _ _ _ Q1 R2)) as D.
        destruct D; constructor. eapply rw_of; eauto. }
      destruct (mv m2 ix); try exact HX2. destruct (_ <? 0); [constructor|]. apply element_local; auto. now apply new_array_local. }
    destruct (mv m1 v); try exact HX; try exact DX.
    - rewrite (rm_mo z z' sp m1 m1' id R). destruct (mo m1 id) as [[n|bs c| |]|]; try constructor.
      + destruct (_ <=? _); [|now apply element_local]. eapply bind_rel; [apply grow_local; eauto|]. intros. now apply element_local.
      + destruct (_ <=? _); [|now apply element_local]. destruct c; [constructor; apply rw_wr; auto; exact I|].
        eapply bind_rel; [apply grow_local; eauto|]. intros. now apply element_local.
    - destruct (_ <=? _); [|now apply element_local]. constructor. apply rw_wr; auto. exact I. }
  rewrite (rm_mv z z' sp m m' value H L). destruct (mv m value) eqn:V; try exact G.
  assert (LL : live sp l) by (pose proof (rm_val z z' sp m m' value H L) as X; rewrite V in X; exact X).
  rewrite (rm_mv z z' sp m m' l H LL). destruct (mv m l); try exact G. constructor. apply rw_wr; auto. exact I.
Qed.

(* with an int index the target is always written *)
Lemma wr_index_int_local sp target : forall fuel tv index value m m', rm sp m m' -> idx_ok sp target index -> live sp value ->
  res_rel (rw sp target) (wr_index pbits hash_index new_table fuel TI tv index value target m) (wr_index pbits hash_index new_table fuel TI tv index value target m').
Proof.
  induction fuel; intros tv index value m m' H IX L; cbn [wr_index]; [constructor|].
  destruct tv; try (now apply index_I_X_local); [|now apply index_I_E_local].
  rewrite (rm_mv z z' sp m m' value H L). destruct (mv m value) eqn:V; try constructor.
  assert (LL : live sp l) by (pose proof (rm_val z z' sp m m' value H L) as X; rewrite V in X; exact X).
  rewrite (rm_mv z z' sp m m' l H LL). now apply IHfuel.
Qed.
Lemma res_rel_rt sp target x y : res_rel (rw sp target) x y -> res_rel (rt sp target) x y.
Proof. intros [a b H| |]; constructor. now apply rw_rt. Qed.
Lemma wr_index_local sp target : forall fuel ti tv index value m m', rm sp m m' -> live sp index -> live sp value ->
  res_rel (rt sp target) (wr_index pbits hash_index new_table fuel ti tv index value target m) (wr_index pbits hash_index new_table fuel ti tv index value target m').
Proof.
  induction fuel; intros ti tv index value m m' H IX L; [constructor|].
  assert (HH : forall ix v a a', rm sp a a' -> live sp ix -> live sp v -> res_rel (rt sp target) (hash_index ix v target a) (hash_index ix v target a')).
  { intros ix v a a' R L1 L2. apply res_rel_rt. destruct (HI sp ix v target a a' (proj1 R) (proj1 (proj2 R)) L2 (or_introl L1)); constructor. eapply rw_of; eauto. }
  destruct ti.
  - apply res_rel_rt, wr_index_int_local; auto. now left.
  - destruct tv; constructor; now apply rt_rm.
  - cbn [wr_index]. rewrite (rm_mv z z' sp m m' index H IX), (rm_mv z z' sp m m' value H L).
    destruct (mv m index) eqn:V; try (destruct tv; constructor).
    assert (LL : live sp l) by (pose proof (rm_val z z' sp m m' index H IX) as X; rewrite V in X; exact X).
    rewrite (rm_mv z z' sp m m' l H LL). destruct tv; try (now apply IHfuel).
    destruct (mv m value) eqn:W; try constructor.
    assert (L2 : live sp l0) by (pose proof (rm_val z z' sp m m' value H L) as X; rewrite W in X; exact X).
    rewrite (rm_mv z z' sp m m' l0 H L2). now apply IHfuel.
  - destruct tv; cbn [wr_index].
    1,2: unfold index_E_I; eapply bind_rel; [apply (deref_local pbits z z' sp); eauto|]; intros [v m1] [v' m1'] (P&Q&R); cbn in P, Q, R; subst v';
      cbv zeta; apply HH; auto; now apply rm_new_table.
    + rewrite (rm_mv z z' sp m m' value H L). destruct (mv m value) eqn:V; try constructor.
      assert (LL : live sp l) by (pose proof (rm_val z z' sp m m' value H L) as X; rewrite V in X; exact X).
      rewrite (rm_mv z z' sp m m' l H LL). now apply IHfuel.
    + unfold index_E_E. eapply bind_rel; [apply (deref_local pbits z z' sp); eauto|]. intros [ix m1] [ix' m1'] (P&Q&R). cbn in P, Q, R. subst ix'.
      rewrite (rm_mv z z' sp m1 m1' ix R Q).
      assert (IE : res_rel (rt sp target) (index_I_E pbits hash_index new_table fuel ix value target m1) (index_I_E pbits hash_index new_table fuel ix value target m1')).
      { apply res_rel_rt, index_I_E_local; auto. now left. }
      assert (OT : res_rel (rt sp target)
        (' (v, m2) <- deref pbits fuel value m1 ;; match mv m2 v with VHash _ | VStruct _ => hash_index ix v target m2 | _ => Ok (wr m2 target (VInt 0)) end)
        (' (v, m2) <- deref pbits fuel value m1' ;; match mv m2 v with VHash _ | VStruct _ => hash_index ix v target m2 | _ => Ok (wr m2 target (VInt 0)) end)).
      { eapply bind_rel; [apply (deref_local pbits z z' sp); eauto|]. intros [v m2] [v' m2'] (P2&Q2&R2). cbn in P2, Q2, R2. subst v'.
        rewrite (rm_mv z z' sp m2 m2' v R2 Q2). destruct (mv m2 v); try (now apply HH); constructor; apply rt_wr; auto; exact I. }
      destruct (mv m1 ix); auto.
Qed.
End IndexLocal.
