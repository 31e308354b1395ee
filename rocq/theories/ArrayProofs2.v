From Verif Require Import Base BaseLemmas OpsModel ArrayModel ArraySpec ArrayProofs.
Ltac Zify.zify_post_hook ::= Z.div_mod_to_equations.

Lemma wr_same m l v : mv (wr m l v) l = v.
Proof. cbn. destruct (loc_eq_dec l l); congruence. Qed.
Lemma wr_other m l v x : x <> l -> mv (wr m l v) x = mv m x.
Proof. intros H. cbn. destruct (loc_eq_dec x l); congruence. Qed.
Definition scratch (x : loc) : Prop := match x with LStack n => (n < 4)%nat | LTemp1 | LTemp2 => True | _ => False end.
(* nothing but scratch locations and array id differ *)
Definition sframe (m m' : mem) (id : nat) : Prop :=
  (forall x, ~ scratch x -> (forall k, x <> LElem id k) -> mv m' x = mv m x) /\ (forall j, j <> id -> mo m' j = mo m j) /\
  mraw m' = mraw m /\ mnext m' = mnext m.
Lemma sframe_refl m id : sframe m m id.
Proof. split; [auto|]. split; auto. Qed.
Lemma sframe_trans a b c id : sframe a b id -> sframe b c id -> sframe a c id.
Proof. intros (A1&A2&A3&A4) (B1&B2&B3&B4). unfold sframe. rewrite B3, B4. split; [|split; [|auto]]; intros; [rewrite B1|rewrite B2]; auto. Qed.
Lemma sframe_frame a b id : frame a b id -> sframe a b id.
Proof. intros (A1&A2&A3&A4). split; [auto|]. split; auto. Qed.
Lemma sframe_wr m l v id : scratch l -> sframe m (wr m l v) id.
Proof. intros S. split; [|split; auto]. intros x H _. apply wr_other. intros ->. auto. Qed.
Lemma contents_scratch m l v id : scratch l -> contents (wr m l v) id = contents m id.
Proof.
  intros S. apply contents_ext; [reflexivity|]. intros k. unfold velem. apply wr_other. intros <-.
  destruct S.
Qed.

(* variable x holds array id of n elements and everything is where it should be *)
Record holds (m : mem) (x : loc) (id n : nat) : Prop := mkHolds {
  h_var : ~ scratch x; h_self : forall k, x <> LElem id k; h_val : mv m x = VArr id; h_obj : mo m id = Some (OVal n) }.
Lemma holds_sframe m m' x id n n' : holds m x id n -> sframe m m' id -> mo m' id = Some (OVal n') -> holds m' x id n'.
Proof. intros [A B C D] (F&_) O. split; auto. rewrite F; auto. Qed.
Lemma holds_scratch m x id n l v : holds m x id n -> scratch l -> holds (wr m l v) x id n.
Proof. intros H S. eapply holds_sframe; [exact H|now apply sframe_wr|]. apply (h_obj _ _ _ _ H). Qed.

Lemma contents_write m id n k v : mo m id = Some (OVal n) -> contents (wr m (LElem id k) v) id = upd (contents m id) k v.
Proof.
  intros H. pose proof (contents_len m id n H) as CL. eapply contents_eq; [exact H|rewrite upd_len; exact CL|].
  intros j J. rewrite nth_error_upd, CL. unfold velem. destruct (j =? k)%nat eqn:E.
  - apply Nat.eqb_eq in E. subst j. replace (k <? n)%nat with true by lia. now rewrite wr_same.
  - rewrite wr_other by (intros [= ->]; lia). rewrite (contents_nth m id n) by auto. reflexivity.
Qed.

Definition args1 (m : mem) (x : loc) : mem := wr (wr m (LStack 0) (VRef x)) (LStack 1) (VInt 0).
Definition args2 (m : mem) (x : loc) (v : value) : mem := wr (wr m (LStack 0) (VRef x)) (LStack 1) v.
Lemma args2_facts m x v id n : holds m x id n ->
  let m1 := args2 m x v in holds m1 x id n /\ mv m1 (LStack 0) = VRef x /\ mv m1 (LStack 1) = v /\ contents m1 id = contents m id /\ sframe m m1 id.
Proof.
  intros H. unfold args2. cbv zeta. assert (scratch (LStack 0)) by (unfold scratch; auto). assert (scratch (LStack 1)) by (unfold scratch; auto).
  split; [apply holds_scratch; [apply holds_scratch|]; auto|]. split; [rewrite wr_other by discriminate; apply wr_same|]. split; [apply wr_same|].
  split; [rewrite !contents_scratch by auto; reflexivity|]. eapply sframe_trans; apply sframe_wr; auto.
Qed.
Section P.
Variable pbits : value -> Z.
Lemma ref_slot m x id n f : holds m x id n -> mv m (LStack 0) = VRef x ->
  ifValueArray pbits (S (S f)) (LStack 0) m = Ok (Some (x, id), m).
Proof.
  intros [A B C D] E. unfold ifValueArray. cbn [deref]. rewrite E. cbn [deref]. rewrite C. cbn [bind]. rewrite C, D. reflexivity.
Qed.
Lemma plain_deref m l f : plain (mv m l) -> deref pbits (S f) l m = Ok (l, m).
Proof. intros H. cbn [deref]. destruct (mv m l); cbn in H; auto; contradiction. Qed.

(* one library call: the new contents, and what the call leaves in the result slot *)
Lemma push_front_ok m x id n v f : holds m x id n -> Z.of_nat n + 1 <= 134217727 -> exists m',
  lib_push pbits (S (S f)) (LStack 0) (LStack 1) (args2 m x v) = Ok m' /\ holds m' x id (S n) /\ sframe m m' id /\
  contents m' id = v :: contents m id.
Proof.
  intros H B. destruct (args2_facts m x v id n H) as (H1&E0&E1&C&F). unfold lib_push. rewrite (ref_slot _ x id n) by auto. cbn [bind].
  set (m1 := args2 m x v) in *.
  destruct (insert_ok m1 id n 0 1 (h_obj _ _ _ _ H1)) as (m2&->&F2&O2&C2); try lia. cbn [bind].
  eexists. split; [reflexivity|]. rewrite Nat.add_comm in O2. change (Z.to_nat 1 + n)%nat with (S n) in O2.
  assert (SF: sframe m (wr m2 (LElem id 0) (mv m2 (LStack 1))) id).
  { eapply sframe_trans; [exact F|]. eapply sframe_trans; [apply sframe_frame; exact F2|]. apply sframe_frame, frame_elem. }
  split; [eapply holds_sframe; [exact H|exact SF|exact O2]|]. split; [exact SF|]. erewrite contents_write by exact O2.
  rewrite C2, C. destruct F2 as (F2&_). rewrite F2 by discriminate. rewrite E1. reflexivity.
Qed.
Lemma push_back_ok m x id n v f : holds m x id n -> Z.of_nat n + 1 <= 134217727 -> exists m',
  lib_push_back pbits (S (S f)) (LStack 0) (LStack 1) (args2 m x v) = Ok m' /\ holds m' x id (S n) /\ sframe m m' id /\
  contents m' id = contents m id ++ [v].
Proof.
  intros H B. destruct (args2_facts m x v id n H) as (H1&E0&E1&C&F). unfold lib_push_back. rewrite (ref_slot _ x id n) by auto. cbn [bind].
  set (m1 := args2 m x v) in *. rewrite (h_obj _ _ _ _ H1).
  destruct (insert_ok m1 id n (Z.of_nat n) 1 (h_obj _ _ _ _ H1)) as (m2&->&F2&O2&C2); try lia. cbn [bind].
  eexists. split; [reflexivity|]. rewrite Nat.add_comm in O2. change (Z.to_nat 1 + n)%nat with (S n) in O2.
  assert (SF: sframe m (wr m2 (LElem id n) (mv m2 (LStack 1))) id).
  { eapply sframe_trans; [exact F|]. eapply sframe_trans; [apply sframe_frame; exact F2|]. apply sframe_frame, frame_elem. }
  split; [eapply holds_sframe; [exact H|exact SF|exact O2]|]. split; [exact SF|]. erewrite contents_write by exact O2.
  rewrite C2, C. destruct F2 as (F2&_). rewrite F2 by discriminate. rewrite E1.
  pose proof (contents_len m id n (h_obj _ _ _ _ H)) as CL. rewrite Nat2Z.id. unfold insert_list. rewrite <- CL, firstn_all, skipn_all.
  change (Z.to_nat 1) with 1%nat. cbn [repeat app]. clear. induction (contents m id) as [|a l IH]; cbn; [reflexivity|now f_equal].
Qed.
Lemma pop_ok m x id n f : holds m x id n -> Z.of_nat n <= 2147483647 -> exists m' v,
  lib_pop pbits (S (S f)) (LStack 0) (LStack 1) (args1 m x) = Ok m' /\ mv m' (LStack 1) = v /\ holds m' x id (Nat.pred n) /\ sframe m m' id /\
  match contents m id with [] => v = VInt 0 /\ contents m' id = [] | a :: t => v = a /\ contents m' id = t end.
Proof.
  intros H B. destruct (args2_facts m x (VInt 0) id n H) as (H1&E0&E1&C&F). unfold lib_pop. change (args1 m x) with (args2 m x (VInt 0)).
  rewrite (ref_slot _ x id n) by auto. cbn [bind]. set (m1 := args2 m x (VInt 0)) in *.
  rewrite (h_obj _ _ _ _ H1). pose proof (contents_len m id n (h_obj _ _ _ _ H)) as CL.
  destruct n as [|n].
  - exists m1, (VInt 0). split; [reflexivity|]. split; [exact E1|]. split; [exact H1|]. split; [exact F|].
    destruct (contents m id); [|discriminate]. auto.
  - set (m2 := wr m1 (LStack 1) (mv m1 (LElem id 0))). assert (S1: scratch (LStack 1)) by (unfold scratch; auto).
    assert (H2: holds m2 x id (S n)) by now apply holds_scratch.
    destruct (remove_ok m2 id (S n) 0 1 (h_obj _ _ _ _ H2)) as (m3&->&F3&O3&C3); try (unfold is_u32; lia).
    assert (C2: contents m2 id = contents m id) by (unfold m2; rewrite contents_scratch by auto; exact C).
    exists m3, (mv m1 (LElem id 0)). split; [reflexivity|]. destruct (F3) as (F3'&_).
    split; [rewrite F3' by discriminate; unfold m2; now rewrite wr_same|].
    assert (SF: sframe m m3 id). { eapply sframe_trans; [exact F|]. eapply sframe_trans; [apply (sframe_wr m1 (LStack 1)); exact S1|]. apply sframe_frame. exact F3. }
    rewrite C2 in O3, C3. pose proof (contents_nth m1 id (S n) 0 (h_obj _ _ _ _ H1) ltac:(lia)) as N0. rewrite C in N0.
    destruct (contents m id) as [|a t]; [discriminate|]. cbn in N0. injection N0 as N0. unfold velem in N0.
    change (remove_list (a :: t) (Z.to_nat 0) (Z.to_nat 1)) with t in *.
    split; [eapply holds_sframe; [exact H|exact SF|]|]. 1:{ rewrite O3. cbn in CL. injection CL as ->. reflexivity. }
    split; [exact SF|]. auto.
Qed.
Lemma removelast_contents m id n : mo m id = Some (OVal (S n)) -> contents (wr_obj m id (OVal n)) id = removelast (contents m id) /\
  contents m id = removelast (contents m id) ++ [velem m id n].
Proof.
  intros H. assert (E: contents (wr_obj m id (OVal n)) id = map (fun k => mv m (LElem id k)) (seq 0 n)).
  { unfold contents. cbn. destruct (Nat.eq_dec id id); [reflexivity|congruence]. }
  assert (E2: contents m id = contents (wr_obj m id (OVal n)) id ++ [velem m id n]).
  { rewrite E. unfold contents. rewrite H, seq_S, map_app. reflexivity. }
  assert (E3: removelast (contents m id) = contents (wr_obj m id (OVal n)) id) by (rewrite E2; apply removelast_last).
  rewrite E3. auto.
Qed.
Lemma pop_back_ok m x id n f : holds m x id n -> exists m' v,
  lib_pop_back pbits (S (S f)) (LStack 0) (LStack 1) (args1 m x) = Ok m' /\ mv m' (LStack 1) = v /\ holds m' x id (Nat.pred n) /\ sframe m m' id /\
  (contents m id = [] /\ v = VInt 0 /\ contents m' id = [] \/ exists t, contents m id = t ++ [v] /\ contents m' id = t).
Proof.
  intros H. destruct (args2_facts m x (VInt 0) id n H) as (H1&E0&E1&C&F). unfold lib_pop_back. change (args1 m x) with (args2 m x (VInt 0)).
  rewrite (ref_slot _ x id n) by auto. cbn [bind]. set (m1 := args2 m x (VInt 0)) in *.
  rewrite (h_obj _ _ _ _ H1). pose proof (contents_len m id n (h_obj _ _ _ _ H)) as CL.
  destruct n as [|n].
  - exists m1, (VInt 0). split; [reflexivity|]. split; [exact E1|]. split; [exact H1|]. split; [exact F|]. left.
    destruct (contents m id); [|discriminate]. auto.
  - cbv zeta. set (m2 := wr_obj m1 id (OVal n)). assert (S1: scratch (LStack 1)) by (unfold scratch; auto).
    destruct (removelast_contents m1 id n (h_obj _ _ _ _ H1)) as (R1&R2). fold m2 in R1.
    eexists _, _. split; [reflexivity|]. split; [apply wr_same|].
    assert (SF: sframe m (wr m2 (LStack 1) (mv m2 (LElem id n))) id).
    { eapply sframe_trans; [exact F|]. eapply sframe_trans; [apply sframe_frame, frame_obj|]. apply sframe_wr. exact S1. }
    split; [eapply holds_sframe; [exact H|exact SF|]|]. 1:{ cbn. destruct (Nat.eq_dec id id); [reflexivity|congruence]. }
    split; [exact SF|]. right. exists (contents m2 id). rewrite contents_scratch by auto. split; [|reflexivity].
    rewrite R1, <- C. exact R2.
Qed.
Lemma count_ok m x id n f : holds m x id n -> Z.of_nat n <= 2147483647 -> exists m',
  lib_count pbits (S (S f)) (LStack 0) (LStack 1) (args1 m x) = Ok m' /\ mv m' (LStack 1) = VInt (lenZ (contents m id)) /\ holds m' x id n /\ sframe m m' id /\
  contents m' id = contents m id.
Proof.
  intros H B. destruct (args2_facts m x (VInt 0) id n H) as (H1&E0&E1&C&F). unfold lib_count. change (args1 m x) with (args2 m x (VInt 0)).
  rewrite (ref_slot _ x id n) by auto. cbn [bind]. rewrite (h_obj _ _ _ _ H1). eexists. split; [reflexivity|].
  rewrite wr_same, u32_id by (unfold is_u32; lia). assert (S1: scratch (LStack 1)) by (unfold scratch; auto).
  split; [unfold lenZ; rewrite (contents_len m id n) by apply (h_obj _ _ _ _ H); reflexivity|].
  split; [now apply holds_scratch|]. split; [eapply sframe_trans; [exact F|]; now apply sframe_wr|]. now rewrite contents_scratch.
Qed.
End P.
Lemma member_ok r i : 0 <= i < 2097152 -> member r i = Ok (VMem r (Z.to_nat i)).
Proof.
  intros H. unfold member. rewrite u32_id by (unfold is_u32; lia). replace ((i * 256 / 536870912) mod 4 =? 0) with true by lia.
  do 3 f_equal. lia.
Qed.
