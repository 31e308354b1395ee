From Verif Require Import Base BaseLemmas OpsModel ArrayModel ArraySpec.
Ltac Zify.zify_post_hook ::= Z.div_mod_to_equations.

(* ---- lists ---- *)
Lemma map_seq_eq (f : nat -> value) n : forall s L, length L = n -> (forall k, (k < n)%nat -> nth_error L k = Some (f (s + k)%nat)) ->
  map f (seq s n) = L.
Proof.
  induction n as [|n IH]; intros s L HL H; destruct L as [|x L]; try discriminate; [reflexivity|].
  cbn. f_equal.
  - specialize (H 0%nat ltac:(lia)). cbn in H. rewrite Nat.add_0_r in H. congruence.
  - apply IH; [now injection HL|]. intros k Hk. specialize (H (S k) ltac:(lia)). cbn in H. rewrite H. do 2 f_equal. lia.
Qed.
Lemma nth_error_skip {A} w (l : list A) k : nth_error (skipn w l) k = nth_error l (w + k)%nat.
Proof. revert l. induction w as [|w IH]; intros [|a l]; cbn; auto. now destruct k. Qed.
Lemma nth_error_first {A} w (l : list A) k : (k < w)%nat -> nth_error (firstn w l) k = nth_error l k.
Proof. revert l k. induction w as [|w IH]; intros [|a l] [|k] H; cbn; auto; try lia. apply IH. lia. Qed.
Lemma nth_error_rep {A} (x : A) n k : (k < n)%nat -> nth_error (repeat x n) k = Some x.
Proof. revert k. induction n as [|n IH]; intros [|k] H; cbn; auto; try lia. apply IH. lia. Qed.
Lemma upd_len {A} (l : list A) i x : length (upd l i x) = length l.
Proof. revert i. induction l as [|a l IH]; intros [|i]; cbn; auto. Qed.
Lemma nth_error_upd {A} (l : list A) i x k : nth_error (upd l i x) k = if (k =? i)%nat then (if (i <? length l)%nat then Some x else None) else nth_error l k.
Proof.
  revert i k. induction l as [|a l IH]; intros [|i] [|k]; cbn; auto.
  - now destruct (k =? i)%nat.
  - rewrite IH. reflexivity.
Qed.

(* ---- contents ---- *)
Definition velem (m : mem) (id k : nat) : value := mv m (LElem id k).
Lemma contents_len m id n : mo m id = Some (OVal n) -> length (contents m id) = n.
Proof. intros H. unfold contents. rewrite H, map_length, seq_length. reflexivity. Qed.
Lemma contents_nth m id n k : mo m id = Some (OVal n) -> (k < n)%nat -> nth_error (contents m id) k = Some (velem m id k).
Proof.
  intros H K. unfold contents. rewrite H, nth_error_map, nth_error_nth' with (d := 0%nat) by (rewrite seq_length; lia).
  cbn. unfold velem. rewrite seq_nth by lia. reflexivity.
Qed.
Lemma contents_eq m id n L : mo m id = Some (OVal n) -> length L = n ->
  (forall k, (k < n)%nat -> nth_error L k = Some (velem m id k)) -> contents m id = L.
Proof. intros H HL HK. unfold contents. rewrite H. apply map_seq_eq; auto. Qed.
Lemma contents_ext m m' id : mo m id = mo m' id -> (forall k, velem m id k = velem m' id k) -> contents m id = contents m' id.
Proof. intros H E. unfold contents. rewrite H. destruct (mo m' id) as [[]|]; auto. apply map_ext. exact E. Qed.

(* nothing but the elements and the size of id differ *)
Definition frame (m m' : mem) (id : nat) : Prop :=
  (forall x, (forall k, x <> LElem id k) -> mv m' x = mv m x) /\ (forall j, j <> id -> mo m' j = mo m j) /\
  mraw m' = mraw m /\ mnext m' = mnext m.
Lemma frame_refl m id : frame m m id.
Proof. repeat split; auto. Qed.
Lemma frame_trans a b c id : frame a b id -> frame b c id -> frame a c id.
Proof. intros (A1&A2&A3&A4) (B1&B2&B3&B4). unfold frame. rewrite B3, B4. repeat split; auto; intros; [rewrite B1|rewrite B2]; auto. Qed.
Lemma frame_obj m id o : frame m (wr_obj m id o) id.
Proof. unfold frame, wr_obj. cbn. repeat split; auto. intros j H. destruct (Nat.eq_dec j id); congruence. Qed.
Lemma frame_elem m id k v : frame m (wr m (LElem id k) v) id.
Proof. unfold frame, wr. cbn. repeat split; auto. intros x H. destruct (loc_eq_dec x (LElem id k)); [now apply H in e|auto]. Qed.

(* ---- growing ---- *)
Lemma grow_contents m id old n : mo m id = Some (OVal old) -> (old <= n)%nat ->
  let m' := grow_array m id n in
  mo m' id = Some (OVal n) /\ contents m' id = pad (contents m id) n /\ frame m m' id /\
  (forall k, (k < old)%nat -> velem m' id k = velem m id k) /\ (forall k, (old <= k < n)%nat -> velem m' id k = VInt 0).
Proof.
  intros H L. unfold grow_array. rewrite H. cbv zeta.
  match goal with |- context [wr_obj ?a id (OVal n)] => set (b := a) end.
  assert (E1: forall k, (k < old)%nat -> velem (wr_obj b id (OVal n)) id k = velem m id k).
  { intros k K. unfold velem, b. cbn [mv wr_obj]. destruct (Nat.eq_dec id id); [|congruence]. replace (k <? old)%nat with true by lia. reflexivity. }
  assert (E2: forall k, (old <= k < n)%nat -> velem (wr_obj b id (OVal n)) id k = VInt 0).
  { intros k K. unfold velem, b. cbn [mv wr_obj]. destruct (Nat.eq_dec id id); [|congruence].
    replace (k <? old)%nat with false by lia. replace (k <? n)%nat with true by lia. reflexivity. }
  assert (EO: mo (wr_obj b id (OVal n)) id = Some (OVal n)) by (cbn; destruct (Nat.eq_dec id id); congruence).
  split; [exact EO|]. split.
  - apply contents_eq with n; [exact EO| |].
    + unfold pad. rewrite app_length, repeat_length, (contents_len m id old) by auto. lia.
    + intros k K. unfold pad. rewrite (contents_len m id old) by auto. destruct (Nat.lt_ge_cases k old).
      * rewrite nth_error_app1 by (rewrite (contents_len m id old); auto). rewrite E1 by auto. apply contents_nth with old; auto.
      * rewrite nth_error_app2 by (rewrite (contents_len m id old); auto). rewrite (contents_len m id old) by auto.
        rewrite nth_error_rep by lia. now rewrite E2 by lia.
  - split; [|auto]. unfold frame, b. cbn. split; [|split; [|auto]].
    + intros x Hx. destruct x as [| |i k| | |]; auto. destruct (Nat.eq_dec i id) as [->|]; auto. now destruct (Hx k).
    + intros j Hj. destruct (Nat.eq_dec j id); congruence.
Qed.
Lemma grow_ok m id old n : mo m id = Some (OVal old) -> Z.of_nat old <= n + 1 <= 134217727 -> -1 <= n ->
  grow m id n = Ok (grow_array m id (Z.to_nat (n + 1))).
Proof.
  intros H L N. unfold grow. rewrite H. unfold VALUE_SIZE. rewrite s32_id by (unfold is_s32; lia).
  replace ((0 <=? n + 1) && ((n + 1) * 16 <=? 2147483647) && (Z.of_nat old <=? n + 1)) with true by lia. reflexivity.
Qed.

(* ---- splicing ---- *)

Lemma nth_insert l w c k : (w <= length l)%nat -> (k < length l + c)%nat ->
  nth_error (insert_list l w c) k = if (k <? w)%nat then nth_error l k else if (k <? w + c)%nat then Some (VInt 0) else nth_error l (k - c).
Proof.
  intros W K. unfold insert_list. destruct (k <? w)%nat eqn:E1.
  - rewrite nth_error_app1 by (rewrite firstn_length; lia). apply nth_error_first. lia.
  - rewrite nth_error_app2 by (rewrite firstn_length; lia). rewrite firstn_length. replace (Nat.min w (length l)) with w by lia.
    destruct (k <? w + c)%nat eqn:E2.
    + rewrite nth_error_app1 by (rewrite repeat_length; lia). apply nth_error_rep. lia.
    + rewrite nth_error_app2 by (rewrite repeat_length; lia). rewrite repeat_length, nth_error_skip. f_equal. lia.
Qed.
Lemma nth_remove l w c k : (w + c <= length l)%nat -> (k < length l - c)%nat ->
  nth_error (remove_list l w c) k = if (k <? w)%nat then nth_error l k else nth_error l (k + c).
Proof.
  intros W K. unfold remove_list. destruct (k <? w)%nat eqn:E1.
  - rewrite nth_error_app1 by (rewrite firstn_length; lia). apply nth_error_first. lia.
  - rewrite nth_error_app2 by (rewrite firstn_length; lia). rewrite firstn_length. replace (Nat.min w (length l)) with w by lia.
    rewrite nth_error_skip. f_equal. lia.
Qed.
Lemma insert_len l w c : (w <= length l)%nat -> length (insert_list l w c) = (length l + c)%nat.
Proof. intros. unfold insert_list. rewrite !app_length, firstn_length, repeat_length, skipn_length. lia. Qed.
Lemma remove_len l w c : (w + c <= length l)%nat -> length (remove_list l w c) = (length l - c)%nat.
Proof. intros. unfold remove_list. rewrite !app_length, firstn_length, skipn_length. lia. Qed.

Lemma move_ok m id to from n cap : 0 <= to -> 0 <= from -> to + n <= cap -> from + n <= cap -> exists m',
  move m id to from n cap = Ok m' /\ frame m m' id /\ mo m' id = mo m id /\
  forall k, velem m' id k = if (to <=? Z.of_nat k) && (Z.of_nat k <? to + n) then velem m id (Z.to_nat (Z.of_nat k - to + from)) else velem m id k.
Proof.
  intros A B C D. unfold move. replace (_ && _) with true by lia. eexists. split; [reflexivity|]. split; [|split; [reflexivity|]].
  - unfold frame. cbn [mv mo mraw mnext]. split; [|auto]. intros x Hx. destruct x as [| |i k| | |]; auto.
    destruct (Nat.eq_dec i id) as [->|]; auto. now destruct (Hx k).
  - intros k. unfold velem. cbn [mv]. destruct (Nat.eq_dec id id); [|congruence]. reflexivity.
Qed.
Lemma zero_ok m id from n cap : 0 <= from -> from + n <= cap -> exists m',
  zero m id from n cap = Ok m' /\ frame m m' id /\ mo m' id = mo m id /\
  forall k, velem m' id k = if (from <=? Z.of_nat k) && (Z.of_nat k <? from + n) then VInt 0 else velem m id k.
Proof.
  intros A B. unfold zero. replace (_ && _) with true by lia. eexists. split; [reflexivity|]. split; [|split; [reflexivity|]].
  - unfold frame. cbn [mv mo mraw mnext]. split; [|auto]. intros x Hx. destruct x as [| |i k| | |]; auto.
    destruct (Nat.eq_dec i id) as [->|]; auto. now destruct (Hx k).
  - intros k. unfold velem. cbn [mv]. destruct (Nat.eq_dec id id); [|congruence]. reflexivity.
Qed.

Lemma insert_ok m id n w c : mo m id = Some (OVal n) -> 0 <= w <= Z.of_nat n -> 0 <= c -> Z.of_nat n + c <= 134217727 -> exists m',
  arrayInsertEx m id w c = Ok m' /\ frame m m' id /\ mo m' id = Some (OVal (n + Z.to_nat c)) /\
  contents m' id = insert_list (contents m id) (Z.to_nat w) (Z.to_nat c).
Proof.
  intros H W C B. unfold arrayInsertEx. rewrite H. rewrite (u32_id w), (u32_id c) by (unfold is_u32; lia).
  rewrite u32_add_r. replace (Z.of_nat n + (c - 1)) with (Z.of_nat n + c - 1) by lia.
  pose proof (contents_len m id n H) as CL.
  assert (G: exists m1, grow m id (u32 (Z.of_nat n + c - 1)) = Ok m1 /\ frame m m1 id /\ mo m1 id = Some (OVal (n + Z.to_nat c)) /\
     (forall k, (k < n)%nat -> velem m1 id k = velem m id k) /\ (forall k, (n <= k < n + Z.to_nat c)%nat -> velem m1 id k = VInt 0)).
  { assert (EG: grow m id (u32 (Z.of_nat n + c - 1)) = Ok (grow_array m id (n + Z.to_nat c))).
    { replace (grow m id (u32 (Z.of_nat n + c - 1))) with (grow m id (Z.of_nat n + c - 1)) by (unfold grow; now rewrite s32_u32).
      rewrite (grow_ok m id n) by (auto; lia). do 2 f_equal. lia. }
    rewrite EG. eexists. split; [reflexivity|]. destruct (grow_contents m id n (n + Z.to_nat c) H ltac:(lia)) as (A1&A2&A3&A4&A5). auto. }
  destruct G as (m1&->&F1&O1&E1&E2). cbn [bind].
  rewrite (u32_id (Z.of_nat n - w)), (u32_id (w + c)), (u32_id (Z.of_nat n + c)) by (unfold is_u32; lia).
  destruct (Z.of_nat n - w =? 0) eqn:EE.
  - exists m1. split; [reflexivity|]. split; [exact F1|]. split; [exact O1|].
    apply contents_eq with (n + Z.to_nat c)%nat; auto.
    + rewrite insert_len; lia.
    + intros k K. rewrite nth_insert by lia. destruct (k <? Z.to_nat w)%nat eqn:E3.
      * rewrite E1 by lia. apply contents_nth with n; auto; lia.
      * replace (k <? _)%nat with true by lia. rewrite E2 by lia. reflexivity.
  - destruct (move_ok m1 id (w + c) w (Z.of_nat n - w) (Z.of_nat n + c)) as (m2&->&F2&O2&E3); try lia. cbn [bind].
    destruct (zero_ok m2 id w c (Z.of_nat n + c)) as (m3&->&F3&O3&E4); try lia. exists m3. split; [reflexivity|].
    split; [eauto using frame_trans|]. split; [congruence|].
    apply contents_eq with (n + Z.to_nat c)%nat; [congruence|rewrite insert_len; lia|].
    intros k K. rewrite nth_insert by lia. rewrite E4.
    destruct (k <? Z.to_nat w)%nat eqn:K1.
    + replace (_ && _) with false by lia. rewrite E3. replace (_ && _) with false by lia. rewrite E1 by lia. apply contents_nth with n; auto; lia.
    + destruct (k <? Z.to_nat w + Z.to_nat c)%nat eqn:K2.
      * replace (_ && _) with true by lia. reflexivity.
      * replace (_ && _) with false by lia. rewrite E3. replace (_ && _) with true by lia. rewrite E1 by lia.
        replace (Z.to_nat (Z.of_nat k - (w + c) + w)) with (k - Z.to_nat c)%nat by lia. apply contents_nth with n; auto; lia.
Qed.

Lemma remove_ok m id n w c : mo m id = Some (OVal n) -> is_u32 w -> 0 <= c -> Z.of_nat n <= 2147483647 -> c <= 2147483647 -> exists m',
  arrayRemoveEx m id w c = Ok m' /\ frame m m' id /\
  mo m' id = Some (OVal (length (remove_list (contents m id) (Z.to_nat w) (Z.to_nat c)))) /\
  contents m' id = remove_list (contents m id) (Z.to_nat w) (Z.to_nat c).
Proof.
  intros H W C B C2. unfold is_u32 in W. unfold arrayRemoveEx. rewrite H. rewrite (u32_id w) by (unfold is_u32; lia).
  pose proof (contents_len m id n H) as CL.
  destruct (w <? Z.of_nat n) eqn:E.
  - rewrite (u32_id (w + c)) by (unfold is_u32; lia).
    destruct (Z.of_nat n <=? w + c) eqn:E1.
    + eexists. split; [reflexivity|]. split; [apply frame_obj|].
      assert (EL: remove_list (contents m id) (Z.to_nat w) (Z.to_nat c) = firstn (Z.to_nat w) (contents m id)).
      { unfold remove_list. rewrite skipn_all2 by lia. apply app_nil_r. }
      rewrite EL. rewrite firstn_length. replace (Nat.min (Z.to_nat w) (length (contents m id))) with (Z.to_nat w) by lia.
      assert (EO: mo (wr_obj m id (OVal (Z.to_nat w))) id = Some (OVal (Z.to_nat w))) by (cbn; destruct (Nat.eq_dec id id); congruence).
      split; [exact EO|]. eapply contents_eq; [exact EO|rewrite firstn_length; lia|]. intros k K. rewrite nth_error_first by lia.
      apply (contents_nth m id n); auto; lia.
    + destruct (move_ok m id w (w + c) (Z.of_nat n - (w + c)) (Z.of_nat n)) as (m1&->&F1&O1&E3); try lia. cbn [bind].
      rewrite (u32_id (Z.of_nat n - c)) by (unfold is_u32; lia).
      eexists. split; [reflexivity|]. split; [eapply frame_trans; [exact F1|apply frame_obj]|].
      rewrite remove_len by lia. rewrite CL. replace (Z.to_nat (Z.of_nat n - c)) with (n - Z.to_nat c)%nat by lia.
      assert (EO: mo (wr_obj m1 id (OVal (n - Z.to_nat c))) id = Some (OVal (n - Z.to_nat c))) by (cbn; destruct (Nat.eq_dec id id); congruence).
      split; [exact EO|]. eapply contents_eq; [exact EO|rewrite remove_len; lia|]. intros k K. rewrite nth_remove by lia.
      change (velem (wr_obj m1 id _) id k) with (velem m1 id k). rewrite E3.
      destruct (k <? Z.to_nat w)%nat eqn:K1.
      * replace (_ && _) with false by lia. apply (contents_nth m id n); auto; lia.
      * replace (_ && _) with true by lia. replace (Z.to_nat (Z.of_nat k - w + (w + c))) with (k + Z.to_nat c)%nat by lia.
        apply (contents_nth m id n); auto; lia.
  - exists m. split; [reflexivity|]. split; [apply frame_refl|].
    assert (EL: remove_list (contents m id) (Z.to_nat w) (Z.to_nat c) = contents m id).
    { unfold remove_list. rewrite firstn_all2, skipn_all2 by lia. apply app_nil_r. }
    rewrite EL, CL. auto.
Qed.
Lemma remove_insert l w c : (w <= length l)%nat -> remove_list (insert_list l w c) w c = l.
Proof.
  intros W. unfold remove_list, insert_list. rewrite firstn_app, firstn_firstn, Nat.min_id, firstn_length.
  replace (w - Nat.min w (length l))%nat with 0%nat by lia. cbn [firstn]. rewrite app_nil_r.
  rewrite skipn_app, firstn_length, (skipn_all2 (firstn w l)) by (rewrite firstn_length; lia). cbn [app].
  rewrite skipn_app, (skipn_all2 (repeat _ _)) by (rewrite repeat_length; lia). rewrite repeat_length. cbn [app].
  replace (w + c - Nat.min w (length l) - c)%nat with 0%nat by lia. cbn [skipn]. apply firstn_skipn.
Qed.
