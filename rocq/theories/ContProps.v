(* Properties of the utility containers (C41). *)
From Verif Require Import Base BaseLemmas ContModel ContSpec.

Section Arr.
Variable A : Type.
Variable d : A.

Definition rep (w : warr A) (l : list A) : Prop :=
  wnew w = length (wl w) /\ (wcnt w <= wnew w)%nat /\ firstn (wcnt w) (wl w) = l.
Lemma rep_len w l : rep w l -> length l = wcnt w.
Proof. intros [R [S T]]. rewrite <- T, firstn_length. lia. Qed.
Lemma rep_delete w l : rep w l -> delete_ok A (wl w) (wnew w) = true.
Proof. intros [R [S T]]. unfold delete_ok. destruct (wl w); auto. rewrite R. apply Nat.leb_refl. Qed.

Lemma alloc_rep n w l : rep w l -> exists w', w_alloc A d n w = Some w' /\ rep w' l /\ (n <= wnew w')%nat /\ wcnt w' = wcnt w.
Proof.
  intros H. pose proof (rep_delete _ _ H) as D. pose proof (rep_len _ _ H) as LN. destruct H as [R [S T]].
  unfold w_alloc. destruct (wnew w <? n)%nat eqn:E; [apply Nat.ltb_lt in E|apply Nat.ltb_ge in E].
  2: { eexists. split; [reflexivity|]. repeat split; auto. }
  set (ns := (n + n / 2 + 1)%nat).
  assert (n <= ns)%nat by (unfold ns; lia).
  destruct (wl w) as [|x r] eqn:L.
  - cbn in R. eexists. split; [reflexivity|]. cbn [wl wnew wcnt].
    assert (wcnt w = 0)%nat by lia. unfold rep. cbn [wl wnew wcnt]. unfold new_array. rewrite repeat_length, H0.
    repeat split; try lia. rewrite H0 in T. cbn in T |- *. auto.
  - rewrite D. replace (wcnt w <=? length (x :: r))%nat with true by (symmetry; apply Nat.leb_le; lia).
    replace (wcnt w <=? ns)%nat with true by (symmetry; apply Nat.leb_le; lia). cbn [andb].
    eexists. split; [reflexivity|]. unfold rep. cbn [wl wnew wcnt].
    rewrite app_length, firstn_length. unfold new_array. rewrite repeat_length.
    repeat split; try lia.
    rewrite firstn_app, firstn_firstn, firstn_length.
    replace (wcnt w - Nat.min (wcnt w) (length (x :: r)))%nat with 0%nat by lia.
    rewrite Nat.min_id. cbn [firstn]. now rewrite app_nil_r.
Qed.
Lemma firstn_S_nth (l : list A) : forall n x, nth_error l n = Some x -> firstn (S n) l = firstn n l ++ [x].
Proof. induction l; intros [|n] x H; cbn in *; try discriminate; [congruence|]. f_equal. auto. Qed.
Lemma upd_firstn (l : list A) : forall i v, (i < length l)%nat -> upd l i v = firstn i l ++ v :: skipn (S i) l.
Proof. induction l; intros [|i] v H; cbn in *; try lia; auto. f_equal. apply IHl. lia. Qed.
Lemma firstn_upd_lt (l : list A) : forall n i v, (i < n)%nat -> firstn n (upd l i v) = upd (firstn n l) i v.
Proof. induction l; intros [|n] [|i] v H; cbn; try lia; auto. f_equal. apply IHl. lia. Qed.
Lemma firstn_upd_ge (l : list A) : forall n i v, (n <= i)%nat -> firstn n (upd l i v) = firstn n l.
Proof. induction l; intros [|n] [|i] v H; cbn; try lia; auto. f_equal. apply IHl. lia. Qed.

Lemma append_rep v w l : rep w l -> exists w', w_append A d v w = Some w' /\ rep w' (l ++ [v]).
Proof.
  intros H. pose proof (rep_len _ _ H) as LN. unfold w_append, w_put, w_get.
  assert (G : exists w1, (if (wnew w <=? wcnt w)%nat then
             match w_alloc A d (wcnt w + 1) w with Some w' => Some (mkW (wl w') (wnew w') (wcnt w + 1)) | None => None end
           else if (wcnt w <=? wcnt w)%nat then Some (mkW (wl w) (wnew w) (wcnt w + 1)) else Some w) = Some w1
           /\ wnew w1 = length (wl w1) /\ (wcnt w < wnew w1)%nat /\ wcnt w1 = S (wcnt w) /\ firstn (wcnt w) (wl w1) = l).
  { destruct (wnew w <=? wcnt w)%nat eqn:E; [apply Nat.leb_le in E|apply Nat.leb_gt in E].
    - destruct (alloc_rep (wcnt w + 1) _ _ H) as [w' [X [Y [Z Q]]]]. rewrite X. eexists. split; [reflexivity|].
      destruct Y as [Y1 [Y2 Y3]]. cbn [wl wnew wcnt]. repeat split; try lia. congruence.
    - rewrite Nat.leb_refl. eexists. split; [reflexivity|]. destruct H as [R [S T]]. cbn [wl wnew wcnt]. repeat split; auto; lia. }
  destruct G as [w1 [-> [B1 [B2 [B3 B4]]]]].
  destruct (nth_error (wl w1) (wcnt w)) eqn:N; [|apply nth_error_None in N; lia].
  eexists. split; [reflexivity|]. unfold rep. cbn [wl wnew wcnt]. rewrite upd_length. repeat split; try lia.
  rewrite B3. rewrite (firstn_S_nth _ _ v) by (apply upd_same; lia). f_equal. rewrite firstn_upd_ge by lia. auto.
Qed.
Lemma get_rep i w l : rep w l -> (i < length l)%nat -> exists x, nth_error l i = Some x /\ w_get A d i w = Some (x, w).
Proof.
  intros H L. pose proof (rep_len _ _ H) as LN. destruct H as [R [S T]]. unfold w_get.
  replace (wnew w <=? i)%nat with false by (symmetry; apply Nat.leb_gt; lia).
  replace (wcnt w <=? i)%nat with false by (symmetry; apply Nat.leb_gt; lia).
  assert (N : nth_error (wl w) i = nth_error l i) by (rewrite <- T; rewrite nth_error_firstn_lt; auto; lia).
  rewrite N. destruct (nth_error l i) eqn:E; [eauto|apply nth_error_None in E; lia].
Qed.
Lemma kept_spec loc : forall l i s, (Z.of_nat loc <= s) ->
  kept A l i loc s = firstn (loc - i) l ++ skipn (Z.to_nat s - i) l.
Proof.
  induction l; intros i s H; cbn [kept]; [now rewrite firstn_nil, skipn_nil|].
  rewrite (IHl (S i) s H).
  destruct (i <? loc)%nat eqn:E1; [apply Nat.ltb_lt in E1|apply Nat.ltb_ge in E1]; cbn [orb].
  - replace (loc - i)%nat with (S (loc - S i)) by lia. replace (Z.to_nat s - i)%nat with (S (Z.to_nat s - S i)) by lia. reflexivity.
  - replace (loc - i)%nat with 0%nat by lia. replace (loc - S i)%nat with 0%nat by lia. cbn [firstn app].
    destruct (s <=? Z.of_nat i) eqn:E2; [apply Z.leb_le in E2|apply Z.leb_gt in E2].
    + replace (Z.to_nat s - i)%nat with 0%nat by lia. replace (Z.to_nat s - S i)%nat with 0%nat by lia. reflexivity.
    + replace (Z.to_nat s - i)%nat with (S (Z.to_nat s - S i)) by lia. reflexivity.
Qed.
Lemma remove_rep i n w l : rep w l -> (i + n <= length l)%nat -> Z.of_nat (i + n) < 4294967296 ->
  exists w', w_remove A d i n w = Some w' /\ rep w' (firstn i l ++ skipn (i + n) l).
Proof.
  intros H L B. pose proof (rep_len _ _ H) as LN. pose proof (rep_delete _ _ H) as D. destruct H as [R [S T]].
  unfold w_remove. destruct (wcnt w <=? i)%nat eqn:E; [apply Nat.leb_le in E|apply Nat.leb_gt in E].
  - exists w. split; [auto|]. assert (n = 0 /\ i = length l)%nat as [-> ->] by lia.
    rewrite firstn_all, skipn_all2 by lia. rewrite app_nil_r. split; auto.
  - replace (wcnt w <? n)%nat with false by (symmetry; apply Nat.ltb_ge; lia). cbn [andb].
    rewrite D. replace (wcnt w <=? length (wl w))%nat with true by (symmetry; apply Nat.leb_le; lia). cbn [negb orb].
    rewrite T.
    set (na := if (i =? 0)%nat then _ else _).
    assert (NA : na = firstn i l ++ skipn (i + n) l).
    { unfold na. destruct (i =? 0)%nat eqn:I0.
      - apply Nat.eqb_eq in I0. subst i. cbn [firstn app Nat.add]. apply firstn_all2. rewrite skipn_length. lia.
      - rewrite u32_id by (unfold is_u32; lia). rewrite kept_spec by lia. rewrite !Nat.sub_0_r, Nat2Z.id. reflexivity. }
    assert (LNA : length na = (wcnt w - n)%nat).
    { rewrite NA, app_length, firstn_length, skipn_length. lia. }
    replace (wcnt w - n <? length na)%nat with false by (symmetry; apply Nat.ltb_ge; lia).
    eexists. split; [reflexivity|]. unfold rep. cbn [wl wnew wcnt]. unfold new_array.
    rewrite app_length, repeat_length. repeat split; try lia.
    replace (wcnt w - n - length na)%nat with 0%nat by lia. cbn [repeat]. rewrite app_nil_r.
    rewrite NA. apply firstn_all2. rewrite <- NA. lia.
Qed.
Lemma removelast_firstn_len' (l : list A) : removelast l = firstn (length l - 1) l.
Proof.
  induction l as [|x [|y r] IH]; auto. change (removelast (x :: y :: r)) with (x :: removelast (y :: r)).
  rewrite IH. cbn [length]. replace (S (S (length r)) - 1)%nat with (S (S (length r) - 1)) by lia. reflexivity.
Qed.
Lemma last_nth_error (l : list A) x : l <> [] -> nth_error l (length l - 1) = Some (last l x).
Proof.
  induction l as [|a [|b r] IH]; intros H; [congruence|reflexivity|].
  change (last (a :: b :: r) x) with (last (b :: r) x). rewrite <- IH by discriminate. cbn [length].
  replace (S (S (length r)) - 1)%nat with (S (S (length r) - 1)) by lia. reflexivity.
Qed.

(* one call on the real array, with what the caller can see of it *)
Definition w_step (w : warr A) (o : aop A) : option (warr A * aobs A) :=
  match o with
  | AAppend v => option_map (fun w' => (w', BNone)) (w_append A d v w)
  | APut i v => option_map (fun w' => (w', BNone)) (w_put A d i v w)
  | AGet i => option_map (fun p => (snd p, BVal (fst p))) (w_get A d i w)
  | APop => Some (w_pop A w, BNone)
  | ACount => Some (w, BCount (wcnt w))
  | ATail => option_map (fun t => (w, BTail t)) (w_tail A w)
  | AClear => option_map (fun w' => (w', BNone)) (w_clear A w)
  | ARemove i n => option_map (fun w' => (w', BCount (wcnt w'))) (w_remove A d i n w)
  | ATruncate n => option_map (fun w' => (w', BNone)) (w_set_count A d n w)
  end.
Fixpoint w_run (w : warr A) (os : list (aop A)) : option (list (aobs A)) :=
  match os with
  | [] => Some []
  | o :: r => match w_step w o with
              | Some (w', b) => option_map (cons b) (w_run w' r)
              | None => None end
  end.

Lemma step_rep o w l : rep w l -> a_valid A l o ->
  exists w', w_step w o = Some (w', snd (a_step A l o)) /\ rep w' (fst (a_step A l o)).
Proof.
  intros H V. pose proof (rep_len _ _ H) as LN. destruct o; cbn [w_step a_step fst snd a_valid] in *.
  - destruct (append_rep v _ _ H) as [w' [E R]]. rewrite E. exists w'. auto.
  - destruct (get_rep _ _ _ H V) as [x [N E]]. unfold w_put. rewrite E. cbn [option_map].
    eexists. split; [reflexivity|]. destruct H as [R [S T]]. unfold rep. cbn [wl wnew wcnt]. rewrite upd_length.
    repeat split; auto. rewrite firstn_upd_lt by lia. rewrite T. apply upd_firstn. lia.
  - destruct (get_rep _ _ _ H V) as [x [N E]]. rewrite E, N. cbn. exists w. auto.
  - eexists. split; [reflexivity|]. unfold w_pop. rewrite removelast_firstn_len', LN.
    destruct H as [R [S T]]. destruct (0 <? wcnt w)%nat eqn:E.
    + unfold rep. cbn [wl wnew wcnt]. repeat split; auto; try lia. rewrite <- T. rewrite firstn_firstn. f_equal. lia.
    + apply Nat.ltb_ge in E. replace (wcnt w - 1)%nat with 0%nat by lia. split; auto. split; auto.
      rewrite <- T. replace (wcnt w) with 0%nat by lia. reflexivity.
  - exists w. rewrite <- LN. auto.
  - exists w. split; [|auto]. unfold w_tail. destruct H as [R [S T]]. destruct (wcnt w =? 0)%nat eqn:E.
    + apply Nat.eqb_eq in E. destruct l; [reflexivity|cbn in LN; lia].
    + apply Nat.eqb_neq in E. destruct l as [|a r] eqn:L; [cbn in LN; lia|]. rewrite <- L in *.
      assert (N : nth_error (wl w) (wcnt w - 1) = nth_error l (wcnt w - 1)).
      { rewrite <- T at 1. rewrite nth_error_firstn_lt by lia. reflexivity. }
      rewrite N, <- LN. rewrite (last_nth_error l a) by (rewrite L; discriminate). reflexivity.
  - unfold w_clear. rewrite (rep_delete _ _ H). eexists. split; [reflexivity|]. repeat split; cbn; auto.
  - destruct V as [V1 V2]. destruct (remove_rep _ _ _ _ H V1 V2) as [w' [E R]]. rewrite E. cbn [option_map].
    exists w'. split; [|auto]. f_equal. f_equal. f_equal. rewrite <- (rep_len _ _ R), app_length, firstn_length, skipn_length. lia.
  - unfold w_set_count.
    assert (G : exists w1, (if (wnew w <=? n)%nat then w_alloc A d (n + 1) w else Some w) = Some w1 /\ rep w1 l).
    { destruct (wnew w <=? n)%nat; [|eauto]. destruct (alloc_rep (n + 1) _ _ H) as [w1 [X [Y _]]]. eauto. }
    destruct G as [w1 [-> R1]]. eexists. split; [reflexivity|]. pose proof (rep_len _ _ R1). destruct R1 as [R [S T]].
    unfold rep. cbn [wl wnew wcnt]. repeat split; auto; try lia. rewrite <- T, firstn_firstn. f_equal. lia.
Qed.

(* C41: the array behaves as a list for every sequence of calls that are valid on a list *)
Theorem c41_array_is_list : forall n os,
  a_valid_run A [] os ->
  exists w, w_init A d n = Some w /\ w_run w os = Some (a_run A [] os).
Proof.
  intros n os V.
  assert (R0 : rep (mkW [] 0 0) []) by (repeat split; cbn; auto).
  destruct (alloc_rep n _ _ R0) as [w [E [R _]]]. exists w. split; [auto|].
  clear E R0. revert w R V. generalize (@nil A) as l. induction os as [|o os IH]; intros l w R V; [reflexivity|].
  destruct V as [V1 V2]. destruct (step_rep o w l R V1) as [w' [E R']]. cbn [w_run a_run]. rewrite E.
  destruct (a_step A l o) as [l' b] eqn:Q. cbn [fst snd] in *. rewrite (IH l' w' R' V2). reflexivity.
Qed.
(* assignment makes an independent copy that is again a list *)
Theorem c41_array_assign : forall a w la lw, rep a la -> rep w lw ->
  exists w', w_assign A d a w = Some w' /\ rep w' la.
Proof.
  intros a w la lw Ha Hw. pose proof (rep_delete _ _ Hw) as D. unfold w_assign, w_clear. rewrite D.
  destruct Ha as [R [S T]].
  replace (wcnt a <=? length (wl a))%nat with true by (symmetry; apply Nat.leb_le; lia).
  replace (wcnt a <=? wnew a)%nat with true by (symmetry; apply Nat.leb_le; lia). cbn [andb].
  eexists. split; [reflexivity|]. unfold rep. cbn [wl wnew wcnt]. unfold new_array.
  rewrite app_length, firstn_length, repeat_length. repeat split; try lia.
  rewrite firstn_app, firstn_firstn, firstn_length.
  replace (wcnt a - Nat.min (wcnt a) (length (wl a)))%nat with 0%nat by lia.
  rewrite Nat.min_id. cbn [firstn]. now rewrite app_nil_r.
Qed.
(* the copy constructor does not: a copy of an array with spare room has a block that is too small
   for its own counter; appending to it, or destroying it, goes outside the block *)
Theorem c41_array_copy_refuted : forall x,
  exists a b, rep a [x] /\ w_copy A a = Some b /\ w_append A d x b = None /\ w_clear A b = None.
Proof.
  intros x. exists (mkW [x; d; d] 3 1), (mkW [x] 3 1).
  split; [|split; [|split]]; [unfold rep; cbn; auto|reflexivity|reflexivity|reflexivity].
Qed.
(* removing a range that sticks out over the end writes outside the new block, or leaves an extra
   element *)
Theorem c41_array_remove_refuted : forall x y z,
  (exists w, rep w [x; y; z] /\ w_remove A d 2 2 w = None) /\
  (exists w w', rep w [x; y; z] /\ w_remove A d 1 9 w = Some w' /\ rep w' [x; d]).
Proof.
  intros x y z. split.
  - exists (mkW [x; y; z] 3 3). split; [unfold rep; cbn; auto|reflexivity].
  - exists (mkW [x; y; z] 3 3), (mkW [x; d] 2 2). split; [unfold rep; cbn; auto|]. split; [reflexivity|unfold rep; cbn; auto].
Qed.
End Arr.

(* a non-trivial valid history *)
Example c41_array_ex :
  let os := [AAppend 5; AAppend 6; AAppend 7; APop; AAppend 8; ARemove 1 1; APut 0 9; AGet 1; ATail; ACount; ATruncate 1; ACount; AClear; ACount] in
  a_valid_run Z [] os /\
  a_run Z [] os = [BNone; BNone; BNone; BNone; BNone; BCount 2; BNone; BVal 8; BTail (Some 8); BCount 2; BNone; BCount 1; BNone; BCount 0].
Proof. cbn. split; [|reflexivity]. intuition lia. Qed.

(* ---------------------------------------------------------------- hash tables *)
Section Tab.
Variable V : Type.
Variable dv : V.
Notation cell := (Z * V)%type.

Definition lk (l : list cell) (m h : Z) : option V :=
  match nthZ l (h mod m) with Some (k, v) => if k =? h then Some v else None | None => None end.
(* keys the table stores *)
Definition stored (t : tab V) (h : Z) : Prop := exists i v, nth_error (tl t) i = Some (h, v) /\ h <> NULL_HASH.
Definition placed (l : list cell) (m : Z) : Prop :=
  Z.of_nat (length l) = m /\
  forall i k v, nth_error l i = Some (k, v) -> k <> NULL_HASH -> 0 <= k /\ k mod m = Z.of_nat i.
Definition tab_ok (t : tab V) : Prop := In (tmod t) prime_table /\ placed (tl t) (tmod t).

Definition rank (m : Z) : nat := length (filter (fun p => m <? p) prime_table).
Lemma rank_le m : (rank m <= length prime_table)%nat.
Proof. unfold rank. induction prime_table as [|a r IH]; cbn; [lia|]. destruct (m <? a); cbn; lia. Qed.
Lemma prime_pos m : In m prime_table -> 2 <= m <= 49157.
Proof.
  intros H. assert (B : forallb (fun m => (2 <=? m) && (m <=? 49157)) prime_table = true) by reflexivity.
  rewrite forallb_forall in B. specialize (B m H). lia.
Qed.
Lemma next_some m q : In m prime_table -> next_prime m prime_table = Some q ->
  In q prime_table /\ m < q /\ (rank q < rank m)%nat /\ forall p, In p prime_table -> m < p -> q <= p.
Proof.
  intros H N.
  assert (B : forallb (fun m => match next_prime m prime_table with
      | Some q => existsb (Z.eqb q) prime_table && (m <? q) && (rank q <? rank m)%nat
                  && forallb (fun p => (p <=? m) || (q <=? p)) prime_table
      | None => true end) prime_table = true) by (vm_compute; reflexivity).
  rewrite forallb_forall in B. specialize (B m H). rewrite N in B. rewrite !andb_true_iff in B. destruct B as [[[B1 B2] B3] B4].
  apply existsb_exists in B1. destruct B1 as [x [X1 X2]]. apply Z.eqb_eq in X2. subst x. split; auto. split; [lia|].
  apply Nat.ltb_lt in B3. split; auto. rewrite forallb_forall in B4. intros p Hp L. specialize (B4 p Hp). lia.
Qed.
Lemma next_none m : In m prime_table -> next_prime m prime_table = None -> m = 49157.
Proof.
  intros H N.
  assert (B : forallb (fun m => match next_prime m prime_table with Some q => true | None => m =? 49157 end) prime_table = true) by (vm_compute; reflexivity).
  rewrite forallb_forall in B. specialize (B m H). rewrite N in B. lia.
Qed.
Lemma rank_mono m q : In m prime_table -> In q prime_table -> m < q -> (rank q < rank m)%nat.
Proof.
  intros H Q L.
  assert (B : forallb (fun m => forallb (fun q => (q <=? m) || (rank q <? rank m)%nat) prime_table) prime_table = true) by (vm_compute; reflexivity).
  rewrite forallb_forall in B. specialize (B m H). rewrite forallb_forall in B. specialize (B q Q).
  apply orb_true_iff in B. destruct B as [B|B]; [lia|now apply Nat.ltb_lt].
Qed.

Lemma mod_idx h m (l : list cell) : 0 < m -> Z.of_nat (length l) = m -> exists k v, nthZ l (h mod m) = Some (k, v) /\ nth_error l (Z.to_nat (h mod m)) = Some (k, v).
Proof.
  intros Hm HL. pose proof (Z.mod_pos_bound h m Hm) as B. unfold nthZ.
  replace (h mod m <? 0) with false by (symmetry; apply Z.ltb_ge; lia).
  destruct (nth_error l (Z.to_nat (h mod m))) as [[k v]|] eqn:E; [eauto|]. apply nth_error_None in E. lia.
Qed.
Lemma lk_upd l m h k v : 0 < m -> Z.of_nat (length l) = m -> k <> NULL_HASH ->
  lk (upd l (Z.to_nat (k mod m)) (k, v)) m h =
    if h =? k then Some v else if h mod m =? k mod m then None else lk l m h.
Proof.
  intros Hm HL Hk. pose proof (Z.mod_pos_bound h m Hm). pose proof (Z.mod_pos_bound k m Hm).
  unfold lk, nthZ. replace (h mod m <? 0) with false by (symmetry; apply Z.ltb_ge; lia).
  destruct (h =? k) eqn:E1; [apply Z.eqb_eq in E1; subst h|apply Z.eqb_neq in E1].
  - rewrite upd_same by lia. now rewrite Z.eqb_refl.
  - destruct (h mod m =? k mod m) eqn:E2; [apply Z.eqb_eq in E2; rewrite E2|apply Z.eqb_neq in E2].
    + rewrite upd_same by lia. replace (k =? h) with false by (symmetry; apply Z.eqb_neq; lia). reflexivity.
    + rewrite upd_other by lia. reflexivity.
Qed.
Lemma placed_upd l m k v : 0 < m -> 0 <= k -> placed l m -> placed (upd l (Z.to_nat (k mod m)) (k, v)) m.
Proof.
  intros Hm Hk [L P]. pose proof (Z.mod_pos_bound k m Hm). split; [now rewrite upd_length|].
  intros i k' v' E N. destruct (Nat.eq_dec i (Z.to_nat (k mod m))) as [->|D].
  - rewrite upd_same in E by lia. injection E as <- <-. split; [auto|]. lia.
  - rewrite upd_other in E by lia. eauto.
Qed.
Fixpoint assoc (l : list cell) (h : Z) : option V :=
  match l with [] => None | (k, v) :: r => if k =? h then Some v else assoc r h end.
Lemma assoc_in l h v : assoc l h = Some v -> exists i, nth_error l i = Some (h, v).
Proof.
  induction l as [|[k w] r IH]; cbn; [discriminate|]. destruct (k =? h) eqn:E.
  - apply Z.eqb_eq in E. intros [= ->]. exists 0%nat. cbn. congruence.
  - intros H. destruct (IH H) as [i Hi]. exists (S i). auto.
Qed.
Lemma assoc_none l h : assoc l h = None -> forall i v, nth_error l i = Some (h, v) -> False.
Proof.
  induction l as [|[k w] r IH]; cbn; intros H [|i] v E; try discriminate; cbn in E.
  - injection E as -> ->. now rewrite Z.eqb_refl in H.
  - destruct (k =? h); [discriminate|]. eauto.
Qed.
Lemma assoc_lk l m h : 0 < m -> placed l m -> h <> NULL_HASH -> assoc l h = lk l m h.
Proof.
  intros Hm [L P] N. destruct (mod_idx h m l Hm L) as [k [v [E1 E2]]].
  destruct (assoc l h) as [w|] eqn:A.
  - destruct (assoc_in _ _ _ A) as [i Hi]. destruct (P _ _ _ Hi N) as [_ Q].
    unfold lk. rewrite E1. rewrite Q, Nat2Z.id in E2. rewrite E2 in Hi. injection Hi as -> ->. now rewrite Z.eqb_refl.
  - unfold lk. rewrite E1. destruct (k =? h) eqn:E; [|auto]. apply Z.eqb_eq in E. subst k. exfalso. eapply assoc_none; eauto.
Qed.
Lemma nodes_placed m : 0 < m -> placed (nodes dv m) m.
Proof.
  intros H. unfold nodes. split; [rewrite repeat_length; lia|]. intros i k v E N.
  apply nth_error_In, repeat_spec in E. injection E as -> _. congruence.
Qed.
Lemma nodes_lk m h : 0 < m -> h <> NULL_HASH -> lk (nodes dv m) m h = None.
Proof.
  intros H N. destruct (mod_idx h m (nodes dv m) H (proj1 (nodes_placed m H))) as [k [v [E1 E2]]].
  unfold lk. rewrite E1. apply nth_error_In, repeat_spec in E2. injection E2 as -> _.
  replace (NULL_HASH =? h) with false by (symmetry; apply Z.eqb_neq; lia). reflexivity.
Qed.
Lemma rehash_ok q : 0 < q -> forall old new l,
  (forall i k v, nth_error old i = Some (k, v) -> k <> NULL_HASH -> 0 <= k) ->
  placed new q -> rehash old q new = Some l ->
  placed l q /\ forall h, h <> NULL_HASH -> lk l q h = match lk new q h with Some v => Some v | None => assoc old h end.
Proof.
  intros Hq. induction old as [|[k v] r IH]; intros new l PO PN H; cbn in H.
  - injection H as <-. split; auto. intros h _. cbn. now destruct (lk new q h).
  - assert (PO' : forall i k v, nth_error r i = Some (k, v) -> k <> NULL_HASH -> 0 <= k) by (intros i; apply (PO (S i))).
    destruct (k =? NULL_HASH) eqn:E.
    + apply Z.eqb_eq in E. destruct (IH _ _ PO' PN H) as [A B]. split; auto. intros h N. rewrite (B h N). cbn [assoc].
      replace (k =? h) with false by (symmetry; apply Z.eqb_neq; lia). reflexivity.
    + apply Z.eqb_neq in E. destruct (mod_idx k q new Hq (proj1 PN)) as [k' [v' [N1 N2]]]. rewrite N1 in H.
      destruct (k' =? NULL_HASH) eqn:E'; [|discriminate]. apply Z.eqb_eq in E'. subst k'.
      pose proof (PO 0%nat _ _ eq_refl E) as K0.
      destruct (IH _ _ PO' (placed_upd new q k v Hq K0 PN) H) as [A B]. split; auto. intros h N.
      rewrite (B h N). rewrite lk_upd by (auto; apply PN). cbn [assoc]. rewrite (Z.eqb_sym k h).
      destruct (h =? k) eqn:E1.
      * apply Z.eqb_eq in E1. subst h. unfold lk at 1. rewrite N1.
        replace (NULL_HASH =? k) with false by (symmetry; apply Z.eqb_neq; lia). reflexivity.
      * destruct (h mod q =? k mod q) eqn:E2; [|reflexivity]. apply Z.eqb_eq in E2.
        unfold lk. rewrite E2, N1. replace (NULL_HASH =? h) with false by (symmetry; apply Z.eqb_neq; lia). reflexivity.
Qed.
Lemma rehash_none q : 0 < q -> forall old new,
  (forall i j k v w, nth_error old i = Some (k, v) -> nth_error old j = Some (k, w) -> k <> NULL_HASH -> i = j) ->
  (forall i k v, nth_error old i = Some (k, v) -> k <> NULL_HASH -> 0 <= k) ->
  placed new q -> rehash old q new = None ->
  exists a b, a <> b /\ a mod q = b mod q /\ (exists i v, nth_error old i = Some (a, v)) /\ a <> NULL_HASH /\ b <> NULL_HASH /\
    ((exists i v, nth_error old i = Some (b, v)) \/ (exists i v, nth_error new i = Some (b, v)))
  \/ a = b /\ (exists i v, nth_error old i = Some (a, v)) /\ (exists i v, nth_error new i = Some (a, v)) /\ a <> NULL_HASH.
Proof.
  intros Hq. induction old as [|[k v] r IH]; intros new UQ PO PN H; cbn in H; [discriminate|].
  assert (PO' : forall i k v, nth_error r i = Some (k, v) -> k <> NULL_HASH -> 0 <= k) by (intros i; apply (PO (S i))).
  assert (UQ' : forall i j k v w, nth_error r i = Some (k, v) -> nth_error r j = Some (k, w) -> k <> NULL_HASH -> i = j).
  { intros i j k0 v0 w0 A B C. pose proof (UQ (S i) (S j) k0 v0 w0 A B C). lia. }
  destruct (k =? NULL_HASH) eqn:E.
  - destruct (IH _ UQ' PO' PN H) as [a [b [[A [B [[i [va C]] [D [D' F]]]]]|[A [[i [va B]] [C D]]]]]].
    + exists a, b. left. repeat split; auto; [exists (S i), va; auto|]. destruct F as [[j [w F]]|F]; [left; exists (S j), w; auto|auto].
    + exists a, b. right. repeat split; auto. exists (S i), va; auto.
  - apply Z.eqb_neq in E. destruct (mod_idx k q new Hq (proj1 PN)) as [k' [v' [N1 N2]]]. rewrite N1 in H.
    pose proof (PO 0%nat _ _ eq_refl E) as K0.
    destruct (k' =? NULL_HASH) eqn:E'.
    + apply Z.eqb_eq in E'. subst k'.
      assert (BND : (Z.to_nat (k mod q) < length new)%nat) by (apply nth_error_Some; rewrite N2; discriminate).
      assert (OLDNEW : forall b, (exists i w, nth_error (upd new (Z.to_nat (k mod q)) (k, v)) i = Some (b, w)) -> b = k \/ exists i w, nth_error new i = Some (b, w)).
      { intros b [i [w X]]. destruct (Nat.eq_dec i (Z.to_nat (k mod q))) as [->|D].
        - rewrite upd_same in X by lia. left. congruence.
        - rewrite upd_other in X by lia. right. eauto. }
      destruct (IH _ UQ' PO' (placed_upd new q k v Hq K0 PN) H) as [a [b [[A [B [[i [va C]] [D [D' F]]]]]|[A [[i [va B]] [C D]]]]]].
      * exists a, b. left. repeat split; auto; [exists (S i), va; auto|]. destruct F as [[j [w F]]|F]; [left; exists (S j), w; auto|].
        destruct (OLDNEW _ F) as [->|G]; [left; exists 0%nat, v; auto|auto].
      * subst b. destruct (OLDNEW _ C) as [->|G].
        -- exfalso. pose proof (UQ 0%nat (S i) k v va eq_refl B E). lia.
        -- exists a, a. right. repeat split; auto. exists (S i), va; auto.
    + apply Z.eqb_neq in E'. destruct (Z.eq_dec k k') as [->|D].
      * exists k', k'. right. repeat split; auto; [exists 0%nat, v; auto|eauto].
      * exists k, k'. left. repeat split; auto; [|exists 0%nat, v; auto|right; eauto].
        destruct (proj2 PN _ _ _ N2 E') as [_ Q]. rewrite Q. rewrite Z2Nat.id; [auto|]. apply Z.mod_pos_bound; auto.
Qed.

Definition collide (P : Z -> Prop) (p : Z) : Prop := exists a b, P a /\ P b /\ a <> b /\ a mod p = b mod p.
Lemma tab_uniq l m : 0 < m -> placed l m ->
  forall i j k v w, nth_error l i = Some (k, v) -> nth_error l j = Some (k, w) -> k <> NULL_HASH -> i = j.
Proof. intros Hm [L P] i j k v w A B N. destruct (P _ _ _ A N), (P _ _ _ B N). lia. Qed.
Lemma rehash_collide t q : tab_ok t -> In q prime_table -> rehash (tl t) q (nodes dv q) = None -> collide (stored t) q.
Proof.
  intros [I P] Iq H. pose proof (prime_pos _ I). pose proof (prime_pos _ Iq).
  destruct (rehash_none q ltac:(lia) (tl t) (nodes dv q)) as [a [b [[A [B [[i [v C]] [D [D' F]]]]]|[A [_ [[i [v C]] D]]]]]]; auto.
  - apply (tab_uniq _ (tmod t)); [lia|auto].
  - intros i k v E N. apply (proj2 P _ _ _ E N).
  - apply nodes_placed. lia.
  - exists a, b. repeat split; auto; [exists i, v; auto|]. destruct F as [[j [w F]]|[j [w F]]]; [exists j, w; auto|].
    apply nth_error_In, repeat_spec in F. injection F as -> _. congruence.
  - apply nth_error_In, repeat_spec in C. injection C as -> _. congruence.
Qed.
Lemma grow_ok t : tab_ok t -> forall fuel m, In m prime_table -> (rank m <= fuel)%nat ->
  match t_grow dv fuel m t with
  | Some t' => tab_ok t' /\ m < tmod t' /\ (forall h, h <> NULL_HASH -> lk (tl t') (tmod t') h = lk (tl t) (tmod t) h)
      /\ (forall h, stored t' h <-> stored t h) /\ (forall p, In p prime_table -> m < p < tmod t' -> collide (stored t) p)
  | None => forall p, In p prime_table -> m < p -> collide (stored t) p
  end.
Proof.
  intros T. induction fuel as [|n IH]; intros m Hm R; cbn [t_grow].
  - intros p Hp L. exfalso. assert (In p (filter (fun p => m <? p) prime_table)) by (apply filter_In; split; [auto|now apply Z.ltb_lt]).
    unfold rank in R. destruct (filter (fun p => m <? p) prime_table); [auto|cbn in R; lia].
  - destruct (next_prime m prime_table) as [q|] eqn:N.
    2: { apply next_none in N; auto. intros p Hp L. pose proof (prime_pos _ Hp). lia. }
    destruct (next_some _ _ Hm N) as [Q1 [Q2 [Q3 Q4]]]. pose proof (prime_pos _ Q1).
    destruct (rehash (tl t) q (nodes dv q)) as [l|] eqn:E.
    + destruct T as [I P]. pose proof (prime_pos _ I).
      destruct (rehash_ok q ltac:(lia) (tl t) (nodes dv q) l) as [A B]; auto.
      { intros i k v Hi Hk. apply (proj2 P _ _ _ Hi Hk). }
      { apply nodes_placed. lia. }
      assert (LK : forall h, h <> NULL_HASH -> lk l q h = lk (tl t) (tmod t) h).
      { intros h Nh. rewrite (B h Nh), nodes_lk by (auto; lia). apply assoc_lk; auto. lia. }
      assert (ST : forall l m h, 0 < m -> placed l m -> (stored (mkT m l) h <-> h <> NULL_HASH /\ lk l m h <> None)).
      { intros l0 m0 h Hm0 [L0 P0]. unfold stored. cbn [tl]. split.
        - intros [i [v [X Y]]]. split; auto. destruct (P0 _ _ _ X Y) as [_ Z0]. unfold lk, nthZ. rewrite Z0.
          replace (Z.of_nat i <? 0) with false by (symmetry; apply Z.ltb_ge; lia). rewrite Nat2Z.id, X, Z.eqb_refl. discriminate.
        - intros [Y X]. destruct (mod_idx h m0 l0 Hm0 L0) as [k [v [E1 E2]]]. unfold lk in X. rewrite E1 in X.
          destruct (k =? h) eqn:Ek; [|congruence]. apply Z.eqb_eq in Ek. subst k. eauto. }
      cbn [tmod tl]. split; [split; [auto|exact A]|]. split; [auto|]. split; [exact LK|]. split; [intros h; split|].
      * intros X. apply ST in X; [|lia|auto]. destruct t as [tm tl0]. cbn [tmod tl] in *. apply ST; [lia|auto|]. rewrite <- LK; tauto.
      * intros X. destruct t as [tm tl0]. cbn [tmod tl] in *. apply ST in X; [|lia|auto]. apply ST; [lia|auto|]. rewrite LK; tauto.
      * intros p Hp L. pose proof (Q4 p Hp ltac:(lia)). lia.
    + pose proof (rehash_collide t q T Q1 E) as C. specialize (IH q Q1 ltac:(lia)).
      destruct (t_grow dv n q t) as [t'|].
      * destruct IH as [A [B [D [F G]]]]. split; [exact A|]. split; [lia|]. split; [exact D|]. split; [exact F|].
        intros p Hp L. pose proof (Q4 p Hp ltac:(lia)). destruct (Z.eq_dec p q); [subst; auto|]. apply G; [auto|lia].
      * intros p Hp L. pose proof (Q4 p Hp ltac:(lia)). destruct (Z.eq_dec p q); [subst; auto|]. apply IH; [auto|lia].
Qed.
Lemma set_ok h v : 0 <= h -> h <> NULL_HASH -> forall fuel t, tab_ok t -> (rank (tmod t) < fuel)%nat ->
  match t_set_n dv fuel h v t with
  | Some t' => tab_ok t' /\ (forall k, k <> NULL_HASH -> lk (tl t') (tmod t') k = if k =? h then Some v else lk (tl t) (tmod t) k)
      /\ (forall k, stored t' k -> k = h \/ stored t k)
  | None => forall p, In p prime_table -> tmod t <= p -> collide (fun k => k = h \/ stored t k) p
  end.
Proof.
  intros H0 HN. induction fuel as [|n IH]; intros t T R; [lia|]. cbn [t_set_n].
  pose proof T as [I P]. pose proof (prime_pos _ I). assert (M : 0 < tmod t) by lia.
  destruct (mod_idx h (tmod t) (tl t) M (proj1 P)) as [k [w [E1 E2]]]. rewrite E1.
  destruct ((k =? NULL_HASH) || (k =? h)) eqn:B.
  - split; [split; [auto|apply placed_upd; auto]|]. cbn [tl tmod]. split.
    + intros x Nx. rewrite lk_upd by (auto; apply P). destruct (x =? h) eqn:X; auto.
      destruct (x mod tmod t =? h mod tmod t) eqn:Y; auto. apply Z.eqb_eq in Y. apply Z.eqb_neq in X.
      unfold lk. rewrite Y, E1. replace (k =? x) with false; auto. symmetry. apply Z.eqb_neq.
      apply orb_true_iff in B. destruct B as [B|B]; apply Z.eqb_eq in B; congruence.
    + intros x [i [u [X Nx]]]. cbn [tl] in X. destruct (Nat.eq_dec i (Z.to_nat (h mod tmod t))) as [->|D].
      * rewrite upd_same in X by (apply nth_error_Some; rewrite E2; discriminate). left. congruence.
      * rewrite upd_other in X by lia. right. exists i, u. auto.
  - apply orb_false_iff in B. destruct B as [B1 B2]. apply Z.eqb_neq in B1, B2.
    assert (C0 : collide (fun k => k = h \/ stored t k) (tmod t)).
    { exists h, k. repeat split; auto; [right; exists (Z.to_nat (h mod tmod t)), w; auto|].
      destruct (proj2 P _ _ _ E2 B1) as [_ Q]. rewrite Q, Z2Nat.id; auto. apply Z.mod_pos_bound; auto. }
    assert (CM : forall (P Q : Z -> Prop) p, (forall x, P x -> Q x) -> collide P p -> collide Q p).
    { intros P0 Q0 p X [a [b [Y [Z0 W]]]]. exists a, b. auto. }
    assert (RL : (rank (tmod t) <= length prime_table)%nat).
    { apply rank_le. }
    pose proof (grow_ok t T (length prime_table) (tmod t) I RL) as G.
    destruct (t_grow dv (length prime_table) (tmod t) t) as [t'|].
    + destruct G as [G1 [G2 [G3 [G4 G5]]]].
      assert (RK : (rank (tmod t') < rank (tmod t))%nat).
      { apply rank_mono; auto. apply G1. }
      specialize (IH t' G1 ltac:(lia)). destruct (t_set_n dv n h v t') as [t''|].
      * destruct IH as [A [B C]]. split; auto. split.
        -- intros x Nx. rewrite (B x Nx). destruct (x =? h); auto.
        -- intros x X. destruct (C _ X); [auto|]. right. now apply G4.
      * intros p Hp L. destruct (Z_lt_ge_dec p (tmod t')) as [L'|L'].
        -- destruct (Z.eq_dec p (tmod t)) as [->|]; [auto|]. apply (CM (stored t)); auto. apply G5; [auto|lia].
        -- apply (CM (fun k => k = h \/ stored t' k)); [|apply IH; auto; lia]. intros x [X|X]; [auto|]. right. now apply G4.
    + intros p Hp L. destruct (Z.eq_dec p (tmod t)) as [->|]; [auto|]. apply (CM (stored t)); auto. apply G; [auto|lia].
Qed.

(* ---- statements ---- *)
Definition t_step (t : tab V) (o : mop V) : option (tab V * option V) :=
  match o with
  | MSet h v => option_map (fun t' => (t', None)) (t_set dv h v t)
  | MRemove h => option_map (fun t' => (t', None)) (t_remove h t)
  | MGet h => option_map (fun r => (t, r)) (t_get h t)
  | MClear => Some (t_clear dv t, None)
  end.
Fixpoint t_run (t : tab V) (os : list (mop V)) : option (list (option V)) :=
  match os with
  | [] => Some []
  | o :: r => match t_step t o with Some (t', b) => option_map (cons b) (t_run t' r) | None => None end
  end.
Definition key_ok (o : mop V) : Prop := match mop_key V o with Some h => 0 <= h < 4294967296 /\ h <> NULL_HASH | None => True end.
Definition sets (os : list (mop V)) (h : Z) : Prop := exists v, In (MSet h v) os.

Definition trep (t : tab V) (m : map V) : Prop := tab_ok t /\ forall h, h <> NULL_HASH -> lk (tl t) (tmod t) h = m h.
Lemma tget_lk t h : tab_ok t -> t_get h t = Some (lk (tl t) (tmod t) h).
Proof.
  intros [I [L P]]. pose proof (prime_pos _ I). unfold t_get, lk.
  destruct (mod_idx h (tmod t) (tl t) ltac:(lia) L) as [k [v [E _]]]. rewrite E. reflexivity.
Qed.
Lemma init_ok hint t : t_init dv hint = Some t -> trep t (fun _ => None) /\ forall h, ~ stored t h.
Proof.
  unfold t_init. destruct (first_above hint prime_table) as [p|] eqn:E; [|discriminate]. intros [= <-].
  assert (I : In p prime_table).
  { revert E. generalize prime_table. induction l as [|a r IH]; cbn; [discriminate|]. destruct (hint <? a); [intros [= ->]; auto|auto]. }
  pose proof (prime_pos _ I). split; [split; [split; [auto|cbn [tl tmod]; apply nodes_placed; lia]|]|].
  - intros h N. cbn [tl tmod]. apply nodes_lk; [lia|auto].
  - intros h [i [v [X Y]]]. cbn [tl] in X. apply nth_error_In, repeat_spec in X. congruence.
Qed.
Lemma step_ok o t m : trep t m -> key_ok o ->
  match t_step t o with
  | Some (t', b) => b = snd (m_step V m o) /\ trep t' (fst (m_step V m o))
                    /\ forall k, stored t' k -> stored t k \/ exists v, o = MSet k v
  | None => exists h v, o = MSet h v /\ forall p, In p prime_table -> tmod t <= p -> collide (fun k => k = h \/ stored t k) p
  end.
Proof.
  intros [T M] K. destruct o as [h v|h|h|]; cbn [t_step m_step fst snd]; unfold key_ok in K; cbn [mop_key] in K.
  - assert (RL : (rank (tmod t) < S (length prime_table))%nat).
    { pose proof (rank_le (tmod t)). lia. }
    pose proof (set_ok h v ltac:(lia) ltac:(tauto) (S (length prime_table)) t T RL) as S1. unfold t_set.
    destruct (t_set_n dv (S (length prime_table)) h v t) as [t'|]; cbn [option_map].
    + destruct S1 as [A [B C]]. split; [auto|]. split; [split; [exact A|]|].
      * intros k N. rewrite (B k N). destruct (k =? h); auto.
      * intros k X. destruct (C k X) as [->|]; [right; eauto|auto].
    + exists h, v. auto.
  - pose proof T as [I [L P]]. pose proof (prime_pos _ I). unfold t_remove.
    destruct (mod_idx h (tmod t) (tl t) ltac:(lia) L) as [k [w [E1 E2]]]. rewrite E1. cbn [option_map].
    assert (BND : (Z.to_nat (h mod tmod t) < length (tl t))%nat) by (apply nth_error_Some; rewrite E2; discriminate).
    split; auto. destruct (k =? h) eqn:E.
    + apply Z.eqb_eq in E. subst k. split; [split; [split; [auto|]|]|].
      * cbn [tl tmod]. split; [now rewrite upd_length|]. intros i k u X N.
        destruct (Nat.eq_dec i (Z.to_nat (h mod tmod t))) as [->|D]; [rewrite upd_same in X by auto; congruence|].
        rewrite upd_other in X by lia. eauto.
      * intros x N. cbn [tl tmod]. rewrite <- M by auto. unfold lk, nthZ. pose proof (Z.mod_pos_bound x (tmod t) ltac:(lia)).
        pose proof (Z.mod_pos_bound h (tmod t) ltac:(lia)).
        replace (x mod tmod t <? 0) with false by (symmetry; apply Z.ltb_ge; lia).
        destruct (x =? h) eqn:Xh; [apply Z.eqb_eq in Xh; subst x|apply Z.eqb_neq in Xh].
        -- rewrite upd_same by auto. replace (NULL_HASH =? h) with false by (symmetry; apply Z.eqb_neq; lia). auto.
        -- destruct (Z.eq_dec (x mod tmod t) (h mod tmod t)) as [Q|Q].
           ++ rewrite Q, upd_same by auto. rewrite E2. replace (NULL_HASH =? x) with false by (symmetry; apply Z.eqb_neq; lia).
              replace (h =? x) with false by (symmetry; apply Z.eqb_neq; lia). auto.
           ++ rewrite upd_other by lia. auto.
      * intros x [i [u [X N]]]. cbn [tl] in X. left.
        destruct (Nat.eq_dec i (Z.to_nat (h mod tmod t))) as [->|D]; [rewrite upd_same in X by auto; congruence|].
        rewrite upd_other in X by lia. exists i, u. auto.
    + split; [split; [auto|]|auto]. intros x N. rewrite M by auto. destruct (x =? h) eqn:Xh; auto.
      apply Z.eqb_eq in Xh. subst x. rewrite <- M by auto. unfold lk. now rewrite E1, E.
  - rewrite (tget_lk t h T). cbn [option_map]. rewrite M by tauto. split; [auto|]. split; [split; auto|auto].
  - split; [auto|]. split; [split; [split; [cbn; auto|cbn [tl tmod t_clear]; apply nodes_placed; lia]|]|].
    + intros h N. cbn [tl tmod t_clear]. apply nodes_lk; [lia|auto].
    + intros k [i [u [X N]]]. cbn [tl t_clear] in X. apply nth_error_In, repeat_spec in X. congruence.
Qed.

(* C41: as long as the table finds room, it answers as a finite map for every history *)
Theorem c41_table_is_map_partial : forall hint t os obs,
  t_init dv hint = Some t -> Forall key_ok os ->
  t_run t os = Some obs -> obs = m_run V (fun _ => None) os.
Proof.
  intros hint t os obs I K. destruct (init_ok _ _ I) as [R _]. clear I hint.
  revert t R obs. generalize (fun _ : Z => @None V) as m. induction os as [|o os IH]; intros m t R obs H.
  - cbn in H. injection H as <-. reflexivity.
  - inversion K; subst. cbn [t_run m_run] in *. pose proof (step_ok o t m R H2) as S.
    destruct (t_step t o) as [[t' b]|]; [|discriminate]. destruct S as [-> [R' _]].
    destruct (m_step V m o) as [m' b']. cbn [fst snd] in *. destruct (t_run t' os) as [obs'|] eqn:E; [|discriminate].
    cbn in H. injection H as <-. f_equal. eauto.
Qed.
(* C41: keys that differ modulo the largest size always find room *)
Theorem c41_table_is_map : forall hint os,
  hint < 49157 -> Forall key_ok os ->
  (forall a b, sets os a -> sets os b -> a <> b -> a mod 49157 <> b mod 49157) ->
  exists t, t_init dv hint = Some t /\ t_run t os = Some (m_run V (fun _ => None) os).
Proof.
  intros hint os Hh K D.
  assert (I : exists t, t_init dv hint = Some t).
  { unfold t_init. assert (exists p, first_above hint prime_table = Some p) as [p ->]; [|eauto].
    assert (X : forall l, In 49157 l -> exists p, first_above hint l = Some p).
    { induction l as [|a r IH]; cbn; [tauto|]. destruct (hint <? a) eqn:E; [eauto|]. intros [->|X]; [apply Z.ltb_ge in E; lia|auto]. }
    apply X. cbn. tauto. }
  destruct I as [t I]. exists t. split; auto. destruct (init_ok _ _ I) as [R S0]. clear I Hh hint.
  assert (G : forall (pre : Z -> Prop) os m t, trep t m -> Forall key_ok os -> (forall k, stored t k -> pre k) ->
     (forall a b, (pre a \/ sets os a) -> (pre b \/ sets os b) -> a <> b -> a mod 49157 <> b mod 49157) ->
     t_run t os = Some (m_run V m os)).
  { clear. intros pre os. revert pre. induction os as [|o os IH]; intros pre m t R K S D; [reflexivity|].
    inversion K; subst. cbn [t_run m_run]. pose proof (step_ok o t m R H1) as X.
    destruct (t_step t o) as [[t' b]|].
    - destruct X as [-> [R' X]]. destruct (m_step V m o) as [m' b']. cbn [fst snd] in *.
      rewrite (IH (fun k => pre k \/ exists v, o = MSet k v) m' t'); auto.
      + intros k Hk. destruct (X k Hk); [left; auto|auto].
      + intros a b Ha Hb. apply D.
        * destruct Ha as [[Ha|[v ->]]|[v Ha]]; [auto|right; exists v; left; auto|right; exists v; right; auto].
        * destruct Hb as [[Hb|[v ->]]|[v Hb]]; [auto|right; exists v; left; auto|right; exists v; right; auto].
    - exfalso. destruct X as [h [v [-> X]]]. destruct (X 49157) as [a [b [A [B [N E]]]]]; [cbn; tauto|apply prime_pos; apply R|].
      apply (D a b); auto.
      + destruct A as [->|A]; [right; exists v; left; auto|left; auto].
      + destruct B as [->|B]; [right; exists v; left; auto|left; auto]. }
  apply (G (fun _ => False)); auto.
  intros a b [[]|A] [[]|B]. auto.
Qed.
(* the empty-slot marker is a key like any other to the caller, but is found without being set *)
Theorem c41_table_null_key_refuted : forall hint t, t_init dv hint = Some t -> t_get NULL_HASH t = Some (Some dv).
Proof.
  intros hint t I. destruct (init_ok _ _ I) as [[T _] _]. rewrite (tget_lk _ _ T).
  unfold t_init in I. destruct (first_above hint prime_table) as [p|]; [|discriminate]. injection I as <-.
  destruct T as [J [L P]]. cbn [tl tmod] in *. pose proof (prime_pos _ J).
  destruct (mod_idx NULL_HASH p (nodes dv p) ltac:(lia) L) as [k [v [E1 E2]]]. unfold lk. rewrite E1.
  apply nth_error_In, repeat_spec in E2. injection E2 as -> ->. reflexivity.
Qed.
(* a size hint as large as the largest size leaves the table uninitialised *)
Theorem c41_table_hint_refuted : t_init dv 49157 = None.
Proof. reflexivity. Qed.
End Tab.

(* six keys that no size of the table can separate: set() walks off the end of the size table *)
Theorem c41_table_full_refuted :
  exists t os, t_init 0 0 = Some t /\ Forall (key_ok Z) os /\ (length os = 6)%nat /\ t_run Z 0 t os = None.
Proof.
  exists (mkT 2 [(NULL_HASH, 0); (NULL_HASH, 0)]),
    (List.map (fun k => MSet k 7) [1; 1 + 2*5*11*17*23*31*53; 1 + 97*193*389; 1 + 769*1543*3079; 1 + 6151*12289; 1 + 24593*49157]).
  split; [reflexivity|]. split; [repeat constructor; vm_compute; intuition discriminate|]. split; [reflexivity|].
  vm_compute. reflexivity.
Qed.
Example c41_table_ex :
  let os := [MSet 10 1; MSet 12 2; MSet 15 3; MGet 10; MRemove 12; MGet 12; MSet 15 4; MGet 15] in
  Forall (key_ok Z) os /\ m_run Z (fun _ => None) os = [None; None; None; Some 1; None; None; None; Some 4] /\
  (exists t, t_init 0 0 = Some t /\ t_run Z 0 t os = Some (m_run Z (fun _ => None) os)).
Proof.
  split; [repeat constructor; vm_compute; intuition discriminate|]. split; [reflexivity|].
  eexists. split; [reflexivity|]. vm_compute. reflexivity.
Qed.

Print Assumptions c41_array_is_list.
Print Assumptions c41_array_assign.
Print Assumptions c41_array_copy_refuted.
Print Assumptions c41_array_remove_refuted.
Print Assumptions c41_table_is_map_partial.
Print Assumptions c41_table_is_map.
Print Assumptions c41_table_null_key_refuted.
Print Assumptions c41_table_hint_refuted.
Print Assumptions c41_table_full_refuted.
