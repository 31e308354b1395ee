(* Lemmas about the string class. *)
From Verif Require Import Base BaseLemmas WStrModel WStrSpec.

Lemma list_ext {A} : forall (a b : list A), (forall i, nth_error a i = nth_error b i) -> a = b.
Proof.
  induction a as [|x a IH]; intros [|y b] H; auto.
  - specialize (H 0%nat). discriminate.
  - specialize (H 0%nat). discriminate.
  - pose proof (H 0%nat) as H0. injection H0 as ->. f_equal. apply IH. intros i. apply (H (S i)).
Qed.
Lemma nth_firstn {A} (l : list A) n i : nth_error (firstn n l) i = if (i <? n)%nat then nth_error l i else None.
Proof.
  revert n i. induction l as [|x l IH]; intros [|n] [|i]; cbn [firstn nth_error]; auto.
  - destruct (S i <? S n)%nat; reflexivity.
  - rewrite IH. reflexivity.
Qed.
Lemma nth_skipn {A} (l : list A) n i : nth_error (skipn n l) i = nth_error l (n + i).
Proof. revert n. induction l as [|x l IH]; intros [|n]; cbn [skipn Nat.add]; auto. destruct i; reflexivity. apply IH. Qed.
Lemma nth_app {A} (a b : list A) i : nth_error (a ++ b) i = if (i <? length a)%nat then nth_error a i else nth_error b (i - length a).
Proof. destruct (Nat.ltb_spec i (length a)); [now rewrite nth_error_app1|now rewrite nth_error_app2]. Qed.
Lemma nth_out {A} (l : list A) i : (length l <= i)%nat -> nth_error l i = None.
Proof. apply nth_error_None. Qed.

Ltac nlb := repeat match goal with
  | |- context [(?a <? ?b)%nat] => destruct (Nat.ltb_spec a b)
  | |- context [(?a <=? ?b)%nat] => destruct (Nat.leb_spec a b)
  | |- context [(?a =? ?b)%nat] => destruct (Nat.eqb_spec a b)
  end.

Lemma blit_ok b off src : (off + length src <= length b)%nat ->
  exists b', blit b off src = Some b' /\ length b' = length b /\
    forall i, nth_error b' i = if (off <=? i)%nat && (i <? off + length src)%nat then nth_error src (i - off) else nth_error b i.
Proof.
  intros H. unfold blit. replace (off + length src <=? length b)%nat with true by (symmetry; apply Nat.leb_le; lia).
  eexists. split; [reflexivity|]. split; [rewrite !app_length, firstn_length, skipn_length; lia|].
  intros i. rewrite nth_app, firstn_length, Nat.min_l by lia. rewrite nth_firstn.
  destruct (Nat.ltb_spec i off); destruct (Nat.leb_spec off i); cbn [andb]; try lia; auto.
  rewrite nth_app. destruct (Nat.ltb_spec (i - off) (length src)); destruct (Nat.ltb_spec i (off + length src)); try lia; auto.
  rewrite nth_skipn. f_equal. lia.
Qed.
Lemma rd_ok b off n : (off + n <= length b)%nat ->
  exists r, rd b off n = Some r /\ length r = n /\ forall i, nth_error r i = if (i <? n)%nat then nth_error b (off + i) else None.
Proof.
  intros H. unfold rd. replace (off + n <=? length b)%nat with true by (symmetry; apply Nat.leb_le; lia).
  eexists. split; [reflexivity|]. split; [rewrite firstn_length, skipn_length; lia|].
  intros i. rewrite nth_firstn, nth_skipn. reflexivity.
Qed.

(* the object's counters fit its blocks *)
Definition fits (s : wstr) : Prop :=
  length (sm s) = 16%nat /\ (bl s < length (blk s))%nat /\ (ln s <= bl s)%nat /\ (hp s = None -> (bl s <= 15)%nat).
Definition holds (s : wstr) (l : list Z) : Prop := length l = ln s /\ forall i, (i < ln s)%nat -> nth_error (blk s) i = nth_error l i.
(* the string object holds exactly these bytes, terminated, inside its allocation *)
Definition is_string (s : wstr) (l : list Z) : Prop := fits s /\ holds s l /\ nth_error (blk s) (ln s) = Some 0.

Lemma write_ok s off src : (off + length src <= length (blk s))%nat ->
  exists s', write s off src = Some s' /\ length (blk s') = length (blk s) /\ bl s' = bl s /\ ln s' = ln s /\
    (hp s' = None <-> hp s = None) /\ (length (sm s) = 16%nat -> length (sm s') = 16%nat) /\
    forall i, nth_error (blk s') i = if (off <=? i)%nat && (i <? off + length src)%nat then nth_error src (i - off) else nth_error (blk s) i.
Proof.
  intros H. unfold write. destruct (blit_ok (blk s) off src H) as [b' [E [L N]]]. rewrite E. eexists. split; [reflexivity|].
  unfold set_blk, blk in *. destruct (hp s) eqn:P; cbn [hp sm bl ln].
  - repeat split; auto; intros; discriminate.
  - repeat split; auto. intros X. congruence.
Qed.
Lemma set_ln_blk s n : blk (set_ln s n) = blk s. Proof. reflexivity. Qed.
Lemma alloc_ok junk n s : fits s ->
  exists s', s_alloc junk n s = Some s' /\ fits s' /\ (n <= bl s')%nat /\ ln s' = ln s /\ sm s' = sm s /\ (hp s <> None -> hp s' <> None) /\
    (bl s <=? n = false -> s' = s)%nat /\ (bl s <=? n = true -> hp s' <> None)%nat /\
    forall i, (i < bl s)%nat -> nth_error (blk s') i = nth_error (blk s) i.
Proof.
  intros [F1 [F2 [F3 F4]]]. unfold s_alloc. destruct (Nat.leb_spec (bl s) n).
  - destruct (rd_ok (blk s) 0 (bl s) ltac:(lia)) as [r [E [L N]]]. rewrite E.
    assert (LF : length (fresh junk (n + 1)) = (n + 1)%nat) by (unfold fresh; now rewrite map_length, seq_length).
    destruct (blit_ok (fresh junk (n + 1)) 0 r ltac:(lia)) as [b' [E' [L' N']]]. rewrite E'.
    eexists. split; [reflexivity|]. unfold fits, blk. cbn [hp sm bl ln]. repeat split; auto; try lia; try discriminate.
    intros i Hi. rewrite N'. rewrite L. destruct (Nat.leb_spec 0 i); destruct (Nat.ltb_spec i (0 + bl s)); try lia. cbn [andb].
    rewrite N. destruct (Nat.ltb_spec (i - 0) (bl s)); try lia. f_equal. lia.
  - exists s. repeat split; auto; try lia; try congruence.
Qed.

Section S.
Variable junk : nat -> nat -> Z.

Lemma clear_ok s : fits s -> exists s', s_clear s = Some s' /\ is_string s' [].
Proof.
  intros [F1 [F2 [F3 F4]]]. unfold s_clear. destruct (write_ok s 0 [0]) as [s' [E [L [B [N [P [M V]]]]]]]; [cbn; lia|]. rewrite E.
  eexists. split; [reflexivity|]. unfold is_string, fits, holds. rewrite set_ln_blk. cbn [set_ln sm hp bl ln].
  repeat split; auto; try lia. - intros X. rewrite B. apply F4, P. exact X. - rewrite V. reflexivity.
Qed.
(* insertion of bytes from elsewhere *)
Lemma insert_ok bs pos s l : fits s -> holds s l -> (bs = [] -> nth_error (blk s) (ln s) = Some 0) -> (pos <= ln s)%nat ->
  exists s', s_insert junk (Ext bs) pos s = Some s' /\ is_string s' (firstn pos l ++ bs ++ skipn pos l).
Proof.
  intros F [H1 H2] TM P. unfold s_insert. destruct (length bs =? 0)%nat eqn:E0.
  { apply Nat.eqb_eq in E0. apply length_zero_iff_nil in E0. subst bs. exists s. split; auto. cbn [app]. rewrite firstn_skipn. repeat split; auto; apply F. }
  apply Nat.eqb_neq in E0. cbn zeta.
  destruct (alloc_ok junk (ln s + length bs + pos) s F) as [s1 [A1 [[G1 [G2 [G3 G4]]] [A2 [A3 [_ [_ [_ [_ A4]]]]]]]]]. rewrite A1.
  destruct F as [F1 [F2 [F3 F4]]].
  assert (S2 : exists s2, (if (pos <? ln s)%nat then tail <- rd (blk s1) pos (ln s) ;; write s1 (length bs + pos) tail else Some s1) = Some s2
     /\ length (blk s2) = length (blk s1) /\ bl s2 = bl s1 /\ (hp s2 = None <-> hp s1 = None) /\ length (sm s2) = 16%nat /\
     (forall i, (i < pos)%nat -> nth_error (blk s2) i = nth_error l i) /\
     (forall i, (i < ln s - pos)%nat -> nth_error (blk s2) (length bs + pos + i) = nth_error l (pos + i))).
  { destruct (Nat.ltb_spec pos (ln s)).
    - destruct (rd_ok (blk s1) pos (ln s)) as [r [R1 [R2 R3]]]; [lia|]. rewrite R1.
      destruct (write_ok s1 (length bs + pos) r) as [s2 [W1 [W2 [W3 [W4 [W5 [W6 W7]]]]]]]; [lia|]. exists s2. repeat split; auto; try apply W5.
      + intros i Hi. rewrite W7. destruct (Nat.leb_spec (length bs + pos) i); cbn [andb]; try lia. rewrite A4 by lia. apply H2. lia.
      + intros i Hi. rewrite W7. destruct (Nat.leb_spec (length bs + pos) (length bs + pos + i)); try lia.
        destruct (Nat.ltb_spec (length bs + pos + i) (length bs + pos + length r)); try lia. cbn [andb].
        rewrite R3. destruct (Nat.ltb_spec (length bs + pos + i - (length bs + pos)) (ln s)); try lia.
        replace (pos + (length bs + pos + i - (length bs + pos)))%nat with (pos + i)%nat by lia. rewrite A4 by lia. apply H2. lia.
    - exists s1. repeat split; auto; try lia. intros i Hi. rewrite A4 by lia. apply H2. lia. }
  destruct S2 as [s2 [E2 [B1 [B2 [B3 [B4 [B5 B6]]]]]]]. rewrite E2.
  destruct (write_ok s2 pos bs) as [s3 [W1 [W2 [W3 [W4 [W5 [W6 W7]]]]]]]; [lia|]. rewrite W1.
  destruct (write_ok s3 (ln s + length bs) [0]) as [s4 [X1 [X2 [X3 [X4 [X5 [X6 X7]]]]]]]; [cbn [length]; lia|]. rewrite X1.
  eexists. split; [reflexivity|]. unfold is_string, fits, holds. rewrite set_ln_blk. cbn [set_ln sm hp bl ln]. repeat split; auto; try lia.
  - intros Q. rewrite X3, W3, B2. apply G4, B3, W5, X5, Q.
  - rewrite !app_length, firstn_length, skipn_length. lia.
  - intros i Hi. rewrite X7. destruct (Nat.leb_spec (ln s + length bs) i); cbn [andb]; try lia. rewrite W7.
    rewrite nth_app, firstn_length, nth_firstn. replace (Nat.min pos (length l)) with pos by lia.
    destruct (Nat.ltb_spec i pos).
    + destruct (Nat.leb_spec pos i); cbn [andb]; try lia. apply B5. lia.
    + destruct (Nat.leb_spec pos i); try lia. rewrite nth_app. destruct (Nat.ltb_spec i (pos + length bs)); destruct (Nat.ltb_spec (i - pos) (length bs)); try lia; cbn [andb]; auto.
      rewrite nth_skipn. replace i with (length bs + pos + (i - pos - length bs))%nat at 1 by lia. rewrite B6 by lia. f_equal.
  - rewrite X7. destruct (Nat.leb_spec (ln s + length bs) (ln s + length bs)); try lia.
    destruct (Nat.ltb_spec (ln s + length bs) (ln s + length bs + length [0])); cbn [length] in *; try lia. cbn [andb].
    rewrite Nat.sub_diag. reflexivity.
Qed.
Lemma set_ok bs s : fits s -> exists s', s_set junk bs s = Some s' /\ is_string s' bs.
Proof.
  intros F. pose proof F as [F1 [F2 [F3 F4]]]. unfold s_set.
  destruct (write_ok (set_ln s 0) 0 [0]) as [s1 [E [L [B [N [P [M V]]]]]]]; [rewrite set_ln_blk; cbn; lia|]. rewrite E.
  rewrite set_ln_blk in *. cbn [set_ln sm hp bl ln] in *.
  destruct (insert_ok bs 0 s1 []) as [s' [E' R]].
  - repeat split; auto; try lia. intros Q. rewrite B. apply F4, P, Q.
  - split; [cbn; lia|lia].
  - intros _. rewrite N, V. reflexivity.
  - lia.
  - exists s'. split; auto. cbn [firstn skipn app] in R. now rewrite app_nil_r in R.
Qed.
Lemma append_char_ok c s l : is_string s l -> exists s', s_append_char junk c s = Some s' /\ is_string s' (l ++ [c]).
Proof.
  intros [F [[H1 H2] T]]. unfold s_append_char.
  assert (S1 : exists s1, (if (bl s <=? ln s + 1)%nat then s_alloc junk (ln s * 3 / 2 + 1) s else Some s) = Some s1 /\ fits s1 /\ (ln s + 1 <= bl s1)%nat /\
    forall i, (i < ln s)%nat -> nth_error (blk s1) i = nth_error l i).
  { destruct (Nat.leb_spec (bl s) (ln s + 1)).
    - destruct (alloc_ok junk (ln s * 3 / 2 + 1) s F) as [s1 [A1 [G [A2 [A3 [_ [_ [_ [_ A4]]]]]]]]]. exists s1. split; [auto|].
      assert (ln s <= ln s * 3 / 2)%nat by (apply Nat.div_le_lower_bound; lia).
      repeat split; try apply G; try lia. intros i Hi. rewrite A4; [apply H2; lia|]. destruct F as [_ [_ [F3 _]]]. lia.
    - exists s. repeat split; try apply F; auto; lia. }
  destruct S1 as [s1 [E1 [[G1 [G2 [G3 G4]]] [B1 B2]]]]. rewrite E1.
  destruct (write_ok s1 (ln s) [c]) as [s2 [W1 [W2 [W3 [W4 [W5 [W6 W7]]]]]]]; [cbn [length]; lia|]. rewrite W1.
  destruct (write_ok s2 (ln s + 1) [0]) as [s3 [X1 [X2 [X3 [X4 [X5 [X6 X7]]]]]]]; [cbn [length]; lia|]. rewrite X1.
  eexists. split; [reflexivity|]. unfold is_string, fits, holds. rewrite set_ln_blk. cbn [set_ln sm hp bl ln length] in *. repeat split; auto; try lia.
  - intros Q. rewrite X3, W3. apply G4, W5, X5, Q.
  - rewrite app_length. cbn [length]. lia.
  - intros i Hi. rewrite X7. destruct (Nat.leb_spec (ln s + 1) i); cbn [andb]; try lia. rewrite W7, nth_app, H1.
    destruct (Nat.leb_spec (ln s) i); destruct (Nat.ltb_spec i (ln s)); cbn [andb]; try lia.
    + destruct (Nat.ltb_spec i (ln s + 1)); try lia. reflexivity.
    + apply B2. lia.
  - rewrite X7. destruct (Nat.leb_spec (ln s + 1) (ln s + 1)); try lia. destruct (Nat.ltb_spec (ln s + 1) (ln s + 1 + 1)); try lia.
    cbn [andb]. rewrite Nat.sub_diag. reflexivity.
Qed.
Lemma truncate_ok n s l : is_string s l -> exists s', s_truncate n s = Some s' /\ is_string s' (firstn n l).
Proof.
  intros [F [[H1 H2] T]]. unfold s_truncate. destruct (Nat.leb_spec (ln s) n).
  { exists s. split; auto. rewrite firstn_all2 by lia. repeat split; auto; apply F. }
  pose proof F as [F1 [F2 [F3 F4]]].
  assert (S1 : exists s1, (if (n <? BASE)%nat then match hp s with
             | Some h => b <- rd h 0 n ;; sm' <- blit (sm s) 0 b ;; Some (mkWS sm' None BASE (ln s)) | None => Some s end else Some s) = Some s1
     /\ length (sm s1) = 16%nat /\ (bl s1 < length (blk s1))%nat /\ (n <= bl s1)%nat /\ (hp s1 = None -> bl s1 <= 15)%nat /\
     forall i, (i < n)%nat -> nth_error (blk s1) i = nth_error l i).
  { unfold BASE. destruct (Nat.ltb_spec n 15).
    - destruct (hp s) as [h|] eqn:P.
      + destruct (rd_ok h 0 n) as [r [R1 [R2 R3]]]; [unfold blk in F2; rewrite P in F2; lia|]. rewrite R1.
        destruct (blit_ok (sm s) 0 r) as [b [B1 [B2 B3]]]; [lia|]. rewrite B1. eexists. split; [reflexivity|].
        unfold blk. cbn [sm hp bl]. repeat split; auto; try lia. intros i Hi. rewrite B3, R2.
        destruct (Nat.leb_spec 0 i); destruct (Nat.ltb_spec i (0 + n)); cbn [andb]; try lia. rewrite R3.
        destruct (Nat.ltb_spec (i - 0) n); try lia. specialize (H2 i ltac:(lia)). unfold blk in H2. rewrite P in H2. rewrite <- H2. f_equal. lia.
      + exists s. repeat split; auto; try lia. intros i Hi. apply H2. lia.
    - exists s. repeat split; auto; try lia. intros i Hi. apply H2. lia. }
  destruct S1 as [s1 [E1 [G1 [G2 [G3 [G4 G5]]]]]]. rewrite E1.
  destruct (write_ok s1 n [0]) as [s2 [W1 [W2 [W3 [W4 [W5 [W6 W7]]]]]]]; [cbn [length]; lia|]. rewrite W1.
  eexists. split; [reflexivity|]. unfold is_string, fits, holds. rewrite set_ln_blk. cbn [set_ln sm hp bl ln length] in *. repeat split; auto; try lia.
  - intros Q. rewrite W3. apply G4, W5, Q.
  - rewrite firstn_length. lia.
  - intros i Hi. rewrite W7. destruct (Nat.leb_spec n i); cbn [andb]; try lia. rewrite nth_firstn. destruct (Nat.ltb_spec i n); try lia. apply G5. lia.
  - rewrite W7. destruct (Nat.leb_spec n n); try lia. destruct (Nat.ltb_spec n (n + 1)); try lia. cbn [andb]. rewrite Nat.sub_diag. reflexivity.
Qed.
Lemma shave_ok e s l : is_string s l -> exists s', s_shave e s = Some s' /\ is_string s' (firstn (length l - e) l).
Proof.
  intros R. pose proof R as [F [[H1 H2] T]]. unfold s_shave. destruct (Nat.ltb_spec (ln s) e).
  - destruct (clear_ok s F) as [s' [E Q]]. exists s'. split; auto. replace (length l - e)%nat with 0%nat by lia. exact Q.
  - rewrite H1. now apply truncate_ok.
Qed.
Lemma shift_ok n s l : is_string s l -> exists s', s_shift n s = Some s' /\ is_string s' (skipn n l).
Proof.
  intros R. pose proof R as [F [[H1 H2] T]]. unfold s_shift. destruct (Nat.leb_spec (ln s) n).
  - destruct (clear_ok s F) as [s' [E Q]]. exists s'. split; auto. rewrite skipn_all2 by lia. exact Q.
  - destruct F as [F1 [F2 [F3 F4]]]. cbv zeta. destruct (rd_ok (blk s) n (ln s - n + 1)) as [r [R1 [R2 R3]]]; [lia|]. rewrite R1.
    destruct (write_ok s 0 r) as [s2 [W1 [W2 [W3 [W4 [W5 [W6 W7]]]]]]]; [lia|]. rewrite W1.
    eexists. split; [reflexivity|]. unfold is_string, fits, holds. rewrite set_ln_blk. cbn [set_ln sm hp bl ln] in *. repeat split; auto; try lia.
    + intros Q. rewrite W3. apply F4, W5, Q.
    + rewrite skipn_length. lia.
    + intros i Hi. rewrite W7. destruct (Nat.leb_spec 0 i); destruct (Nat.ltb_spec i (0 + length r)); cbn [andb]; try lia.
      rewrite R3. destruct (Nat.ltb_spec (i - 0) (ln s - n + 1)); try lia. rewrite nth_skipn. rewrite <- H2 by lia. f_equal. lia.
    + rewrite W7. destruct (Nat.leb_spec 0 (ln s - n)); destruct (Nat.ltb_spec (ln s - n) (0 + length r)); cbn [andb]; try lia.
      rewrite R3. destruct (Nat.ltb_spec (ln s - n - 0) (ln s - n + 1)); try lia. replace (n + (ln s - n - 0))%nat with (ln s) by lia. exact T.
Qed.
Lemma shrink_ok n s l : is_string s l -> (n <= length l)%nat -> exists s', s_setsize junk n s = Some s' /\ is_string s' (firstn n l).
Proof.
  intros [F [[H1 H2] T]] L. unfold s_setsize.
  destruct (alloc_ok junk n s F) as [s1 [A1 [[G1 [G2 [G3 G4]]] [A2 [A3 [_ [_ [_ [_ A4]]]]]]]]]. rewrite A1.
  destruct (write_ok (set_ln s1 n) n [0]) as [s2 [W1 [W2 [W3 [W4 [W5 [W6 W7]]]]]]]; [rewrite set_ln_blk; cbn [length]; lia|]. rewrite W1.
  rewrite set_ln_blk in *. cbn [set_ln sm hp bl ln length] in *. destruct F as [F1 [F2 [F3 F4]]].
  eexists. split; [reflexivity|]. unfold is_string, fits, holds. repeat split; auto; try lia.
  - intros Q. rewrite W3. apply G4, W5, Q.
  - rewrite firstn_length. lia.
  - intros i Hi. rewrite W7. destruct (Nat.leb_spec n i); cbn [andb]; try lia. rewrite nth_firstn. destruct (Nat.ltb_spec i n); try lia.
    rewrite A4 by lia. apply H2. lia.
  - rewrite W7, W4. destruct (Nat.leb_spec n n); try lia. destruct (Nat.ltb_spec n (n + 1)); try lia. cbn [andb]. rewrite Nat.sub_diag. reflexivity.
Qed.
Lemma give_ok bs spare s : fits s -> spare <> [] -> exists s', s_give (bs ++ spare) (length bs) s = Some s' /\ is_string s' bs.
Proof.
  intros F SP. unfold s_give. destruct (length bs =? 0)%nat eqn:E0.
  { apply Nat.eqb_eq in E0. apply length_zero_iff_nil in E0. subst bs. apply clear_ok; auto. }
  destruct F as [F1 [F2 [F3 F4]]]. assert (LS : (1 <= length spare)%nat) by (destruct spare; [congruence|cbn; lia]).
  unfold BASE. destruct (Nat.ltb_spec (length bs) 15).
  - destruct (rd_ok (bs ++ spare) 0 (length bs)) as [r [R1 [R2 R3]]]; [rewrite app_length; lia|]. rewrite R1.
    destruct (blit_ok (sm s) 0 r) as [b [B1 [B2 B3]]]; [lia|]. rewrite B1.
    destruct (write_ok (mkWS b None (length bs) (length bs)) (length bs) [0]) as [s2 [W1 [W2 [W3 [W4 [W5 [W6 W7]]]]]]]; [unfold blk; cbn [hp sm length]; lia|].
    rewrite W1. exists s2. split; [reflexivity|]. unfold blk at 2 in W2. cbn [hp sm bl ln] in *. unfold is_string, fits, holds. repeat split; auto; try lia.
    + intros i Hi. rewrite W4 in Hi. rewrite W7. cbn [length]. destruct (Nat.leb_spec (length bs) i); cbn [andb]; try lia. unfold blk. cbn [hp sm].
      rewrite B3, R2. destruct (Nat.leb_spec 0 i); destruct (Nat.ltb_spec i (0 + length bs)); cbn [andb]; try lia. rewrite R3.
      destruct (Nat.ltb_spec (i - 0) (length bs)); try lia. rewrite nth_app. destruct (Nat.ltb_spec (0 + (i - 0)) (length bs)); try lia. f_equal. lia.
    + rewrite W4, W7. cbn [length]. destruct (Nat.leb_spec (length bs) (length bs)); try lia. destruct (Nat.ltb_spec (length bs) (length bs + 1)); try lia. cbn [andb]. rewrite Nat.sub_diag. reflexivity.
  - destruct (write_ok (mkWS (sm s) (Some (bs ++ spare)) (length bs) (length bs)) (length bs) [0]) as [s2 [W1 [W2 [W3 [W4 [W5 [W6 W7]]]]]]]; [unfold blk; cbn [hp sm length]; rewrite app_length; lia|].
    rewrite W1. exists s2. split; [reflexivity|]. unfold blk at 2 in W2. cbn [hp sm bl ln] in *. unfold is_string, fits, holds. rewrite app_length in W2. repeat split; auto; try lia.
    + intros Q. apply W5 in Q. discriminate.
    + intros i Hi. rewrite W4 in Hi. rewrite W7. cbn [length]. destruct (Nat.leb_spec (length bs) i); cbn [andb]; try lia. unfold blk. cbn [hp].
      rewrite nth_app. destruct (Nat.ltb_spec i (length bs)); try lia. reflexivity.
    + rewrite W4, W7. cbn [length]. destruct (Nat.leb_spec (length bs) (length bs)); try lia. destruct (Nat.ltb_spec (length bs) (length bs + 1)); try lia. cbn [andb]. rewrite Nat.sub_diag. reflexivity.
Qed.
Lemma release_ok s l : is_string s l -> exists s' out, s_release s = Some (s', out, length l) /\ is_string s' [] /\
  (l = [] -> out = None) /\ (l <> [] -> exists b spare, out = Some b /\ b = l ++ 0 :: spare).
Proof.
  intros R. pose proof R as [F [[H1 H2] T]]. pose proof F as [F1 [F2 [F3 F4]]]. unfold s_release. destruct (ln s =? 0)%nat eqn:E0.
  - apply Nat.eqb_eq in E0. assert (l = []) as -> by (apply length_zero_iff_nil; lia).
    destruct (write_ok (set_ln s 0) 0 [0]) as [s1 [E [L [B [N [P [M V]]]]]]]; [rewrite set_ln_blk; cbn; lia|]. rewrite E.
    rewrite set_ln_blk in *. cbn [set_ln sm hp bl ln] in *. eexists. eexists. split; [reflexivity|].
    split; [|split; [auto|congruence]]. unfold is_string, fits, holds. repeat split; auto; try (cbn; lia). intros Q. rewrite B. apply F4, P, Q. rewrite N, V. reflexivity.
  - apply Nat.eqb_neq in E0. assert (NL : l <> []) by (intros ->; cbn in H1; lia). destruct (hp s) as [h|] eqn:P.
    + destruct (write_ok (mkWS (sm s) None BASE 0) 0 [0]) as [s1 [E [L [B [N [Q [M V]]]]]]]; [unfold blk; cbn; lia|]. rewrite E.
      cbn [hp sm bl ln] in *. unfold blk at 2 in L. cbn [hp sm] in L. eexists. eexists. split; [rewrite H1; reflexivity|]. split.
      * unfold is_string, fits, holds. unfold BASE in *. repeat split; auto; try (cbn; lia). rewrite N, V. reflexivity.
      * split; [congruence|]. intros _. exists h, (skipn (S (ln s)) h). split; auto. apply list_ext. intros i. rewrite nth_app, H1.
        unfold blk in *. rewrite P in *. destruct (Nat.ltb_spec i (ln s)); [now apply H2|].
        destruct (i - ln s)%nat eqn:D; cbn [nth_error]; [replace i with (ln s) by lia; exact T|]. rewrite nth_skipn. f_equal. lia.
    + unfold blk in F2, T, H2. rewrite P in *. destruct (rd_ok (sm s) 0 (ln s + 1)) as [r [R1 [R2 R3]]]; [lia|]. rewrite R1.
      destruct (write_ok (set_ln s 0) 0 [0]) as [s1 [E [L [B [N [Q [M V]]]]]]]; [rewrite set_ln_blk; unfold blk; rewrite P; cbn; lia|]. rewrite E.
      rewrite set_ln_blk in *. cbn [set_ln sm hp bl ln] in *. unfold blk in L at 2. rewrite P in L. eexists. eexists. split; [rewrite H1; reflexivity|]. split.
      * unfold is_string, fits, holds. repeat split; auto; try (cbn; lia). rewrite N, V. reflexivity.
      * split; [congruence|]. intros _. exists r, []. split; auto. apply list_ext. intros i. rewrite nth_app, H1, R3. cbn [Nat.add].
        destruct (Nat.ltb_spec i (ln s)); [destruct (Nat.ltb_spec i (ln s + 1)); try lia; now apply H2|].
        destruct (Nat.ltb_spec i (ln s + 1)).
        -- replace i with (ln s) by lia. rewrite Nat.sub_diag. exact T.
        -- destruct (i - ln s)%nat as [|[|k]] eqn:D; try lia; reflexivity.
Qed.

(* ---- trim ---- *)
Lemma isspace_ok c : 0 <= c <= 127 -> isspace c = Some (white c).
Proof. intros H. unfold isspace. replace ((c <? 0) || (127 <? c)) with false by (symmetry; apply orb_false_iff; lia). reflexivity. Qed.
Fixpoint lead (l : list Z) : nat := match l with c :: r => if white c then S (lead r) else O | [] => O end.
Lemma lead_drop l : drop_white l = skipn (lead l) l.
Proof. induction l as [|c r IH]; cbn; auto. destruct (white c); auto. Qed.
Lemma lead_le l : (lead l <= length l)%nat.
Proof. induction l as [|c r IH]; cbn; auto. destruct (white c); lia. Qed.
Lemma skip_space_ok : forall l b n, length l = n -> (forall i, (i < n)%nat -> nth_error b i = nth_error l i) ->
  Forall (fun c => 0 <= c <= 127) l -> skip_space b n = Some (lead l).
Proof.
  induction l as [|c r IH]; intros b n L H F; cbn in L; subst n; cbn [skip_space lead]; [destruct b; reflexivity|].
  destruct b as [|c' b]; [specialize (H 0%nat ltac:(lia)); discriminate|]. pose proof (H 0%nat ltac:(lia)) as X. injection X as ->.
  inversion F; subst. cbn [skip_space]. rewrite isspace_ok by auto. destruct (white c); auto.
  rewrite (IH b (length r)); auto. intros i Hi. apply (H (S i)). lia.
Qed.
(* length without trailing white space *)
Fixpoint kept_len (l : list Z) : nat := match l with [] => O | c :: r => match kept_len r with O => if white c then O else 1%nat | S k => S (S k) end end.
Lemma kept_len_le l : (kept_len l <= length l)%nat.
Proof. induction l as [|c r IH]; cbn; auto. destruct (kept_len r); [destruct (white c); lia|lia]. Qed.
Lemma drop_white_app a b : drop_white (a ++ b) = match drop_white a with [] => drop_white b | x => x ++ b end.
Proof. induction a as [|c a IH]; cbn; [destruct (drop_white b); auto|]. destruct (white c); auto. Qed.
Lemma kept_rev l : rev (drop_white (rev l)) = firstn (kept_len l) l.
Proof.
  induction l as [|c r IH]; [reflexivity|]. cbn [rev kept_len]. rewrite drop_white_app.
  destruct (drop_white (rev r)) as [|x y] eqn:D.
  - cbn [rev] in IH. assert (K : kept_len r = 0%nat).
    { destruct (kept_len r) eqn:K; auto. exfalso. pose proof (kept_len_le r). rewrite K in *. destruct r; cbn in *; [lia|discriminate]. }
    rewrite K. cbn [drop_white]. destruct (white c); reflexivity.
  - rewrite rev_app_distr, IH. cbn [rev app]. destruct (kept_len r) as [|k] eqn:K; [|reflexivity].
    exfalso. cbn [firstn] in IH. cbn [rev] in IH. destruct (rev y); discriminate.
Qed.
Lemma trimmed_eq l : trimmed l = firstn (kept_len (skipn (lead l) l)) (skipn (lead l) l).
Proof. unfold trimmed. rewrite kept_rev, lead_drop. reflexivity. Qed.
Lemma kept_app a c : kept_len (a ++ [c]) = if white c then kept_len a else S (length a).
Proof.
  induction a as [|x a IH]; cbn [app kept_len length]; [destruct (white c); reflexivity|]. rewrite IH. destruct (white c); [reflexivity|reflexivity].
Qed.
Lemma copy_down_ok : forall n start pos marker b l,
  (pos <= start)%nat -> (start + n = length l)%nat -> (length l <= length b)%nat ->
  (forall i, (start <= i < length l)%nat -> nth_error b i = nth_error l i) ->
  Forall (fun c => 0 <= c <= 127) l ->
  exists b', copy_down n start pos marker b =
    Some (b', match kept_len (skipn start l) with O => marker | S k => (pos + k)%nat end) /\
    length b' = length b /\
    (forall i, (i < pos)%nat -> nth_error b' i = nth_error b i) /\
    (forall i, (i < n)%nat -> nth_error b' (pos + i) = nth_error l (start + i)).
Proof.
  induction n as [|n IH]; intros start pos marker b l P L B H F; cbn [copy_down].
  - rewrite skipn_all2 by lia. cbn [kept_len]. exists b. repeat split; auto; lia.
  - destruct (nth_error l start) as [c|] eqn:Nc; [|apply nth_error_None in Nc; lia].
    rewrite H by lia. rewrite Nc. assert (C : 0 <= c <= 127) by (rewrite Forall_forall in F; apply F; eapply nth_error_In; eauto).
    rewrite isspace_ok by auto.
    destruct (IH (S start) (S pos) (if white c then marker else pos) (upd b pos c) l) as [b' [E [L' [O I]]]]; auto; try lia.
    { rewrite upd_length. lia. }
    { intros i Hi. rewrite upd_other by lia. apply H. lia. }
    exists b'. rewrite upd_length in L'. rewrite E. split; [|split; [auto|split]].
    + f_equal. f_equal. assert (SK : skipn start l = c :: skipn (S start) l).
      { apply list_ext. intros i. rewrite nth_skipn. destruct i as [|i]; cbn [nth_error]; [now rewrite Nat.add_0_r|]. rewrite nth_skipn. f_equal. lia. }
      rewrite SK. cbn [kept_len]. destruct (kept_len (skipn (S start) l)); [destruct (white c); [reflexivity|lia]|lia].
    + intros i Hi. rewrite O by lia. apply upd_other. lia.
    + intros [|i] Hi.
      * rewrite Nat.add_0_r, O by lia. rewrite upd_same by lia. rewrite Nat.add_0_r. auto.
      * replace (pos + S i)%nat with (S pos + i)%nat by lia. rewrite I by lia. f_equal. lia.
Qed.
Lemma trim_ok s l : is_string s l -> Forall (fun c => 0 <= c <= 127) l -> exists s', s_trim s = Some s' /\ is_string s' (trimmed l).
Proof.
  intros R FA. pose proof R as [F [[H1 H2] T]]. pose proof F as [F1 [F2 [F3 F4]]]. unfold s_trim.
  rewrite (skip_space_ok l (blk s) (ln s)) by auto. pose proof (lead_le l) as LL.
  destruct (lead l =? ln s)%nat eqn:E.
  - apply Nat.eqb_eq in E. rewrite trimmed_eq, skipn_all2 by lia. cbn [kept_len firstn]. now apply clear_ok.
  - apply Nat.eqb_neq in E.
    destruct (copy_down_ok (ln s - lead l) (lead l) 0 (lead l) (blk s) l) as [b' [C [L' [_ I]]]]; auto; try lia.
    { intros i Hi. apply H2. lia. }
    rewrite C. clear C.
    assert (K : exists k, kept_len (skipn (lead l) l) = S k /\ (k < ln s - lead l)%nat).
    { pose proof (kept_len_le (skipn (lead l) l)) as KL. rewrite skipn_length in KL.
      destruct (kept_len (skipn (lead l) l)) as [|k] eqn:K; [exfalso|exists k; split; [auto|lia]].
      assert (X : skipn (lead l) l = [] \/ exists c r, skipn (lead l) l = c :: r /\ white c = false).
      { clear. induction l as [|c r IH]; cbn [lead]; auto. destruct (white c) eqn:W; [exact IH|]. right. cbn. eauto. }
      destruct X as [X|[c [r [X W]]]]; [apply (f_equal (@length Z)) in X; rewrite skipn_length in X; cbn in X; lia|].
      rewrite X in K. cbn [kept_len] in K. rewrite W in K. destruct (kept_len r); discriminate. }
    destruct K as [k [K1 K2]]. rewrite K1. cbn [Nat.add].
    assert (BL : blk (set_blk s b') = b') by (unfold set_blk, blk; destruct (hp s); reflexivity).
    destruct (write_ok (set_blk s b') (k + 1) [0]) as [s2 [W1 [W2 [W3 [W4 [W5 [W6 W7]]]]]]]; [rewrite BL; cbn [length]; lia|]. rewrite W1.
    rewrite BL in *.
    assert (PR : bl (set_blk s b') = bl s /\ (hp (set_blk s b') = None <-> hp s = None) /\ length (sm (set_blk s b')) = 16%nat).
    { unfold set_blk. destruct (hp s) eqn:P; cbn [bl hp sm]; repeat split; auto; try (intros; discriminate). unfold blk in L'. rewrite P in L'. lia. }
    destruct PR as [PR1 [PR2 PR3]].
    eexists. split; [reflexivity|]. unfold is_string, fits, holds. rewrite set_ln_blk. cbn [set_ln sm hp bl ln length] in *. repeat split; auto; try lia.
    + intros Q. rewrite W3, PR1. apply F4, PR2, W5, Q.
    + rewrite trimmed_eq, K1, firstn_length, skipn_length. lia.
    + intros i Hi. rewrite W7. destruct (Nat.leb_spec (k + 1) i); cbn [andb]; try lia.
      rewrite trimmed_eq, K1, nth_firstn. destruct (Nat.ltb_spec i (S k)); try lia. rewrite nth_skipn.
      specialize (I i ltac:(lia)). cbn [Nat.add] in I. exact I.
    + rewrite W7. destruct (Nat.leb_spec (k + 1) (k + 1)); try lia. destruct (Nat.ltb_spec (k + 1) (k + 1 + 1)); try lia. cbn [andb]. rewrite Nat.sub_diag. reflexivity.
Qed.
End S.
