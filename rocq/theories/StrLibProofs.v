From Verif Require Import Base BaseLemmas StdModel StrLibModel StrLibSpec.
Ltac Zify.zify_post_hook ::= Z.div_mod_to_equations.

Lemma memcpy_some dst doff src soff n : 0 <= soff -> 0 <= n -> soff + n <= lenZ src -> 0 <= doff -> doff + n <= lenZ dst ->
  memcpy dst doff src soff n = Some (firstn (Z.to_nat doff) dst ++ firstn (Z.to_nat n) (skipn (Z.to_nat soff) src) ++ skipn (Z.to_nat (doff + n)) dst).
Proof.
  intros. unfold memcpy. now replace ((0 <=? soff) && (0 <=? n) && (soff + n <=? lenZ src) && (0 <=? doff) && (doff + n <=? lenZ dst)) with true by lia.
Qed.
Lemma len_alloc j n : 0 <= n -> lenZ (alloc j n) = n.
Proof. intros. unfold alloc, lenZ. rewrite repeat_length. lia. Qed.
(* copy of a whole fresh buffer *)
Lemma copy_all j src soff n : 0 <= soff -> 0 <= n -> soff + n <= lenZ src ->
  memcpy (alloc j n) 0 src soff n = Some (firstn (Z.to_nat n) (skipn (Z.to_nat soff) src)).
Proof.
  intros. rewrite memcpy_some by (rewrite ?len_alloc; lia). cbn [Z.to_nat firstn app]. rewrite (skipn_all2 (alloc j n)); [now rewrite app_nil_r|].
  unfold alloc. rewrite repeat_length. lia.
Qed.
Lemma clip_u32 n (d : list Z) : is_s32 n -> lenZ d < 2147483648 ->
  Z.to_nat (if lenZ d <? u32 n then lenZ d else u32 n) = clip n (length d).
Proof.
  unfold is_s32, clip, lenZ. intros H L. unfold u32. destruct (Z.ltb_spec n 0).
  - replace (n mod 4294967296) with (n + 4294967296) by lia. replace (Z.of_nat (length d) <? n + 4294967296) with true by lia. lia.
  - rewrite Z.mod_small by lia. destruct (Z.ltb_spec (Z.of_nat (length d)) n); lia.
Qed.
Lemma clip_le n len : (clip n len <= len)%nat.
Proof. unfold clip. destruct (n <? 0); lia. Qed.
Lemma left_ok j s n : is_s32 n -> lenZ s < 2147483648 -> wr_left j [arg_str s; arg_num n] = RStr (spec_left s n).
Proof.
  intros H L. cbn [wr_left arg_str arg_num sa_str sa_int]. set (m := if _ <? _ then _ else _).
  assert (M: 0 <= m <= lenZ s). { unfold m. pose proof (u32_range n). unfold is_u32 in *. destruct (Z.ltb_spec (lenZ s) (u32 n)); unfold lenZ in *; lia. }
  rewrite copy_all by lia. cbn [rstr skipn Z.to_nat]. unfold spec_left. rewrite <- (clip_u32 n s H L). reflexivity.
Qed.
Lemma right_ok j s n : is_s32 n -> lenZ s < 2147483648 -> wr_right j [arg_str s; arg_num n] = RStr (spec_right s n).
Proof.
  intros H L. cbn [wr_right arg_str arg_num sa_str sa_int]. set (m := if _ <? _ then _ else _).
  assert (M: 0 <= m <= lenZ s). { unfold m. pose proof (u32_range n). unfold is_u32 in *. destruct (Z.ltb_spec (lenZ s) (u32 n)); unfold lenZ in *; lia. }
  rewrite copy_all by lia. cbn [rstr]. unfold spec_right. pose proof (clip_u32 n s H L) as C. fold m in C. rewrite <- C. f_equal.
  unfold lenZ in *. rewrite firstn_all2 by (rewrite skipn_length; lia). f_equal. lia.
Qed.
Lemma mid_ok j s start n : is_s32 start -> is_s32 n -> s <> [] -> lenZ s < 2147483648 ->
  wr_mid j [arg_str s; arg_num start; arg_num n] = RStr (spec_mid s start n).
Proof.
  intros Hs Hn Ne L. cbn [wr_mid arg_str arg_num sa_str sa_int].
  assert (0 < lenZ s) by (destruct s; [congruence|unfold lenZ; cbn [length]; lia]).
  replace (lenZ s <=? 0) with false by lia. set (st := u32 start). assert (R: 0 <= st < 4294967296) by apply u32_range.
  assert (Rn: 0 <= u32 n < 4294967296) by apply u32_range.
  unfold spec_mid, spec_left. pose proof (clip_u32 start s Hs L) as C. fold st in C.
  destruct (Z.ltb_spec st (lenZ s)) as [B|B].
  - assert (C': clip start (length s) = Z.to_nat st). { rewrite <- C. replace (lenZ s <? st) with false by lia. reflexivity. } rewrite C'.
    set (t := skipn (Z.to_nat st) s). assert (Lt: lenZ t = lenZ s - st) by (unfold t, lenZ in *; rewrite skipn_length; lia).
    pose proof (clip_u32 n t Hn ltac:(lia)) as D. rewrite Lt in D. set (ch := if lenZ s - st <? u32 n then lenZ s - st else u32 n) in *. rewrite <- D.
    assert (Hch: 0 <= ch <= lenZ s - st) by (unfold ch; destruct (Z.ltb_spec (lenZ s - st) (u32 n)); lia).
    destruct (Z.eqb_spec ch 0) as [->|Nz]; [reflexivity|]. rewrite copy_all by lia. reflexivity.
  - change (0 =? 0) with true. cbv iota. assert (C': clip start (length s) = length s).
    { rewrite <- C. destruct (Z.ltb_spec (lenZ s) st); unfold lenZ in *; lia. }
    rewrite C', skipn_all. destruct (clip n (length [])); reflexivity.
Qed.
Lemma concat_ok j a b : wr_concat j [arg_str a; arg_str b] = RStr (a ++ b).
Proof.
  cbn [wr_concat arg_str sa_str]. assert (A: 0 <= lenZ a) by (unfold lenZ; lia). assert (B: 0 <= lenZ b) by (unfold lenZ; lia).
  rewrite memcpy_some by (rewrite ?len_alloc; lia). cbv iota. change (Z.to_nat 0) with 0%nat. cbn [firstn app skipn]. set (m := firstn _ a ++ _).
  assert (Lm: lenZ m = lenZ a + lenZ b).
  { unfold m, lenZ, alloc in *. rewrite app_length, firstn_length, skipn_length, repeat_length. lia. }
  rewrite memcpy_some by lia. cbn [rstr]. f_equal. unfold lenZ in *.
  replace (firstn (Z.to_nat (Z.of_nat (length a))) m) with a.
  - rewrite (skipn_all2 m) by lia. rewrite app_nil_r. f_equal. cbn [skipn Z.to_nat]. rewrite Nat2Z.id. apply firstn_all.
  - unfold m. rewrite !Nat2Z.id, firstn_all, firstn_app, firstn_all, Nat.sub_diag. cbn. now rewrite app_nil_r.
Qed.
Lemma insert_ok j a b p : is_s32 p -> lenZ a < 2147483648 -> wr_insert j [arg_str a; arg_str b; arg_num p] = RStr (spec_insert a b p).
Proof.
  intros Hp La. cbn [wr_insert arg_str arg_num sa_str sa_int]. assert (A: 0 <= lenZ a) by (unfold lenZ; lia). assert (B: 0 <= lenZ b) by (unfold lenZ; lia).
  assert (R: 0 <= u32 p < 4294967296) by apply u32_range.
  pose proof (clip_u32 p a Hp La) as C. set (pos := if lenZ a <=? u32 p then lenZ a else u32 p).
  assert (E: pos = if lenZ a <? u32 p then lenZ a else u32 p) by (unfold pos; destruct (Z.leb_spec (lenZ a) (u32 p)), (Z.ltb_spec (lenZ a) (u32 p)); lia).
  rewrite <- E in C. assert (Hpos: 0 <= pos <= lenZ a) by (unfold pos; destruct (Z.leb_spec (lenZ a) (u32 p)); lia).
  set (n := Z.to_nat pos) in *. assert (Hn: (n <= length a)%nat) by (unfold n, lenZ in *; lia).
  rewrite memcpy_some by (rewrite ?len_alloc; lia). cbv iota. change (Z.to_nat 0) with 0%nat. cbn [firstn app skipn]. rewrite Z.add_0_l. fold n.
  set (m1 := firstn n a ++ _).
  assert (L1: lenZ m1 = lenZ a + lenZ b) by (unfold m1, lenZ, alloc in *; rewrite app_length, firstn_length, skipn_length, repeat_length; lia).
  rewrite memcpy_some by lia. cbv iota. change (Z.to_nat 0) with 0%nat. cbn [skipn]. fold n.
  replace (firstn n m1) with (firstn n a) by (unfold m1; rewrite firstn_app, firstn_firstn, firstn_length; replace (n - Nat.min n (length a))%nat with 0%nat by lia; cbn [firstn]; rewrite app_nil_r; f_equal; lia).
  rewrite (firstn_all2 b) by (unfold lenZ; lia). set (m2 := firstn n a ++ b ++ _).
  assert (L2: lenZ m2 = lenZ a + lenZ b) by (unfold m2, lenZ in *; rewrite !app_length, firstn_length, skipn_length; lia).
  rewrite memcpy_some by lia. cbn [rstr]. unfold spec_insert. rewrite <- C. f_equal. fold n.
  replace (Z.to_nat (pos + lenZ b)) with (length (firstn n a ++ b)) by (rewrite app_length, firstn_length; unfold lenZ, n in *; lia).
  assert (G: firstn (length (firstn n a ++ b)) m2 = firstn n a ++ b) by (unfold m2; rewrite app_assoc, firstn_app, firstn_all, Nat.sub_diag; cbn [firstn]; now rewrite app_nil_r).
  rewrite G, <- app_assoc. do 2 f_equal.
  rewrite skipn_all2 with (l := m2) by (unfold lenZ in *; lia). rewrite app_nil_r. apply firstn_all2. rewrite skipn_length. unfold lenZ, n in *. lia.
Qed.
Lemma find_spec s c : forall i0, 0 <= i0 -> (find_char s c i0 = -1 /\ ~ In c s) \/
  exists k, find_char s c i0 = i0 + Z.of_nat k /\ (k < length s)%nat /\ nth k s 0 = c /\ forall j, (j < k)%nat -> nth j s 0 <> c.
Proof.
  induction s as [|x s IH]; intros i0 Hi; cbn [find_char]; [left; auto|]. destruct (Z.eqb_spec x c) as [->|N].
  - right. exists 0%nat. cbn. repeat split; try lia. 
  - destruct (IH (i0 + 1) ltac:(lia)) as [[E H]|(k&E&K1&K2&K3)].
    + left. split; [exact E|]. intros [Q|Q]; auto.
    + right. exists (S k). cbn [length nth]. repeat split; auto; try lia. intros [|j] Hj; auto. apply K3. lia.
Qed.
Lemma strchr_first s c : first_at s c (find_char s c 0).
Proof.
  destruct (find_spec s c 0 ltac:(lia)) as [H|(k&E&K1&K2&K3)]; [now left|]. right. rewrite E. unfold lenZ. repeat split; try lia.
  - replace (Z.to_nat (0 + Z.of_nat k)) with k by lia. exact K2.
  - intros j Hj. apply K3. lia.
Qed.
Lemma map_chars_ok f g s : (forall c, 0 <= c < 128 -> f c = Some (g c)) -> ascii s -> map_chars f s = Some (map g s).
Proof. intros H A. induction A as [|c s Hc _ IH]; [reflexivity|]. cbn [map_chars map]. now rewrite H, IH. Qed.
(* trimming *)
Lemma trim_start_ok s : ascii s -> forall m, exists w t, s = w ++ t /\ blank w /\ (t <> [] -> is_space (hd 0 t) = false) /\
  trim_start s m = Some (m + lenZ w).
Proof.
  induction 1 as [|c s Hc _ IH]; intros m; cbn [trim_start].
  - exists [], []. split; [reflexivity|]. split; [constructor|]. split; [congruence|]. unfold lenZ. cbn. f_equal. lia.
  - unfold c_isspace. replace (c <? 128) with true by lia. destruct (is_space c) eqn:E.
    + destruct (IH (m + 1)) as (w&t&->&B&T&->). exists (c :: w), t. split; [reflexivity|]. split; [now constructor|]. split; [exact T|]. unfold lenZ. cbn [length]. f_equal. lia.
    + exists [], (c :: s). split; [reflexivity|]. split; [constructor|]. split; [auto|]. unfold lenZ. cbn. f_equal. lia.
Qed.
Lemma trim_end_ok d (lo : nat) : ascii d -> forall n, (n <= length d)%nat -> (lo <= n)%nat -> exists k, trim_end d (Z.of_nat lo) n = Some (Z.of_nat k) /\
  (lo <= k <= n)%nat /\ blank (firstn (n - k) (skipn k d)) /\ ((lo < k)%nat -> is_space (nth (k - 1) d 0) = false).
Proof.
  intros A. induction n as [|n IH]; intros Hn Hlo; cbn [trim_end].
  - exists 0%nat. repeat split; try lia; cbn; try constructor.
  - destruct (Z.ltb_spec (Z.of_nat n) (Z.of_nat lo)).
    + exists (S n). rewrite Nat.sub_diag. repeat split; try lia; cbn [firstn]; constructor.
    + unfold nthZ. replace (Z.of_nat n <? 0) with false by lia. rewrite Nat2Z.id.
      destruct (nth_error d n) as [c|] eqn:E; [|apply nth_error_None in E; lia].
      assert (Hc: 0 <= c < 128) by (apply nth_error_In in E; unfold ascii in A; rewrite Forall_forall in A; auto).
      unfold c_isspace. replace (c <? 128) with true by lia. destruct (is_space c) eqn:Es.
      * destruct (IH ltac:(lia) ltac:(lia)) as (k&->&K1&K2&K3). exists k. repeat split; auto; try lia.
        replace (S n - k)%nat with (n - k + 1)%nat by lia.
        assert (G: firstn (n - k + 1) (skipn k d) = firstn (n - k) (skipn k d) ++ [c]).
        { clear - E K1. replace n with (k + (n - k))%nat in E by lia. revert E. generalize (n - k)%nat as q. clear.
          revert d. induction k as [|k IH]; intros d q E.
          - cbn [skipn] in *. cbn [Nat.add] in E. revert d E. induction q as [|q IH]; intros [|x d] E; cbn in *; try discriminate; [congruence|]. f_equal. now apply IH.
          - destruct d as [|x d]; [discriminate|]. cbn [skipn]. apply IH. exact E. }
        rewrite G. apply Forall_app. split; [exact K2|]. constructor; auto.
      * exists (S n). rewrite Nat.sub_diag. repeat split; try lia; cbn [firstn]; try constructor. intros _.
        replace (S n - 1)%nat with n by lia. erewrite nth_error_nth; eauto.
Qed.
Lemma last_nth (l : list Z) d : last l d = nth (length l - 1) l d.
Proof. induction l as [|a l IH]; [reflexivity|]. destruct l as [|b l]; [reflexivity|]. change (last (a :: b :: l) d) with (last (b :: l) d). rewrite IH. cbn [length]. replace (S (S (length l)) - 1)%nat with (S (S (length l) - 1)) by lia. reflexivity. Qed.
Lemma trimleft_ok j s : ascii s -> exists t, wr_trimleft j [arg_str s] = RStr t /\ trims_left s t.
Proof.
  intros A. destruct (trim_start_ok s A 0) as (w&t&E&B&T&R). exists t. cbn [wr_trimleft arg_str]. rewrite R. cbn.
  assert (L: lenZ s = lenZ w + lenZ t) by (subst s; unfold lenZ; rewrite app_length; lia).
  rewrite copy_all by (unfold lenZ in *; lia). cbn [rstr]. split; [|exists w; auto]. f_equal. subst s. unfold lenZ in *. rewrite Nat2Z.id.
  rewrite skipn_app, skipn_all, Nat.sub_diag. cbn [app skipn]. apply firstn_all2. lia.
Qed.
Lemma nth_firstn_lt {A} (l : list A) k i d : (i < k)%nat -> nth i (firstn k l) d = nth i l d.
Proof. revert k i. induction l; intros [|k] [|i] H; cbn; auto; try lia. apply IHl. lia. Qed.
Lemma trimright_ok j s : ascii s -> exists t, wr_trimright j [arg_str s] = RStr t /\ trims_right s t.
Proof.
  intros A. destruct (trim_end_ok s 0 A (length s) ltac:(lia) ltac:(lia)) as (k&R&K1&K2&K3). exists (firstn k s). cbn [wr_trimright arg_str].
  change (Z.of_nat 0) with 0 in R. rewrite R. rewrite copy_all by (unfold lenZ; lia). cbn [rstr Z.to_nat skipn]. rewrite Nat2Z.id. split; [reflexivity|].
  exists (skipn k s). split; [symmetry; apply firstn_skipn|]. split.
  - rewrite firstn_all2 in K2 by (rewrite skipn_length; lia). exact K2.
  - intros N. rewrite last_nth, firstn_length. replace (Nat.min k (length s)) with k by lia.
    assert (0 < k)%nat by (destruct k; [now cbn in N|lia]). rewrite nth_firstn_lt by lia. apply K3. lia.
Qed.
Lemma skip_skip {A} (l : list A) a b : skipn a (skipn b l) = skipn (b + a) l.
Proof. revert b. induction l as [|x l IH]; intros [|b]; cbn; rewrite ?skipn_nil; auto. Qed.
Lemma trim_ok j s : ascii s -> exists t, wr_trim j [arg_str s] = RStr t /\ trims s t.
Proof.
  intros A. destruct (trim_start_ok s A 0) as (w&t&E&B&T&R).
  assert (Lw: (length w <= length s)%nat) by (subst s; rewrite app_length; lia).
  destruct (trim_end_ok s (length w) A (length s) ltac:(lia) Lw) as (k&R2&K1&K2&K3).
  exists (firstn (k - length w) t). cbn [wr_trim arg_str]. rewrite R. rewrite Z.add_0_l. change (lenZ w) with (Z.of_nat (length w)). rewrite R2.
  rewrite copy_all by (unfold lenZ; lia). cbn [rstr]. rewrite Nat2Z.id.
  replace (Z.to_nat (Z.of_nat k - Z.of_nat (length w))) with (k - length w)%nat by lia.
  assert (St: skipn (length w) s = t) by (subst s; rewrite skipn_app, skipn_all, Nat.sub_diag; reflexivity).
  rewrite St. split; [reflexivity|].
  exists w, (skipn (k - length w) t). split; [now rewrite firstn_skipn|]. split; [exact B|]. split.
  - rewrite firstn_all2 in K2 by (rewrite skipn_length; lia). subst t.
    replace (skipn (k - length w) (skipn (length w) s)) with (skipn k s); [exact K2|].
    rewrite skip_skip. f_equal. lia.
  - intros N. assert (length w < k)%nat by (destruct (k - length w)%nat eqn:Q; [cbn in N; congruence|lia]).
    split.
    + destruct t as [|c t]; [rewrite firstn_nil in N; congruence|]. destruct (k - length w)%nat eqn:Q; [lia|]. apply T. discriminate.
    + rewrite last_nth, firstn_length. assert (Lt: length s = (length w + length t)%nat) by (subst s; rewrite app_length; lia).
      replace (Nat.min (k - length w) (length t)) with (k - length w)%nat by lia. rewrite nth_firstn_lt by lia.
      specialize (K3 ltac:(lia)). rewrite E in K3. rewrite app_nth2 in K3 by lia. replace (k - 1 - length w)%nat with (k - length w - 1)%nat in K3 by lia. exact K3.
Qed.
