(* C40: the string class. *)
From Verif Require Import Base BaseLemmas WStrModel WStrSpec WStrProofs.

(* c_str()/size() of the object *)
Definition text (s : wstr) : list Z := firstn (ln s) (blk s).

(* the C++ call for each operation of the specification; append is insert at the end *)
Definition do_op (junk : nat -> nat -> Z) (o : sop) (s : wstr) : option wstr :=
  match o with
  | OSet bs => s_set junk bs s
  | OAppend bs => s_append junk (Ext bs) s
  | OAppendChar c => s_append_char junk c s
  | OInsert bs pos => s_insert junk (Ext bs) pos s
  | OTruncate n => s_truncate n s
  | OShave n => s_shave n s
  | OShift n => s_shift n s
  | OTrim => s_trim s
  | OClear => s_clear s
  | OShrink n => s_setsize junk n s
  | OGive bs spare => s_give (bs ++ spare) (length bs) s
  | ORelease => r <- s_release s ;; Some (fst (fst r))
  end.
Fixpoint do_ops (junk : nat -> nat -> Z) (os : list sop) (s : wstr) : option wstr :=
  match os with [] => Some s | o :: r => s' <- do_op junk o s ;; do_ops junk r s' end.

Lemma is_string_text s l : is_string s l -> text s = l.
Proof.
  intros [[_ [F [F3 _]]] [[H1 H2] _]]. apply list_ext. intros i. unfold text. rewrite nth_firstn.
  destruct (Nat.ltb_spec i (ln s)); auto. symmetry. apply nth_error_None. lia.
Qed.
Lemma do_op_ok junk o s l : is_string s l -> sop_valid l o -> exists s', do_op junk o s = Some s' /\ is_string s' (sop_spec l o).
Proof.
  intros R V. pose proof R as [F [H T]]. destruct o; cbn [do_op sop_spec sop_valid] in *.
  - now apply set_ok.
  - unfold s_append. destruct (insert_ok junk bs (ln s) s l) as [s' [E Q]]; auto. exists s'. split; auto.
    destruct H as [H1 _]. rewrite <- H1, firstn_all, skipn_all2, app_nil_r in Q by lia. exact Q.
  - now apply append_char_ok.
  - apply insert_ok; auto. destruct H; lia.
  - now apply truncate_ok.
  - now apply shave_ok.
  - now apply shift_ok.
  - now apply trim_ok.
  - now apply clear_ok.
  - now apply shrink_ok.
  - now apply give_ok.
  - destruct (release_ok junk s l R) as [s' [out [E [Q _]]]]. rewrite E. exists s'. auto.
Qed.
Lemma do_ops_ok junk : forall os s l, is_string s l -> sops_valid l os ->
  exists s', do_ops junk os s = Some s' /\ is_string s' (fold_left sop_spec os l).
Proof.
  induction os as [|o os IH]; intros s l R V; cbn [do_ops fold_left]; [eauto|]. destruct V as [V1 V2].
  destruct (do_op_ok junk o s l R V1) as [s' [E R']]. rewrite E. now apply IH.
Qed.
Lemma new_ok small : length small = 16%nat -> exists s, s_new small = Some s /\ is_string s [].
Proof.
  intros L. unfold s_new. destruct (blit_ok small 0 [0]) as [b [E [L' N]]]; [cbn; lia|]. rewrite E. eexists. split; [reflexivity|].
  unfold is_string, fits, holds, blk, BASE. cbn [sm hp bl ln length]. repeat split; auto; try lia. rewrite N. reflexivity.
Qed.

(* C40, main theorem.  However a string was used -- set, append, insert, truncate, shift, trim, release,
   any number of times, crossing between the in-object buffer and the heap -- no call reads or writes
   outside its memory, the text is what the same operations on byte sequences give, size() is its
   length and c_str() is terminated. *)
Theorem c40_history_partial : forall junk small os, length small = 16%nat -> sops_valid [] os ->
  exists s0 s, s_new small = Some s0 /\ do_ops junk os s0 = Some s /\
    text s = fold_left sop_spec os [] /\
    ln s = length (fold_left sop_spec os []) /\
    nth_error (blk s) (ln s) = Some 0 /\ (ln s <= bl s < length (blk s))%nat.
Proof.
  intros junk small os L V. destruct (new_ok small L) as [s0 [E0 R0]]. destruct (do_ops_ok junk os s0 [] R0 V) as [s [E R]].
  exists s0, s. split; auto. split; auto. split; [now apply is_string_text|]. destruct R as [[F1 [F2 [F3 F4]]] [[H1 H2] T]]. repeat split; auto.
Qed.
Definition j0 : nat -> nat -> Z := fun _ i => Z.of_nat i + 65.
Example c40_history_live : sops_valid []
    [OSet [97;98]; OAppend [1;2;3;4;5;6;7;8;9;10;11;12;13;14;15;16]; OInsert [32] 0; OTrim; OShift 1; OTruncate 3; OAppendChar 32; OTrim; OGive [5;6] [7]; OShave 1]
  /\ (s0 <- s_new (repeat 170 16) ;; s <- do_ops j0 [OSet [97;98]; OAppend [1;2;3;4;5;6;7;8;9;10;11;12;13;14;15;16]; OInsert [32] 0; OTrim; OShift 1; OTruncate 3] s0 ;; Some (text s)) = Some [98;1;2].
Proof. split; [|vm_compute; reflexivity]. cbn. repeat split; try lia; repeat constructor; try lia; discriminate. Qed.

(* strings reachable by such a history *)
Definition made_by (junk : nat -> nat -> Z) (os : list sop) (s : wstr) : Prop :=
  exists small s0, length small = 16%nat /\ s_new small = Some s0 /\ do_ops junk os s0 = Some s /\ sops_valid [] os.
Lemma made_is junk os s : made_by junk os s -> is_string s (fold_left sop_spec os []).
Proof.
  intros [small [s0 [L [E0 [E V]]]]]. destruct (new_ok small L) as [s0' [E0' R0]]. rewrite E0 in E0'. injection E0' as <-.
  destruct (do_ops_ok junk os s0 [] R0 V) as [s' [E' R]]. rewrite E in E'. injection E' as <-. exact R.
Qed.

(* release() hands out the text followed by a terminator, and leaves the string empty *)
Theorem c40_release : forall junk os s, made_by junk os s ->
  exists s' out, s_release s = Some (s', out, length (text s)) /\ text s' = [] /\
    (text s <> [] -> exists spare, out = Some (text s ++ 0 :: spare)) /\ (text s = [] -> out = None).
Proof.
  intros junk os s M. apply made_is in M. pose proof (is_string_text _ _ M) as T. rewrite T.
  destruct (release_ok junk s _ M) as [s' [out [E [R [N1 N2]]]]]. exists s', out. split; auto. split; [now apply is_string_text|].
  split; auto. intros X. destruct (N2 X) as [b [spare [-> ->]]]. eauto.
Qed.
(* substr( begin, len ) *)
Theorem c40_substr : forall junk os s small begin len, made_by junk os s -> length small = 16%nat ->
  exists r, s_substr junk small begin len s = Some r /\ text r = firstn len (skipn begin (text s)) /\ nth_error (blk r) (ln r) = Some 0.
Proof.
  intros junk os s small begin len M L. apply made_is in M. pose proof (is_string_text _ _ M) as T. rewrite T.
  set (l := fold_left sop_spec os []) in *. clearbody l. destruct M as [[F1 [F2 [F3 F4]]] [[H1 H2] TT]].
  unfold s_substr. destruct (new_ok small L) as [r [E R]]. rewrite E. destruct (Nat.ltb_spec begin (ln s)).
  - cbv zeta. set (am := (if (ln s <? begin + len)%nat then (ln s - begin)%nat else len)).
    assert (A : (begin + am <= ln s)%nat /\ firstn len (skipn begin l) = firstn am (skipn begin l)).
    { unfold am. destruct (Nat.ltb_spec (ln s) (begin + len)); split; auto; try lia. rewrite !firstn_all2; auto; rewrite skipn_length; lia. }
    destruct A as [A1 A2]. destruct (rd_ok (blk s) begin am) as [b [B1 [B2 B3]]]; [lia|]. rewrite B1.
    destruct (set_ok junk b r (proj1 R)) as [r' [E' R']]. exists r'. split; auto. rewrite (is_string_text _ _ R'). split; [|apply R'].
    rewrite A2. apply list_ext. intros i. rewrite B3, nth_firstn, nth_skipn. destruct (Nat.ltb_spec i am); auto. apply H2. lia.
  - exists r. split; auto. rewrite (is_string_text _ _ R). split; [|apply R]. rewrite skipn_all2 by lia. now rewrite firstn_nil.
Qed.

(* ---- find ---- *)
Definition nulfree (l : list Z) : Prop := ~ In 0 l.
Lemma match_at_spec : forall str b l, nulfree l -> nulfree str -> (exists rest, b = l ++ 0 :: rest) ->
  exists r, match_at str b = Some r /\
   (r = CMatch <-> exists t, l = str ++ t) /\
   (r = CEnd -> (length l < length str)%nat).
Proof.
  induction str as [|x str IH]; intros b l Nl Ns [rest ->].
  - exists CMatch. split; [reflexivity|]. split; [split; auto; intros _; exists l; reflexivity|discriminate].
  - destruct l as [|c l]; cbn [app match_at].
    + exists CEnd. split; [reflexivity|]. split; [split; [discriminate|intros [t X]; discriminate]|cbn; lia].
    + destruct (Z.eqb_spec c 0) as [->|Nc]; [exfalso; apply Nl; left; auto|]. destruct (Z.eqb_spec x c) as [->|Nx].
      * destruct (IH (l ++ 0 :: rest) l) as [r [E [M1 M2]]]; [intros X; apply Nl; right; auto|intros X; apply Ns; right; auto|eauto|].
        exists r. split; auto. split; [|intros X; apply M2 in X; cbn; lia]. rewrite M1. split; intros [t X]; exists t; [now rewrite X|]. now injection X.
      * exists CDiffer. split; [reflexivity|]. split; [split; [discriminate|intros [t X]; injection X as X1 X2; congruence]|discriminate].
Qed.
Lemma occurs_skipn str l i : occurs str l i <-> (i <= length l)%nat /\ exists t, skipn i l = str ++ t.
Proof.
  split.
  - intros [a [b [-> <-]]]. split; [rewrite app_length; lia|]. exists b. rewrite skipn_app, skipn_all, Nat.sub_diag. reflexivity.
  - intros [L [t E]]. exists (firstn i l), t. split; [rewrite <- E; now rewrite firstn_skipn|]. rewrite firstn_length. lia.
Qed.
Lemma nulfree_skipn l n : nulfree l -> nulfree (skipn n l).
Proof. intros H X. apply H. rewrite <- (firstn_skipn n l). apply in_or_app. auto. Qed.
Lemma blk_split s l : is_string s l -> exists rest, blk s = l ++ 0 :: rest.
Proof.
  intros [_ [[H1 H2] T]]. exists (skipn (S (ln s)) (blk s)). apply list_ext. intros i. rewrite nth_app, H1.
  destruct (Nat.ltb_spec i (ln s)); [now apply H2|]. destruct (i - ln s)%nat eqn:D; cbn [nth_error]; [replace i with (ln s) by lia; auto|]. rewrite nth_skipn. f_equal. lia.
Qed.
Lemma find_loop_spec : forall n str f l rest, str <> [] -> nulfree l -> nulfree str -> (f + n = length l)%nat ->
  exists r, find_loop str n f (l ++ 0 :: rest) = Some r /\
    match r with
    | Some i => (f <= i)%nat /\ occurs str l i /\ forall j, (f <= j < i)%nat -> ~ occurs str l j
    | None => forall j, (f <= j)%nat -> ~ occurs str l j
    end.
Proof.
  induction n as [|n IH]; intros str f l rest NE Nl Ns L; cbn [find_loop].
  - exists None. split; auto. intros j Hj O. apply occurs_skipn in O as [O1 [t O2]]. rewrite skipn_all2 in O2 by lia. destruct str; [congruence|discriminate].
  - destruct (match_at_spec str (skipn f (l ++ 0 :: rest)) (skipn f l)) as [r [E [M1 M2]]]; auto using nulfree_skipn.
    { exists rest. rewrite skipn_app. replace (f - length l)%nat with 0%nat by lia. reflexivity. }
    rewrite E. destruct r.
    + exists (Some f). split; auto. split; auto. split; [|intros; lia]. apply occurs_skipn. split; [lia|]. now apply M1.
    + destruct (IH str (S f) l rest) as [r [E' R]]; auto; try lia. exists r. split; auto.
      assert (NO : ~ occurs str l f) by (intros O; apply occurs_skipn in O as [_ O]; apply M1 in O; discriminate).
      destruct r as [i|].
      * destruct R as [R1 [R2 R3]]. split; [lia|]. split; auto. intros j Hj. destruct (Nat.eq_dec j f) as [->|]; auto. apply R3. lia.
      * intros j Hj. destruct (Nat.eq_dec j f) as [->|]; auto. apply R. lia.
    + exists None. split; auto. specialize (M2 eq_refl). rewrite skipn_length in M2. intros j Hj O. apply occurs_skipn in O as [O1 [t O2]].
      apply (f_equal (@length Z)) in O2. rewrite skipn_length, app_length in O2. lia.
Qed.
(* find( str, from ) is the first occurrence at or after [from] *)
Theorem c40_find_partial : forall junk os s str from, made_by junk os s -> nulfree (text s) -> nulfree str -> str <> [] -> (from <= ln s)%nat ->
  exists r, s_find str from s = Some r /\
    match r with
    | Some i => (from <= i)%nat /\ occurs str (text s) i /\ forall j, (from <= j < i)%nat -> ~ occurs str (text s) j
    | None => forall j, (from <= j)%nat -> ~ occurs str (text s) j
    end.
Proof.
  intros junk os s str from M N1 N2 NE F. apply made_is in M. pose proof (is_string_text _ _ M) as T. rewrite T in *.
  set (l := fold_left sop_spec os []) in *. clearbody l. destruct (blk_split _ _ M) as [rest B]. destruct M as [_ [[H1 _] _]].
  unfold s_find. destruct (Nat.ltb_spec (ln s) from); try lia. destruct str as [|x str]; [congruence|]. rewrite B. apply find_loop_spec; auto. lia.
Qed.
Lemma rmatch_spec : forall str b l, nulfree str -> (exists rest, b = l ++ 0 :: rest) ->
  exists r, rmatch_at str b = Some r /\ (r = true <-> exists t, l = str ++ t).
Proof.
  induction str as [|x str IH]; intros b l Ns [rest ->].
  - exists true. split; [reflexivity|]. split; auto; intros _; exists l; reflexivity.
  - destruct l as [|c l]; cbn [app rmatch_at].
    + destruct (Z.eqb_spec x 0) as [->|]; [exfalso; apply Ns; left; auto|]. exists false. split; auto. split; [discriminate|intros [t X]; discriminate].
    + destruct (Z.eqb_spec x c) as [->|Nx].
      * destruct (IH (l ++ 0 :: rest) l) as [r [E M]]; [intros X; apply Ns; right; auto|eauto|]. exists r. split; auto.
        rewrite M. split; intros [t X]; exists t; [now rewrite X|now injection X].
      * exists false. split; auto. split; [discriminate|]. intros [t X]. injection X as X1 X2. congruence.
Qed.
Lemma rfind_loop_spec : forall f str l rest, nulfree str -> (f <= length l)%nat ->
  exists r, rfind_loop str f (l ++ 0 :: rest) = Some r /\
    match r with
    | Some i => (i <= f)%nat /\ occurs str l i /\ forall j, (i < j <= f)%nat -> ~ occurs str l j
    | None => forall j, (j <= f)%nat -> ~ occurs str l j
    end.
Proof.
  induction f as [|f IH]; intros str l rest Ns L; unfold rfind_loop; fold rfind_loop;
  match goal with |- context [rmatch_at str (skipn ?f _)] =>
    destruct (rmatch_spec str (skipn f (l ++ 0 :: rest)) (skipn f l)) as [r [E M]]; auto;
    [exists rest; rewrite skipn_app; replace (f - length l)%nat with 0%nat by lia; reflexivity|] end; rewrite E; destruct r.
  - eexists. split; [reflexivity|]. split; auto. split; [|intros; lia]. apply occurs_skipn. split; [lia|]. now apply M.
  - eexists. split; [reflexivity|]. intros j Hj O. assert (j = 0%nat) as -> by lia. apply occurs_skipn in O as [_ O]. apply M in O. discriminate.
  - eexists. split; [reflexivity|]. split; auto. split; [|intros; lia]. apply occurs_skipn. split; [lia|]. now apply M.
  - destruct (IH str l rest) as [r [E' R]]; auto; try lia. exists r. split; auto.
    assert (NO : ~ occurs str l (S f)) by (intros O; apply occurs_skipn in O as [_ O]; apply M in O; discriminate).
    destruct r as [i|].
    + destruct R as [R1 [R2 R3]]. split; [lia|]. split; auto. intros j Hj. destruct (Nat.eq_dec j (S f)) as [->|]; auto. apply R3. lia.
    + intros j Hj. destruct (Nat.eq_dec j (S f)) as [->|]; auto. apply R. lia.
Qed.
(* rfind( str, from ) is the last occurrence at or before [from]; the text may contain zero bytes *)
Theorem c40_rfind : forall junk os s str from, made_by junk os s -> nulfree str -> str <> [] ->
  exists r, s_rfind str from s = Some r /\
    match r with
    | Some i => (i <= from)%nat /\ occurs str (text s) i /\ forall j, (i < j <= from)%nat -> ~ occurs str (text s) j
    | None => forall j, (j <= from)%nat -> ~ occurs str (text s) j
    end.
Proof.
  intros junk os s str from M N2 NE. apply made_is in M. pose proof (is_string_text _ _ M) as T. rewrite T in *.
  set (l := fold_left sop_spec os []) in *. clearbody l. destruct (blk_split _ _ M) as [rest B]. destruct M as [_ [[H1 _] _]].
  unfold s_rfind. destruct str as [|x str]; [congruence|]. rewrite B.
  assert (BD : forall j, occurs (x :: str) l j -> (j <= ln s)%nat) by (intros j O; apply occurs_skipn in O as [O _]; lia).
  destruct (Nat.ltb_spec (ln s) from).
  - destruct (rfind_loop_spec (ln s) (x :: str) l rest) as [r [E R]]; auto; try lia. exists r. split; auto. destruct r as [i|].
    + destruct R as [R1 [R2 R3]]. split; [lia|]. split; auto. intros j Hj O. apply (R3 j); auto. apply BD in O. lia.
    + intros j Hj O. apply (R j); auto.
  - apply rfind_loop_spec; auto. lia.
Qed.
Example c40_find_live : exists s, made_by j0 [OSet [97;98;97;98;97]] s /\ s_find [97;98] 1 s = Some (Some 2%nat) /\ s_rfind [97] 3 s = Some (Some 2%nat) /\ s_find [99] 0 s = Some None.
Proof.
  eexists. split.
  - exists (repeat 170 16). eexists. split; [reflexivity|]. split; [vm_compute; reflexivity|]. split; [vm_compute; reflexivity|]. cbn. auto.
  - vm_compute. auto.
Qed.

(* == is equality of the texts, when one of them has no zero byte in it *)
Lemma strncmp_spec : forall l1 l2 r1 r2, length l1 = length l2 -> nulfree l1 ->
  exists r, strncmp_eq (length l1) (l1 ++ r1) (l2 ++ r2) = Some r /\ (r = true <-> l1 = l2).
Proof.
  induction l1 as [|x l1 IH]; intros [|y l2] r1 r2 L N; try discriminate.
  - exists true. split; [reflexivity|]. split; auto.
  - cbn [length app strncmp_eq]. destruct (Z.eqb_spec x y) as [->|D].
    + destruct (Z.eqb_spec y 0) as [->|]; [exfalso; apply N; left; auto|]. destruct (IH l2 r1 r2) as [r [E R]]; [now injection L|intros X; apply N; right; auto|].
      exists r. split; auto. rewrite R. split; [now intros ->|]. intros X. now injection X.
    + exists false. split; auto. split; [discriminate|]. intros X. injection X as X1 X2. congruence.
Qed.
Theorem c40_equality_partial : forall j1 o1 s1 j2 o2 s2, made_by j1 o1 s1 -> made_by j2 o2 s2 -> nulfree (text s1) ->
  exists r, s_eq s1 s2 = Some r /\ (r = true <-> text s1 = text s2).
Proof.
  intros j1 o1 s1 j2 o2 s2 M1 M2 N. apply made_is in M1, M2. rewrite (is_string_text _ _ M1), (is_string_text _ _ M2) in *.
  destruct (blk_split _ _ M1) as [t1 B1], (blk_split _ _ M2) as [t2 B2]. destruct M1 as [_ [[L1 _] _]], M2 as [_ [[L2 _] _]].
  unfold s_eq. destruct (Nat.eqb_spec (ln s1) (ln s2)).
  - rewrite B1, B2, <- L1. apply strncmp_spec; auto. lia.
  - exists false. split; auto. split; [discriminate|]. intros X. rewrite X in L1. lia.
Qed.

(* wildcards: a reported match is a match *)
Lemma wild_loop_sound : forall h p after, wild_loop h p after = true -> glob p h \/ exists a, after = Some a /\ glob (42 :: a) h.
Proof.
  assert (ST : forall p, all_stars p = true -> glob p []).
  { induction p as [|w p IH]; cbn; intros H; [constructor|]. apply andb_true_iff in H as [H1 H2]. apply Z.eqb_eq in H1. unfold STAR in H1. subst w. exact (GStar p [] [] (IH H2)). }
  assert (ALL : forall h, glob [42] h) by (intros h; rewrite <- (app_nil_r h); apply GStar; constructor).
  assert (MORE : forall t a h, glob (42 :: a) h -> glob (42 :: a) (t :: h)).
  { intros t a h G. inversion G; subst; [apply (GStar a [t; 42] h0); auto|apply (GStar a (t :: a0) h0); auto]. }
  induction h as [|t h IH]; intros p after H; cbn [wild_loop] in H; [left; auto|].
  assert (RETRY : forall after, match after with None => false | Some [] => true | Some ((w :: p') as a) => if t =? w then wild_loop h p' after else wild_loop h a after end = true ->
     exists a, after = Some a /\ glob (42 :: a) (t :: h)).
  { intros [[|w p']|] X; [exists []; auto| |discriminate]. exists (w :: p'). split; auto. destruct (Z.eqb_spec t w) as [->|].
    - apply IH in X as [X|[a [X1 X2]]]; [apply (GStar (w :: p') [] (w :: h)); constructor; auto|injection X1 as <-; auto].
    - apply IH in X as [X|[a [X1 X2]]]; [apply (GStar (w :: p') [t] h); auto|injection X1 as <-; auto]. }
  revert after H. induction p as [|w p IHp]; intros after H; [right; now apply RETRY|].
  destruct (Z.eqb_spec t w) as [->|].
  - apply IH in H as [H|[a [H1 H2]]]; [left; constructor; auto|right; exists a; auto].
  - destruct (Z.eqb_spec w STAR) as [->|]; [|right; now apply RETRY]. left. apply IHp in H as [H|[a [H1 H2]]]; [apply (GStar p [] (t :: h)); auto|]. injection H1 as <-. exact H2.
Qed.
Theorem c40_wildcard_sound : forall pattern haystack, wild_match pattern haystack = true -> glob pattern haystack.
Proof.
  intros [|w p] h H; cbn [wild_match] in H.
  - destruct h; [constructor|discriminate].
  - unfold wild_match in H. apply wild_loop_sound in H as [H|[a [H _]]]; [auto|discriminate].
Qed.
(* patterns that are a literal, or a literal followed by one '*', are matched exactly *)
Lemma glob_lit : forall p h, ~ In 42 p -> (glob p h <-> h = p).
Proof.
  induction p as [|c p IH]; intros h N; split; intros H.
  - now inversion H.
  - subst. constructor.
  - inversion H; subst; [f_equal; apply IH; auto; intros X; apply N; right; auto|exfalso; apply N; left; auto].
  - subst. constructor. apply IH; auto. intros X; apply N; right; auto.
Qed.
Lemma glob_pre : forall p h, ~ In 42 p -> (glob (p ++ [42]) h <-> exists t, h = p ++ t).
Proof.
  induction p as [|c p IH]; intros h N; cbn [app]; split; intros H.
  - eauto.
  - rewrite <- (app_nil_r h). apply GStar. constructor.
  - inversion H; subst; [|exfalso; apply N; left; auto]. apply IH in H3 as [t ->]; [eauto|]. intros X; apply N; right; auto.
  - destruct H as [t ->]. constructor. apply IH; eauto. intros X; apply N; right; auto.
Qed.
Lemma wild_lit : forall h p, ~ In 42 p -> (wild_loop h p None = true <-> h = p).
Proof.
  induction h as [|t h IH]; intros [|w p] N; cbn [wild_loop all_stars].
  - split; auto.
  - replace (w =? STAR) with false by (symmetry; apply Z.eqb_neq; intros ->; apply N; left; auto). split; discriminate.
  - split; discriminate.
  - destruct (Z.eqb_spec t w) as [->|].
    + rewrite IH by (intros X; apply N; right; auto). split; [now intros ->|]. intros X. now injection X.
    + replace (w =? STAR) with false by (symmetry; apply Z.eqb_neq; intros ->; apply N; left; auto). split; [discriminate|]. intros X. injection X as X1 X2. congruence.
Qed.
Lemma wild_pre : forall h p, ~ In 42 p -> ~ In 42 h -> (wild_loop h (p ++ [42]) None = true <-> exists t, h = p ++ t).
Proof.
  induction h as [|t h IH]; intros [|w p] N Nh; cbn [wild_loop all_stars app].
  - cbn. split; eauto.
  - replace (w =? STAR) with false by (symmetry; apply Z.eqb_neq; intros ->; apply N; left; auto). split; [discriminate|intros [t X]; discriminate].
  - replace (t =? 42) with false by (symmetry; apply Z.eqb_neq; intros ->; apply Nh; left; auto). cbn. split; eauto.
  - destruct (Z.eqb_spec t w) as [->|].
    + rewrite IH by (intros X; first [apply N; right; auto; fail|apply Nh; right; auto]). split; intros [x X]; exists x; [now rewrite X|now injection X].
    + replace (w =? STAR) with false by (symmetry; apply Z.eqb_neq; intros ->; apply N; left; auto). split; [discriminate|]. intros [x X]. injection X as X1 X2. congruence.
Qed.
Theorem c40_wildcard_exact_partial : forall lit haystack, ~ In 42 lit -> ~ In 42 haystack ->
  (wild_match lit haystack = true <-> glob lit haystack) /\
  (wild_match (lit ++ [42]) haystack = true <-> glob (lit ++ [42]) haystack).
Proof.
  intros lit h N Nh. rewrite glob_lit, glob_pre by auto. split.
  - destruct lit as [|w p]; [destruct h; cbn; split; (auto; discriminate)|]. unfold wild_match. now apply wild_lit.
  - assert (E : wild_match (lit ++ [42]) h = wild_loop h (lit ++ [42]) None) by (destruct lit; reflexivity). rewrite E. now apply wild_pre.
Qed.
Example c40_wildcard_live : wild_match [97; 42] [97;98;99] = true /\ wild_match [97;98] [97;98] = true /\ wild_match [42;99] [97;98;99] = true.
Proof. vm_compute. auto. Qed.

(* ---- where the class does not behave ---- *)
(* insert past the end succeeds and leaves uninitialised memory inside the text *)
Theorem c40_insert_past_end_refuted : exists small s0 s1 s2, length small = 16%nat /\ s_new small = Some s0 /\
  s_set j0 [97;98] s0 = Some s1 /\ s_insert j0 (Ext [99;100]) 20 s1 = Some s2 /\
  text s2 <> [97;98;99;100] /\ nth_error (text s2) 3 = nth_error small 3 /\ ~ In 99 (text s2).
Proof.
  exists ([0] ++ repeat 170 15). do 3 eexists. repeat (split; [vm_compute; reflexivity|]). split; [vm_compute; discriminate|]. split; [vm_compute; reflexivity|].
  vm_compute. intuition discriminate.
Qed.
(* s += s on a string whose block has to grow copies from freed memory *)
Theorem c40_self_append_refuted : exists s, made_by j0 [OSet (repeat 97 20)] s /\ s_append j0 Own s = None.
Proof.
  eexists. split; [exists (repeat 170 16); eexists; split; [reflexivity|]; split; [vm_compute; reflexivity|]; split; [vm_compute; reflexivity|]; cbn; auto|]. vm_compute. reflexivity.
Qed.
(* a start position past the end makes find look at the whole string *)
Theorem c40_find_past_end_refuted : exists s, made_by j0 [OSet [97;98]] s /\ s_find [97] 3 s = Some (Some 0%nat).
Proof.
  eexists. split; [exists (repeat 170 16); eexists; split; [reflexivity|]; split; [vm_compute; reflexivity|]; split; [vm_compute; reflexivity|]; cbn; auto|]. vm_compute. reflexivity.
Qed.
(* strings that differ after a zero byte compare equal *)
Theorem c40_equality_refuted : exists s t, made_by j0 [OSet [97;0;98]] s /\ made_by j0 [OSet [97;0;99]] t /\ text s <> text t /\ s_eq s t = Some true.
Proof.
  do 2 eexists. split; [exists (repeat 170 16); eexists; split; [reflexivity|]; split; [vm_compute; reflexivity|]; split; [vm_compute; reflexivity|]; cbn; auto|].
  split; [exists (repeat 170 16); eexists; split; [reflexivity|]; split; [vm_compute; reflexivity|]; split; [vm_compute; reflexivity|]; cbn; auto|].
  split; vm_compute; [discriminate|reflexivity].
Qed.
(* trim of a string with a byte outside ASCII *)
Theorem c40_trim_non_ascii_refuted : exists s, made_by j0 [OSet [233]] s /\ s_trim s = None.
Proof.
  eexists. split; [exists (repeat 170 16); eexists; split; [reflexivity|]; split; [vm_compute; reflexivity|]; split; [vm_compute; reflexivity|]; cbn; auto|]. vm_compute. reflexivity.
Qed.
(* matches that are missed: "*aab" in "aaab", and "a*" in "a*b" *)
Theorem c40_wildcard_complete_refuted :
  (glob [42;97;97;98] [97;97;97;98] /\ wild_match [42;97;97;98] [97;97;97;98] = false) /\
  (glob [97;42] [97;42;98] /\ wild_match [97;42] [97;42;98] = false).
Proof.
  split; split; try (vm_compute; reflexivity).
  - apply (GStar [97;97;98] [97] [97;97;98]). repeat constructor.
  - constructor. apply (GStar [] [42;98] []). constructor.
Qed.

Print Assumptions c40_history_partial. Print Assumptions c40_release. Print Assumptions c40_substr.
Print Assumptions c40_find_partial. Print Assumptions c40_rfind. Print Assumptions c40_equality_partial.
Print Assumptions c40_wildcard_sound. Print Assumptions c40_wildcard_exact_partial.
Print Assumptions c40_insert_past_end_refuted. Print Assumptions c40_self_append_refuted. Print Assumptions c40_find_past_end_refuted.
Print Assumptions c40_equality_refuted. Print Assumptions c40_trim_non_ascii_refuted. Print Assumptions c40_wildcard_complete_refuted.
