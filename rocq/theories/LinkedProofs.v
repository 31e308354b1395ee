(* Proofs for LinkedModel: the list in memory is the sequence of LinkedSpec. *)
From Verif Require Import Base.
From Verif Require Import GCModel LinkedModel LinkedSpec.
From Coq Require Import List.
Open Scope list_scope. Open Scope Z_scope.

Section Proofs.
Context {A : Type}.
Implicit Types (m : nat -> option (node A)) (ps r s : list (nat * A)).

(* from the pointer h the nodes ps, then the pointer t *)
Fixpoint seg m (h : option nat) ps (t : option nat) : Prop :=
  match ps with
  | [] => h = t
  | (a, x) :: ps => h = Some a /\ exists nx, m a = Some (mkNode x nx) /\ seg m nx ps t
  end.
Definition addr ps (p : option nat) : option nat := match p with None => None | Some p => nth_error (map fst ps) p end.
Definition first_of ps (t : option nat) : option nat := match ps with [] => t | (a, _) :: _ => Some a end.
Definition final ps : option nat := nth_error (map fst ps) (length ps - 1).
Record repr (l : ll A) ps (pos : option nat) : Prop := {
  r_seg : seg (l_mem l) (l_head l) ps None;
  r_dup : NoDup (map fst ps);
  r_tail : l_tail l = final ps;
  r_fresh : forall a, In a (map fst ps) -> (a < l_fresh l)%nat;
  r_mem : forall a n, l_mem l a = Some n -> In a (map fst ps);
  r_iter : l_iter l = addr ps pos;
  r_pos : forall p, pos = Some p -> (p < length ps)%nat }.

Lemma seg_first m h ps t : seg m h ps t -> h = first_of ps t.
Proof. destruct ps as [|[a x] ps]; cbn; [auto|]. intros (-> & _). reflexivity. Qed.
Lemma seg_app m h r s t : seg m h (r ++ s) t <-> exists q, seg m h r q /\ seg m q s t.
Proof.
  revert h. induction r as [|[a x] r IH]; intros h; cbn; [split; [eauto|intros (q & -> & X); exact X]|]. split.
  - intros (-> & nx & M & X). apply IH in X as (q & X1 & X2). exists q. split; [split; [reflexivity|]; eauto|exact X2].
  - intros (q & (-> & nx & M & X1) & X2). split; [reflexivity|]. exists nx. split; [exact M|]. apply IH. eauto.
Qed.
Lemma put_same m a v : put m a v a = v.
Proof. unfold put. now rewrite Nat.eqb_refl. Qed.
Lemma put_other m a v b : b <> a -> put m a v b = m b.
Proof. intros N. unfold put. apply Nat.eqb_neq in N. now rewrite N. Qed.
Lemma seg_put m h ps t a v : ~ In a (map fst ps) -> seg m h ps t -> seg (put m a v) h ps t.
Proof.
  revert h. induction ps as [|[b x] ps IH]; intros h NI; cbn; [auto|]. intros (-> & nx & M & X). cbn in NI. split; [reflexivity|]. exists nx. split; [|apply IH; tauto].
  rewrite put_other; [exact M|]. intros ->. tauto.
Qed.
Lemma same_refl p : same p p = true.
Proof. destruct p; cbn; [apply Nat.eqb_refl|reflexivity]. Qed.
Lemma same_eq p q : same p q = true <-> p = q.
Proof. destruct p as [a|], q as [b|]; cbn; try (split; intros X; discriminate X); [|split; auto]. rewrite Nat.eqb_eq. split; [now intros ->|now intros [= ->]]. Qed.
Lemma same_not p q : p <> q -> same p q = false.
Proof. intros N. destruct (same p q) eqn:E; [|reflexivity]. now apply same_eq in E. Qed.
Lemma repr_small l ps pos : repr l ps pos -> (length ps <= l_fresh l)%nat.
Proof.
  intros R. rewrite <- (map_length fst). replace (l_fresh l) with (length (seq 0 (l_fresh l))) by apply seq_length. apply NoDup_incl_length; [apply R|].
  intros a I. apply in_seq. pose proof (r_fresh _ _ _ R a I). lia.
Qed.
Lemma final_app r a x : final (r ++ [(a, x)]) = Some a.
Proof.
  unfold final. rewrite map_app, app_length. cbn [length map fst]. replace (length r + 1 - 1)%nat with (length (map fst r)) by (rewrite map_length; lia).
  rewrite nth_error_app2, Nat.sub_diag by lia. reflexivity.
Qed.
Lemma final_tail r s : s <> [] -> final (r ++ s) = final s.
Proof.
  intros N. destruct (exists_last N) as (s' & [a x] & ->). now rewrite app_assoc, !final_app.
Qed.
(* the current item after a removal *)
Lemma iter_after r a x s pos : NoDup (map fst (r ++ (a, x) :: s)) -> (forall p, pos = Some p -> (p < length (r ++ (a, x) :: s))%nat) ->
  (if same (addr (r ++ (a, x) :: s) pos) (Some a) then first_of s None else addr (r ++ (a, x) :: s) pos) =
    addr (r ++ s) (moved (length r) (length (r ++ (a, x) :: s)) pos) /\
  (forall p, moved (length r) (length (r ++ (a, x) :: s)) pos = Some p -> (p < length (r ++ s))%nat).
Proof.
  intros ND RP. destruct pos as [p|]; [|cbn; split; [reflexivity|discriminate]]. specialize (RP p eq_refl). cbn [addr moved].
  rewrite map_app in *. cbn [map fst] in *. rewrite !app_length in *. cbn [length] in *. set (R := map fst r) in *. set (T := map fst s) in *.
  assert (LR : length R = length r) by apply map_length. assert (LT : length T = length s) by apply map_length.
  assert (NI : ~ In a (R ++ T)) by (now apply NoDup_remove_2 in ND).
  destruct (Nat.ltb_spec p (length r)) as [L|L].
  - rewrite nth_error_app1 by lia. destruct (nth_error R p) as [b|] eqn:E; [|apply nth_error_None in E; lia].
    rewrite same_not. 2: { intros [= ->]. apply NI. apply in_or_app. left. eapply nth_error_In; eauto. }
    split; [|intros q [= <-]; lia]. unfold addr. rewrite map_app, nth_error_app1 by (fold R; lia). now fold R.
  - rewrite nth_error_app2 by lia. destruct (Nat.eqb_spec p (length r)) as [->|N].
    + rewrite LR, Nat.sub_diag. cbn [nth_error]. rewrite same_refl. destruct s as [|[b y] s].
      * cbn [length]. destruct (Nat.ltb_spec (S (length r)) (length r + 1)); [lia|]. split; [reflexivity|discriminate].
      * cbn [length]. destruct (Nat.ltb_spec (S (length r)) (length r + S (S (length s)))); [|lia]. split; [|intros q [= <-]; lia].
        unfold addr. rewrite map_app. fold R. rewrite nth_error_app2 by lia. rewrite LR, Nat.sub_diag. reflexivity.
    + replace (p - length R)%nat with (S (p - 1 - length r)) by lia. cbn [nth_error]. destruct (nth_error T (p - 1 - length r)) as [b|] eqn:E; [|apply nth_error_None in E; lia].
      rewrite same_not. 2: { intros [= ->]. apply NI. apply in_or_app. right. eapply nth_error_In; eauto. }
      split; [|intros q [= <-]; lia]. unfold addr. rewrite map_app. fold R T. rewrite nth_error_app2 by lia. now rewrite LR, E.
Qed.
Lemma addr_last r a x pos : NoDup (map fst (r ++ [(a, x)])) -> (forall p, pos = Some p -> (p < length (r ++ [(a, x)]))%nat) ->
  (if same (addr (r ++ [(a, x)]) pos) (Some a) then None else addr (r ++ [(a, x)]) pos) = addr r (moved (length r) (length (r ++ [(a, x)])) pos) /\
  (forall p, moved (length r) (length (r ++ [(a, x)])) pos = Some p -> (p < length r)%nat).
Proof. intros ND RP. pose proof (iter_after r a x [] pos ND RP) as X. rewrite app_nil_r in X. exact X. Qed.

(* ---------------------------------------------------------------- adding *)
Lemma add_head_repr l ps pos x : repr l ps pos -> exists a, repr (ll_add_head x l) ((a, x) :: ps) (option_map S pos).
Proof.
  intros R. exists (l_fresh l). pose proof (r_fresh _ _ _ R) as F. assert (NI : ~ In (l_fresh l) (map fst ps)) by (intros I; apply F in I; lia).
  pose proof (seg_first _ _ _ _ (r_seg _ _ _ R)) as HD.
  assert (E : ll_add_head x l = mkLL (put (l_mem l) (l_fresh l) (Some (mkNode x (l_head l)))) (S (l_fresh l)) (Some (l_fresh l)) (match l_head l with None => Some (l_fresh l) | Some _ => l_tail l end) (l_iter l)).
  { unfold ll_add_head. destruct (l_head l); reflexivity. }
  rewrite E. split; cbn [l_mem l_fresh l_head l_tail l_iter].
  - cbn [seg]. split; [reflexivity|]. exists (l_head l). split; [apply put_same|]. apply seg_put; [exact NI|apply R].
  - cbn [map fst]. constructor; [exact NI|apply R].
  - rewrite HD. destruct ps as [|[b y] ps]; cbn [first_of]; [reflexivity|]. rewrite (r_tail _ _ _ R). change ((l_fresh l, x) :: (b, y) :: ps) with ([(l_fresh l, x)] ++ (b, y) :: ps). now rewrite final_tail by discriminate.
  - cbn [map fst In]. intros a [<-|I]; [lia|]. apply F in I. lia.
  - cbn [map fst In]. intros a n. destruct (Nat.eq_dec a (l_fresh l)) as [->|N]; [auto|]. rewrite put_other by exact N. intros M. right. eapply r_mem; eauto.
  - rewrite (r_iter _ _ _ R). destruct pos; reflexivity.
  - intros p E'. destruct pos as [q|]; [|discriminate E']. injection E' as <-. pose proof (r_pos _ _ _ R q eq_refl). cbn [length]. lia.
Qed.
Lemma add_tail_repr l ps pos x : repr l ps pos -> exists l1 a, ll_add_tail x l = Ok l1 /\ repr l1 (ps ++ [(a, x)]) pos.
Proof.
  intros R. destruct ps as [|p0 ps0] eqn:EP.
  - unfold ll_add_tail. rewrite (r_tail _ _ _ R). cbn. destruct (add_head_repr l [] pos x R) as (a & R1). exists (ll_add_head x l), a. split; [reflexivity|].
    destruct pos as [p|]; [|exact R1]. pose proof (r_pos _ _ _ R p eq_refl) as X. cbn in X. lia.
  - assert (NE : ps <> []) by (rewrite EP; discriminate). rewrite <- EP in *. clear EP p0 ps0. destruct (exists_last NE) as (r & [t y] & ->).
    pose proof (r_fresh _ _ _ R) as F. set (f := l_fresh l) in *. assert (NI : ~ In f (map fst (r ++ [(t, y)]))) by (intros I; apply F in I; lia).
    assert (TF : t <> f). { intros ->. apply NI. rewrite map_app. apply in_or_app. right. now left. }
    assert (ND := r_dup _ _ _ R). pose proof (r_seg _ _ _ R) as SG. apply seg_app in SG as (q & SG & (-> & nx & MT & NX)). cbn [seg] in NX. subst nx.
    assert (NR : ~ In t (map fst r)). { rewrite map_app in ND. cbn in ND. apply NoDup_remove_2 in ND. now rewrite app_nil_r in ND. }
    unfold ll_add_tail. rewrite (r_tail _ _ _ R), final_app, MT. fold f. cbn [n_item]. eexists _, f. split; [reflexivity|].
    split; cbn [l_mem l_fresh l_head l_tail l_iter].
    + rewrite <- app_assoc. cbn [app]. apply seg_app. exists (Some t). split.
      * apply seg_put; [exact NR|]. apply seg_put; [|exact SG]. intros I. apply NI. rewrite map_app. apply in_or_app. now left.
      * cbn [seg]. split; [reflexivity|]. exists (Some f). split; [apply put_same|]. split; [reflexivity|]. exists None. split; [|reflexivity]. rewrite put_other by auto. apply put_same.
    + rewrite map_app. cbn [map fst]. rewrite <- (rev_involutive (map fst (r ++ [(t, y)]) ++ [f])). apply NoDup_rev. rewrite rev_app_distr. cbn. constructor; [|now apply NoDup_rev].
      intros I. apply in_rev in I. now apply NI.
    + now rewrite final_app.
    + intros a I. rewrite map_app in I. apply in_app_or in I as [I|[<-|[]]]; [apply F in I|]; cbn; fold f; lia.
    + intros a n M. rewrite map_app. apply in_or_app. destruct (Nat.eq_dec a t) as [->|N1]; [left; rewrite map_app; apply in_or_app; right; now left|]. rewrite put_other in M by exact N1.
      destruct (Nat.eq_dec a f) as [->|N2]; [right; now left|]. rewrite put_other in M by exact N2. left. eapply r_mem; eauto.
    + rewrite (r_iter _ _ _ R). destruct pos as [p|]; [|reflexivity]. pose proof (r_pos _ _ _ R p eq_refl) as X. cbn [addr]. rewrite (map_app fst (r ++ [(t, y)])). rewrite nth_error_app1 by (rewrite map_length; lia). reflexivity.
    + intros p E. pose proof (r_pos _ _ _ R p E). rewrite app_length. lia.
Qed.

(* ---------------------------------------------------------------- removing *)
(* taking the node at a out of the list: what is left *)
Lemma gone_repr l r a x s pos m' h' t' i' : repr l (r ++ (a, x) :: s) pos ->
  seg m' h' (r ++ s) None -> t' = final (r ++ s) -> (forall b n, m' b = Some n -> b <> a /\ exists n', l_mem l b = Some n') ->
  i' = (if same (l_iter l) (Some a) then first_of s None else l_iter l) ->
  repr (mkLL m' (l_fresh l) h' t' i') (r ++ s) (moved (length r) (length (r ++ (a, x) :: s)) pos).
Proof.
  intros R SG TL ME IT. pose proof (r_dup _ _ _ R) as ND. destruct (iter_after r a x s pos ND (r_pos _ _ _ R)) as (I1 & I2).
  split; cbn [l_mem l_fresh l_head l_tail l_iter]; auto.
  - rewrite map_app in *. cbn [map fst] in ND. now apply NoDup_remove_1 in ND.
  - intros b I. apply (r_fresh _ _ _ R). rewrite map_app in *. cbn. apply in_or_app. apply in_app_or in I as [I|I]; [now left|right; now right].
  - intros b n M. destruct (ME _ _ M) as (N & n' & M'). apply (r_mem _ _ _ R) in M'. rewrite map_app in *. cbn in M'. apply in_or_app. apply in_app_or in M' as [I|[<-|I]]; [now left|easy|now right].
  - rewrite IT, (r_iter _ _ _ R). exact I1.
Qed.
Lemma pop_head_nil l pos : repr l [] pos -> ll_pop_head l = Ok (l, None).
Proof. intros R. unfold ll_pop_head. pose proof (r_seg _ _ _ R) as X. cbn in X. now rewrite X. Qed.
Lemma pop_head_repr l a x s pos : repr l ((a, x) :: s) pos -> exists l1, ll_pop_head l = Ok (l1, Some x) /\ repr l1 s (moved 0 (S (length s)) pos).
Proof.
  intros R. pose proof (r_seg _ _ _ R) as (HD & nx & M & SG). unfold ll_pop_head. rewrite HD, M. cbn [n_item n_next]. pose proof (seg_first _ _ _ _ SG) as NX.
  pose proof (r_dup _ _ _ R) as ND. cbn [map fst] in ND. inversion ND as [|? ? NI ND']; subst.
  assert (TL : same (l_tail l) (Some a) = match s with [] => true | _ => false end).
  { rewrite (r_tail _ _ _ R). destruct s as [|[b y] s]; [apply same_refl|]. change ((a, x) :: (b, y) :: s) with ([(a, x)] ++ (b, y) :: s). rewrite final_tail by discriminate.
    apply same_not. unfold final. intros E. apply nth_error_In in E. contradiction. }
  rewrite TL. eexists. split; [reflexivity|].
  assert (X : repr (mkLL (put (l_mem l) a None) (l_fresh l) (first_of s None) (final s) (if same (l_iter l) (Some a) then first_of s None else l_iter l)) ([] ++ s) (moved (length (@nil (nat * A))) (length ([] ++ (a, x) :: s)) pos)).
  { apply (gone_repr l [] a x s pos); auto; [apply seg_put; [exact NI|exact SG]|]. intros b n MM. destruct (Nat.eq_dec b a) as [->|N]; [rewrite put_same in MM; discriminate|]. rewrite put_other in MM by exact N. eauto. }
  destruct s as [|[b y] s]; [exact X|]. rewrite (r_tail _ _ _ R). change ((a, x) :: (b, y) :: s) with ([(a, x)] ++ (b, y) :: s). rewrite final_tail by discriminate. exact X.
Qed.
Lemma seg_next m h c z s t : seg m h ((c, z) :: s) t -> h = Some c /\ m c = Some (mkNode z (first_of s t)) /\ seg m (first_of s t) s t.
Proof. intros (-> & nx & M & X). pose proof (seg_first _ _ _ _ X) as ->. auto. Qed.
Lemma pop_tail_scan l v b y a x : forall fuel p, (length v < fuel)%nat -> seg (l_mem l) p (v ++ [(b, y)]) (Some a) -> ~ In a (map fst (v ++ [(b, y)])) ->
  l_tail l = Some a -> l_mem l a = Some (mkNode x None) ->
  ll_pop_tail_from fuel l p = Ok (mkLL (put (put (l_mem l) a None) b (Some (mkNode y None))) (l_fresh l) (l_head l) (Some b) (l_iter l), Some x).
Proof.
  induction v as [|[c z] v IH]; intros fuel p LF SG NI TL MA; (destruct fuel as [|fuel]; [cbn in LF; lia|]).
  - apply seg_next in SG as (-> & M & _). cbn [first_of] in M. cbn [ll_pop_tail_from]. rewrite M. cbn [n_next n_item]. rewrite TL, same_refl, MA. reflexivity.
  - change (((c, z) :: v) ++ [(b, y)]) with ((c, z) :: (v ++ [(b, y)])) in *. cbn [map fst In] in NI. apply seg_next in SG as (-> & M & SG). cbn [ll_pop_tail_from]. rewrite M. cbn [n_next].
    rewrite TL, same_not. 2: { intros E. apply NI. right. destruct v as [|[d w] v]; cbn in E; injection E as ->; cbn; now left. }
    apply IH; [cbn in LF; lia|exact SG|tauto|exact TL|exact MA].
Qed.
Lemma pop_tail_nil l pos : repr l [] pos -> ll_pop_tail l = Ok (l, None).
Proof.
  intros R. assert (P : pos = None) by (destruct pos as [p|]; [|reflexivity]; pose proof (r_pos _ _ _ R p eq_refl) as X; cbn in X; lia). subst pos.
  pose proof (r_seg _ _ _ R) as HD. pose proof (r_tail _ _ _ R) as TL. pose proof (r_iter _ _ _ R) as IT. cbn in HD, TL, IT. unfold ll_pop_tail. rewrite IT, TL. cbn [same].
  unfold with_iter. destruct l as [m f h t i]. cbn in *. subst. reflexivity.
Qed.
Lemma pop_tail_repr l r a x pos : repr l (r ++ [(a, x)]) pos -> exists l1, ll_pop_tail l = Ok (l1, Some x) /\ repr l1 r (moved (length r) (length (r ++ [(a, x)])) pos).
Proof.
  intros R. pose proof (r_dup _ _ _ R) as ND. destruct (addr_last r a x pos ND (r_pos _ _ _ R)) as (I1 & I2).
  assert (NR : ~ In a (map fst r)). { rewrite map_app in ND. cbn in ND. apply NoDup_remove_2 in ND. now rewrite app_nil_r in ND. }
  pose proof (r_tail _ _ _ R) as TL. rewrite final_app in TL. pose proof (r_iter _ _ _ R) as IT.
  set (i' := if same (l_iter l) (Some a) then None else l_iter l).
  assert (E0 : (if same (l_iter l) (l_tail l) then with_iter None l else l) = with_iter i' l).
  { unfold i'. rewrite TL. destruct (same (l_iter l) (Some a)); [reflexivity|]. now destruct l. }
  unfold ll_pop_tail. rewrite E0. cbn [with_iter l_head l_tail l_fresh].
  pose proof (r_seg _ _ _ R) as SG. apply seg_app in SG as (q & SG & MA). apply seg_next in MA as (-> & MA & _). cbn [first_of] in MA.
  destruct r as [|c0 r0] eqn:ER.
  - cbn in SG. rewrite SG, TL, same_refl. unfold ll_pop_head. cbn [with_iter l_head l_mem l_tail l_iter l_fresh]. rewrite SG, MA, TL, same_refl. cbn [n_item n_next]. eexists. split; [reflexivity|].
    assert (NI : same i' (Some a) = false). { unfold i'. destruct (same (l_iter l) (Some a)) eqn:E; [reflexivity|exact E]. } rewrite NI.
    apply (gone_repr l [] a x [] pos); auto; [reflexivity|].
    intros b n MM. destruct (Nat.eq_dec b a) as [->|N]; [rewrite put_same in MM; discriminate|]. rewrite put_other in MM by exact N. eauto.
  - assert (NE : r <> []) by (rewrite ER; discriminate). rewrite <- ER in *. clear ER c0 r0. destruct (exists_last NE) as (v & [b y] & ->).
    assert (HN : same (l_head l) (l_tail l) = false).
    { apply same_not. rewrite TL. pose proof (seg_first _ _ _ _ SG) as ->. destruct v as [|[d w] v]; cbn; intros [= ->]; apply NR; cbn; now left. }
    rewrite HN. rewrite (pop_tail_scan (with_iter i' l) v b y a x); cbn [with_iter l_mem l_tail l_head l_fresh l_iter]; auto.
    2: { pose proof (repr_small _ _ _ R) as X. rewrite !app_length in X. cbn in X. lia. }
    eexists. split; [reflexivity|].
    assert (BA : b <> a). { intros ->. apply NR. rewrite map_app. apply in_or_app. right. now left. }
    assert (NV : ~ In b (map fst v)). { rewrite !map_app in ND. cbn in ND. rewrite <- app_assoc in ND. apply NoDup_remove_2 in ND. intros X. apply ND. apply in_or_app. now left. }
    assert (NA : ~ In a (map fst v)). { intros X. apply NR. rewrite map_app. apply in_or_app. now left. }
    apply seg_app in SG as (q & SV & SB). apply seg_next in SB as (-> & MB & _). cbn [first_of] in MB.
    pose proof (gone_repr l (v ++ [(b, y)]) a x [] pos (put (put (l_mem l) a None) b (Some (mkNode y None))) (l_head l) (Some b) i' R) as G. rewrite app_nil_r in G. apply G.
    + apply seg_app. exists (Some b). split; [apply seg_put; [exact NV|]; apply seg_put; [exact NA|exact SV]|]. cbn [seg]. split; [reflexivity|]. exists None. split; [apply put_same|reflexivity].
    + now rewrite final_app.
    + intros c n MM. destruct (Nat.eq_dec c b) as [->|N1]; [split; [exact BA|eauto]|]. rewrite put_other in MM by exact N1. destruct (Nat.eq_dec c a) as [->|N2]; [rewrite put_same in MM; discriminate|]. rewrite put_other in MM by exact N2. eauto.
    + reflexivity.
Qed.
Lemma unlink_repr l r q z a x s pos : repr l ((r ++ [(q, z)]) ++ (a, x) :: s) pos -> s <> [] ->
  exists l1, ll_unlink l (Some q) a (mkNode x (first_of s None)) = Ok (l1, Some x) /\
    repr l1 ((r ++ [(q, z)]) ++ s) (moved (length (r ++ [(q, z)])) (length ((r ++ [(q, z)]) ++ (a, x) :: s)) pos).
Proof.
  intros R NE. pose proof (r_dup _ _ _ R) as ND. pose proof (r_seg _ _ _ R) as SG. apply seg_app in SG as (p & SG & SA). apply seg_next in SA as (-> & MA & SS).
  apply seg_app in SG as (p & SR & SQ). apply seg_next in SQ as (-> & MQ & _). cbn [first_of] in MQ. unfold ll_unlink. rewrite MQ. cbn [n_item n_next]. eexists. split; [reflexivity|].
  rewrite !map_app in ND. cbn [map fst] in ND. rewrite <- app_assoc in ND. cbn [app] in ND.
  assert (NQ : ~ In q (map fst r ++ a :: map fst s)) by (now apply NoDup_remove_2 in ND).
  assert (NA : ~ In a (map fst r ++ q :: map fst s)). { change (q :: map fst s) with ([q] ++ map fst s). rewrite app_assoc. apply NoDup_remove_2. rewrite <- app_assoc. exact ND. }
  assert (X : forall u (w : list nat), ~ In u (map fst r ++ w) -> ~ In u (map fst r) /\ ~ In u w) by (intros u w N; split; intros Y; apply N; apply in_or_app; auto).
  apply X in NQ as (NQ1 & NQ2). apply X in NA as (NA1 & NA2). cbn in NQ2, NA2.
  apply gone_repr; auto.
  - apply seg_app. exists (first_of s None). split.
    + apply seg_app. exists (Some q). split; [apply seg_put; [exact NA1|]; apply seg_put; [exact NQ1|exact SR]|]. cbn [seg]. split; [reflexivity|]. exists (first_of s None). split; [|reflexivity].
      rewrite put_other; [apply put_same|]. intros ->. tauto.
    + apply seg_put; [tauto|]. apply seg_put; [tauto|exact SS].
  - rewrite (r_tail _ _ _ R). rewrite !final_tail by (auto; discriminate). change ((a, x) :: s) with ([(a, x)] ++ s). now rewrite final_tail by exact NE.
  - intros c n MM. destruct (Nat.eq_dec c a) as [->|N1]; [rewrite put_same in MM; discriminate|]. rewrite put_other in MM by exact N1. split; [exact N1|]. destruct (Nat.eq_dec c q) as [->|N2]; [eauto|]. rewrite put_other in MM by exact N2. eauto.
Qed.
(* the scans: u is behind *)
Lemma tail_there l u a x s pos : repr l (u ++ (a, x) :: s) pos -> same (Some a) (l_tail l) = match s with [] => true | _ => false end.
Proof.
  intros R. rewrite (r_tail _ _ _ R), final_tail by discriminate. destruct s as [|[b y] s]; [apply same_refl|]. change ((a, x) :: (b, y) :: s) with ([(a, x)] ++ (b, y) :: s). rewrite final_tail by discriminate.
  apply same_not. unfold final. intros E. symmetry in E. apply nth_error_In in E. pose proof (r_dup _ _ _ R) as ND. rewrite map_app in ND. cbn [map fst] in ND. apply NoDup_remove_2 in ND. apply ND. apply in_or_app. now right.
Qed.
Lemma take_out l u a x s pos : repr l (u ++ (a, x) :: s) pos -> u <> [] ->
  exists l1, (if same (Some a) (l_tail l) then ll_pop_tail l else ll_unlink l (final u) a (mkNode x (first_of s None))) = Ok (l1, Some x) /\
    repr l1 (u ++ s) (moved (length u) (length (u ++ (a, x) :: s)) pos).
Proof.
  intros R NE. rewrite (tail_there _ _ _ _ _ _ R). destruct s as [|c s].
  - rewrite app_nil_r. now apply pop_tail_repr.
  - destruct (exists_last NE) as (r & [q z] & ->). rewrite final_app. apply unlink_repr; [exact R|discriminate].
Qed.
Lemma pop_at_scan l pos : forall s u fuel i, repr l (u ++ s) pos -> (length s < fuel)%nat -> (length u <= i)%nat -> (0 < i)%nat ->
  exists l1, ll_pop_at_from fuel (Z.of_nat (length u)) (Z.of_nat i) l (final u) (first_of s None) = Ok (l1, nth_error (map snd (u ++ s)) i) /\
    exists ps1, repr l1 ps1 (snd (removed i (map snd (u ++ s), pos))) /\ map snd ps1 = fst (removed i (map snd (u ++ s), pos)).
Proof.
  induction s as [|[a x] s IH]; intros u fuel i R LF LI PI; (destruct fuel as [|fuel]; [cbn in LF; lia|]).
  - cbn [first_of ll_pop_at_from]. rewrite app_nil_r in *. exists l. unfold removed. rewrite map_length. destruct (Nat.ltb_spec i (length u)); [lia|].
    split; [|exists u; auto]. rewrite (proj2 (nth_error_None _ _)) by (rewrite map_length; lia). reflexivity.
  - pose proof (r_seg _ _ _ R) as SG. apply seg_app in SG as (p & SU & SA). apply seg_next in SA as (-> & MA & SS). cbn [first_of ll_pop_at_from]. rewrite MA. cbn [n_next].
    destruct (Z.eqb_spec (Z.of_nat (length u)) (Z.of_nat i)) as [E|N].
    + assert (i = length u) as -> by lia. assert (NE : u <> []) by (intros ->; cbn in PI; lia). destruct (take_out l u a x s pos R NE) as (l1 & E1 & R1). exists l1.
      split; [rewrite E1, map_app, nth_error_app2 by (rewrite map_length; lia); rewrite map_length, Nat.sub_diag; reflexivity|].
      exists (u ++ s). unfold removed. rewrite map_length, app_length. cbn [length]. destruct (Nat.ltb_spec (length u) (length u + S (length s))); [|lia]. cbn [fst snd].
      split; [rewrite app_length in R1; exact R1|]. unfold without. rewrite !map_app. cbn [map snd].
      rewrite firstn_app, skipn_app, map_length. replace (length u - length u)%nat with O by lia. replace (S (length u) - length u)%nat with 1%nat by lia.
      rewrite (firstn_all2 (map snd u)) by (rewrite map_length; lia). rewrite (skipn_all2 (map snd u)) by (rewrite map_length; lia). cbn. now rewrite app_nil_r.
    + replace (u ++ (a, x) :: s) with ((u ++ [(a, x)]) ++ s) in * by (now rewrite <- app_assoc).
      destruct (IH (u ++ [(a, x)]) fuel i R) as (l1 & E1 & R1); [cbn in LF; lia|rewrite app_length; cbn; lia|exact PI|].
      exists l1. split; [|exact R1]. rewrite final_app in E1. rewrite app_length in E1. cbn [length] in E1. replace (Z.of_nat (length u + 1)) with (Z.of_nat (length u) + 1) in E1 by lia. exact E1.
Qed.

Lemma pop_at_negative l : forall s fuel c i prev p, seg (l_mem l) p s None -> (length s < fuel)%nat -> 0 <= c -> i < 0 -> ll_pop_at_from fuel c i l prev p = Ok (l, None).
Proof.
  induction s as [|[a x] s IH]; intros fuel c i prev p SG LF C I; (destruct fuel as [|fuel]; [cbn in LF; lia|]).
  - cbn in SG. subst. reflexivity.
  - apply seg_next in SG as (-> & M & SG). cbn [ll_pop_at_from]. rewrite M. destruct (Z.eqb_spec c i); [lia|]. apply IH; [exact SG|cbn in LF; lia|lia|exact I].
Qed.
Lemma removed_head a x s pos : removed 0 (map snd ((a, x) :: s), pos) = (map snd s, @moved 0 (S (length s)) pos).
Proof. unfold removed, without. cbn [map snd length firstn skipn app Nat.ltb Nat.leb]. now rewrite map_length. Qed.
Lemma removed_app u (a : nat) (x : A) s pos : removed (length u) (map snd (u ++ (a, x) :: s), pos) = (map snd (u ++ s), moved (length u) (length (u ++ (a, x) :: s)) pos).
Proof.
  unfold removed. rewrite map_length, app_length. cbn [length]. destruct (Nat.ltb_spec (length u) (length u + S (length s))); [|lia]. f_equal. unfold without. rewrite !map_app. cbn [map snd].
  rewrite firstn_app, skipn_app, map_length. replace (length u - length u)%nat with O by lia. replace (S (length u) - length u)%nat with 1%nat by lia.
  rewrite (firstn_all2 (map snd u)) by (rewrite map_length; lia). rewrite (skipn_all2 (map snd u)) by (rewrite map_length; lia). cbn. now rewrite app_nil_r.
Qed.
Lemma removed_beyond n (l : list A) pos : (length l <= n)%nat -> removed n (l, pos) = (l, pos).
Proof. intros L. unfold removed. destruct (Nat.ltb_spec n (length l)); [lia|reflexivity]. Qed.
Lemma pop_at_repr l ps pos i : repr l ps pos ->
  exists l1 ps1, ll_pop_at i l = Ok (l1, if i <? 0 then None else nth_error (map snd ps) (Z.to_nat i)) /\
    repr l1 ps1 (snd (if i <? 0 then (map snd ps, pos) else removed (Z.to_nat i) (map snd ps, pos))) /\ map snd ps1 = fst (if i <? 0 then (map snd ps, pos) else removed (Z.to_nat i) (map snd ps, pos)).
Proof.
  intros R. unfold ll_pop_at. pose proof (repr_small _ _ _ R) as SM. destruct (Z.eqb_spec i 0) as [->|NZ].
  - cbn [Z.ltb Z.compare]. change (Z.to_nat 0) with O. destruct ps as [|[a x] s].
    + exists l, []. rewrite (pop_head_nil _ _ R). auto.
    + destruct (pop_head_repr _ _ _ _ _ R) as (l1 & E & R1). exists l1, s. rewrite removed_head. auto.
  - destruct (Z.ltb_spec i 0) as [L|L].
    + exists l, ps. split; [|auto]. eapply pop_at_negative; [apply R|lia|lia|exact L].
    + destruct (pop_at_scan l pos ps [] (S (l_fresh l)) (Z.to_nat i) R) as (l1 & E & ps1 & R1 & M1); [lia|cbn; lia|lia|]. exists l1, ps1. split; [|auto].
      rewrite Z2Nat.id in E by lia. rewrite (seg_first _ _ _ _ (r_seg _ _ _ R)). exact E.
Qed.
Lemma pop_item_absent l item : forall s fuel prev p, seg (l_mem l) p s None -> (length s < fuel)%nat -> (forall a, item = Some a -> ~ In a (map fst s)) -> ll_pop_item_from fuel item l prev p = Ok l.
Proof.
  induction s as [|[a x] s IH]; intros fuel prev p SG LF NI; (destruct fuel as [|fuel]; [cbn in LF; lia|]).
  - cbn in SG. subst. reflexivity.
  - apply seg_next in SG as (-> & M & SG). cbn [ll_pop_item_from]. rewrite M. rewrite same_not. 2: { intros E. symmetry in E. apply (NI _ E). now left. }
    apply IH; [exact SG|cbn in LF; lia|]. intros b E X. apply (NI b E). now right.
Qed.
Lemma pop_item_scan l a x s pos : s <> [] -> forall v u fuel, repr l ((u ++ v) ++ (a, x) :: s) pos -> u ++ v <> [] -> (length v < fuel)%nat ->
  exists l1, ll_pop_item_from fuel (Some a) l (final u) (first_of (v ++ (a, x) :: s) None) = Ok l1 /\ repr l1 ((u ++ v) ++ s) (moved (length (u ++ v)) (length ((u ++ v) ++ (a, x) :: s)) pos).
Proof.
  intros NS. induction v as [|[c z] v IH]; intros u fuel R NE LF; (destruct fuel as [|fuel]; [cbn in LF; lia|]).
  - rewrite app_nil_r in *. pose proof (r_seg _ _ _ R) as SG. apply seg_app in SG as (p & SU & SA). apply seg_next in SA as (-> & MA & SS). cbn [app first_of ll_pop_item_from]. rewrite MA, same_refl.
    destruct (take_out l u a x s pos R NE) as (l1 & E1 & R1). rewrite (tail_there _ _ _ _ _ _ R) in E1. destruct s; [easy|]. rewrite E1. eauto.
  - pose proof (r_seg _ _ _ R) as SG. rewrite <- app_assoc in SG. apply seg_app in SG as (p & SU & SA). cbn [app] in SA. apply seg_next in SA as (-> & MA & SS). cbn [app first_of ll_pop_item_from]. rewrite MA. cbn [n_next].
    rewrite same_not. 2: { intros [= ->]. pose proof (r_dup _ _ _ R) as ND. rewrite map_app in ND. cbn [map fst] in ND. apply NoDup_remove_2 in ND. apply ND. apply in_or_app. left. rewrite map_app. apply in_or_app. right. now left. }
    replace (u ++ (c, z) :: v) with ((u ++ [(c, z)]) ++ v) in * by (now rewrite <- app_assoc). destruct (IH (u ++ [(c, z)]) fuel R NE ltac:(cbn in LF; lia)) as (l1 & E & R1). rewrite final_app in E. eauto.
Qed.
Lemma pop_item_freed l ps pos n : repr l ps pos ->
  exists l1 ps1, ll_pop_item (nth_error (map fst ps) n) l = Ok l1 /\ repr l1 ps1 (snd (removed n (map snd ps, pos))) /\ map snd ps1 = fst (removed n (map snd ps, pos)) /\
    forall a, nth_error (map fst ps) n = Some a -> ~ In a (map fst ps1).
Proof.
  intros R. unfold ll_pop_item. pose proof (repr_small _ _ _ R) as SM. pose proof (seg_first _ _ _ _ (r_seg _ _ _ R)) as HD.
  destruct ps as [|[h y] ps0] eqn:EP; [cbn in HD; rewrite HD; exists l, []; rewrite removed_beyond by (cbn; lia); split; [auto|]; split; [auto|]; split; [auto|]; now destruct n|]. cbn [first_of] in HD. rewrite HD. rewrite <- EP in *.
  destruct (Nat.lt_ge_cases n (length ps)) as [L|L].
  2: { rewrite (proj2 (nth_error_None _ _)) by (rewrite map_length; exact L). cbn [same]. rewrite (r_tail _ _ _ R). unfold final. destruct (nth_error (map fst ps) (length ps - 1)) as [t|] eqn:ET.
       2: { apply nth_error_None in ET. rewrite map_length in ET. rewrite EP in ET. cbn [length] in ET. lia. }
       rewrite (pop_item_absent l None ps); [|rewrite <- ?HD; apply R|lia|discriminate]. exists l, ps. rewrite removed_beyond by (rewrite map_length; exact L). split; [auto|]. split; [auto|]. split; [auto|]. discriminate. }
  destruct (nth_error ps n) as [[a x]|] eqn:EN; [|apply nth_error_None in EN; lia]. apply nth_error_split in EN as (u & s & -> & <-).
  assert (NP : nth_error (map fst (u ++ (a, x) :: s)) (length u) = Some a). { rewrite map_app, nth_error_app2 by (rewrite map_length; lia). now rewrite map_length, Nat.sub_diag. }
  rewrite NP, removed_app. cbn [fst snd]. pose proof (r_dup _ _ _ R) as ND. assert (NI : ~ In a (map fst (u ++ s))). { rewrite map_app in *. cbn [map fst] in ND. now apply NoDup_remove_2 in ND. }
  assert (UN : u = [] \/ u <> []) by (destruct u; [now left|right; discriminate]). destruct UN as [->|UN].
  - cbn [app] in *. injection EP as -> -> ->. rewrite same_refl. destruct (pop_head_repr _ _ _ _ _ R) as (l1 & E & R1). rewrite E. exists l1, ps0. split; [|split; [auto|]; split; [auto|]; intros b [= <-]; exact NI].
    apply (pop_item_absent l1 (Some h) ps0); [apply R1|pose proof (repr_small _ _ _ R1); lia|]. intros b [= <-]. exact NI.
  - assert (HA : h <> a). { intros ->. apply NI. destruct u as [|c u]; [easy|]. cbn [app] in EP. injection EP as -> _. cbn. now left. }
    rewrite same_not by congruence. pose proof (tail_there _ _ _ _ _ _ R) as TT. destruct (l_tail l) as [t|] eqn:TL.
    2: { pose proof (r_tail _ _ _ R) as X. rewrite TL, final_tail in X by discriminate. unfold final in X. symmetry in X. apply nth_error_None in X. rewrite map_length in X. cbn [length] in X. lia. }
    assert (TS : same (Some t) (Some a) = match s with [] => true | _ => false end) by (rewrite <- TT; cbn; apply Nat.eqb_sym). rewrite TS. destruct s as [|c s].
    + destruct (pop_tail_repr _ _ _ _ _ R) as (l1 & E & R1). rewrite E, app_nil_r in *. exists l1, u. split; [|split; [auto|]; split; [auto|]; intros b [= <-]; exact NI].
      apply (pop_item_absent l1 (Some a) u); [apply R1|pose proof (repr_small _ _ _ R1); lia|]. intros b [= <-]. exact NI.
    + destruct (pop_item_scan l a x (c :: s) pos ltac:(discriminate) u [] (S (l_fresh l)) R UN) as (l1 & E & R1); [rewrite app_length in SM; lia|]. exists l1, (u ++ c :: s). split; [|split; [auto|]; split; [auto|]; intros b [= <-]; exact NI].
      replace (Some h) with (first_of (u ++ (a, x) :: c :: s) None); [exact E|]. rewrite EP. reflexivity.
Qed.
Lemma pop_item_repr l ps pos n : repr l ps pos ->
  exists l1 ps1, ll_pop_item (nth_error (map fst ps) n) l = Ok l1 /\ repr l1 ps1 (snd (removed n (map snd ps, pos))) /\ map snd ps1 = fst (removed n (map snd ps, pos)).
Proof. intros R. destruct (pop_item_freed l ps pos n R) as (l1 & ps1 & E & R1 & M & _). eauto. Qed.
Lemma clear_repr l pos : forall s l0 fuel, l0 = l -> repr l0 s pos -> (length s < fuel)%nat -> exists l1, ll_clear_from fuel l0 = Ok l1 /\ repr l1 [] None.
Proof.
  intros s. revert l pos. induction s as [|[a x] s IH]; intros l pos l0 fuel -> R LF; (destruct fuel as [|fuel]; [cbn in LF; lia|]).
  - assert (P : pos = None) by (destruct pos as [p|]; [|reflexivity]; pose proof (r_pos _ _ _ R p eq_refl) as X; cbn in X; lia). subst pos.
    exists l. split; [|exact R]. cbn [ll_clear_from]. pose proof (r_seg _ _ _ R) as X. cbn in X. now rewrite X.
  - pose proof (r_seg _ _ _ R) as SG. apply seg_next in SG as (HD & _). destruct (pop_head_repr _ _ _ _ _ R) as (l1 & E & R1). cbn [ll_clear_from]. rewrite HD, E. eapply IH; [reflexivity|exact R1|cbn in LF; lia].
Qed.
(* ---------------------------------------------------------------- looking *)
Lemma get_scan l i : forall s fuel cur p, seg (l_mem l) p s None -> (length s < fuel)%nat -> 0 <= cur <= i ->
  ll_get_from fuel cur i l p = Ok (nth_error (map fst s) (Z.to_nat (i - cur))).
Proof.
  induction s as [|[a x] s IH]; intros fuel cur p SG LF C; (destruct fuel as [|fuel]; [cbn in LF; lia|]).
  - cbn in SG. subst. cbn [ll_get_from map]. now destruct (Z.to_nat (i - cur)).
  - apply seg_next in SG as (-> & M & SG). cbn [ll_get_from]. rewrite M. cbn [n_next]. destruct (Z.leb_spec i cur) as [L|L].
    + replace (Z.to_nat (i - cur)) with O by lia. reflexivity.
    + rewrite (IH fuel (cur + 1) (first_of s None)); [|exact SG|cbn in LF; lia|lia]. replace (Z.to_nat (i - cur)) with (S (Z.to_nat (i - (cur + 1)))) by lia. reflexivity.
Qed.
Lemma get_repr l ps pos n : repr l ps pos -> ll_get (Z.of_nat n) l = Ok (nth_error (map fst ps) n).
Proof. intros R. pose proof (repr_small _ _ _ R) as SM. unfold ll_get. rewrite (get_scan l _ ps); [|apply R|lia|lia]. now rewrite Z.sub_0_r, Nat2Z.id. Qed.
Lemma item_repr l ps pos n : repr l ps pos -> ll_item l (nth_error (map fst ps) n) = Ok (nth_error (map snd ps) n).
Proof.
  intros R. destruct (nth_error ps n) as [[a x]|] eqn:E.
  - rewrite (map_nth_error fst _ _ E), (map_nth_error snd _ _ E). apply nth_error_split in E as (u & s & -> & _). pose proof (r_seg _ _ _ R) as SG. apply seg_app in SG as (p & _ & SA). apply seg_next in SA as (_ & M & _).
    cbn [fst snd ll_item]. now rewrite M.
  - apply nth_error_None in E. rewrite !(proj2 (nth_error_None _ _)) by (rewrite map_length; lia). reflexivity.
Qed.
Lemma with_iter_repr l ps pos p : repr l ps pos -> (forall q, p = Some q -> (q < length ps)%nat) -> repr (with_iter (addr ps p) l) ps p.
Proof. intros R P. destruct R. split; auto. Qed.
Lemma first_repr l ps pos : repr l ps pos -> exists l1, ll_first l = (l1, nth_error (map fst ps) 0) /\ repr l1 ps (match ps with [] => None | _ => Some O end).
Proof.
  intros R. unfold ll_first. rewrite (seg_first _ _ _ _ (r_seg _ _ _ R)). destruct ps as [|[a x] ps]; cbn [first_of].
  - exists l. split; [reflexivity|]. destruct pos as [p|]; [pose proof (r_pos _ _ _ R p eq_refl) as X; cbn in X; lia|exact R].
  - eexists. split; [reflexivity|]. apply (with_iter_repr l ((a, x) :: ps) pos (Some O) R). intros q [= <-]. cbn. lia.
Qed.
Definition following (len : nat) (p : nat) : option nat := if Nat.ltb (S p) len then Some (S p) else None.
Lemma next_repr l ps p : repr l ps (Some p) -> exists l1, ll_next l = Ok (l1, nth_error (map fst ps) (S p)) /\ repr l1 ps (following (length ps) p).
Proof.
  intros R. unfold ll_next. rewrite (r_iter _ _ _ R). cbn [addr]. pose proof (r_pos _ _ _ R p eq_refl) as L. destruct (nth_error ps p) as [[a x]|] eqn:E; [|apply nth_error_None in E; lia].
  rewrite (map_nth_error fst _ _ E). cbn [fst]. apply nth_error_split in E as (u & s & E1 & E2). pose proof (r_seg _ _ _ R) as SG. rewrite E1 in SG. apply seg_app in SG as (q & _ & SA). apply seg_next in SA as (_ & M & _). rewrite M. cbn [n_next].
  assert (NX : first_of s None = nth_error (map fst ps) (S p)).
  { rewrite E1, map_app, nth_error_app2 by (rewrite map_length; lia). rewrite map_length, E2. replace (S p - p)%nat with 1%nat by lia. cbn. now destruct s as [|[b y] s]. }
  rewrite NX. eexists. split; [reflexivity|]. unfold following. destruct (Nat.ltb_spec (S p) (length ps)) as [B|B].
  - apply (with_iter_repr l ps (Some p) (Some (S p)) R). intros q' [= <-]. exact B.
  - rewrite (proj2 (nth_error_None _ _)) by (rewrite map_length; exact B). apply (with_iter_repr l ps (Some p) None R). discriminate.
Qed.
Lemma count_repr ps : forall fuel c l p, repr l ps (Some p) -> (length ps - p < fuel)%nat -> (p < length ps)%nat -> exists l1, ll_count_from fuel c l (nth_error (map fst ps) p) = Ok (l1, c + Z.of_nat (length ps - p)) /\ repr l1 ps None.
Proof.
  induction fuel as [|fuel IH]; intros c l p R LF L; [lia|]. cbn [ll_count_from]. destruct (nth_error (map fst ps) p) as [a|] eqn:E; [|apply nth_error_None in E; rewrite map_length in E; lia].
  destruct (next_repr _ _ _ R) as (l1 & E1 & R1). rewrite E1. unfold following in R1. destruct (Nat.ltb_spec (S p) (length ps)) as [B|B].
  - destruct (IH (c + 1) l1 (S p) R1) as (l2 & E2 & R2); [lia|exact B|]. exists l2. rewrite E2. split; [|exact R2]. do 2 f_equal. lia.
  - rewrite (proj2 (nth_error_None _ _)) by (rewrite map_length; exact B). destruct fuel; [lia|]. exists l1. cbn [ll_count_from]. split; [|exact R1]. do 2 f_equal. lia.
Qed.

(* ---------------------------------------------------------------- all requests *)
Definition perform (q : request A) (l : ll A) : res (ll A * answer A) :=
  let looked := fun (l : ll A) (p : option nat) => match ll_item l p with Ok x => Ok (l, Item x) | UB => UB | OutOfFuel => OutOfFuel end in
  let popped := fun r : res (ll A * option A) => match r with Ok (l1, x) => Ok (l1, Item x) | UB => UB | OutOfFuel => OutOfFuel end in
  let done := fun r : res (ll A) => match r with Ok l1 => Ok (l1, Nothing) | UB => UB | OutOfFuel => OutOfFuel end in
  match q with
  | AddHead x => Ok (ll_add_head x l, Nothing)
  | AddTail x => done (ll_add_tail x l)
  | PopHead => popped (ll_pop_head l)
  | PopTail => popped (ll_pop_tail l)
  | PopAt i => popped (ll_pop_at i l)
  | PopItem n => match ll_get (Z.of_nat n) l with Ok p => done (ll_pop_item p l) | UB => UB | OutOfFuel => OutOfFuel end
  | Clear => done (ll_clear l)
  | First => let (l1, p) := ll_first l in looked l1 p
  | Next => match ll_next l with Ok (l1, p) => looked l1 p | UB => UB | OutOfFuel => OutOfFuel end
  | Tail => looked l (l_tail l)
  | Get n => match ll_get (Z.of_nat n) l with Ok p => looked l p | UB => UB | OutOfFuel => OutOfFuel end
  | Count => match ll_count l with Ok (l1, c) => Ok (l1, Number c) | UB => UB | OutOfFuel => OutOfFuel end
  end.
Lemma perform_repr q l ps pos : repr l ps pos ->
  exists l1 ps1, perform q l = Ok (l1, snd (expected q (map snd ps, pos))) /\ repr l1 ps1 (snd (fst (expected q (map snd ps, pos)))) /\ map snd ps1 = fst (fst (expected q (map snd ps, pos))).
Proof.
  intros R. pose proof (repr_small _ _ _ R) as SM. destruct q; cbn [perform expected fst snd].
  - destruct (add_head_repr _ _ _ x R) as (a & R1). exists (ll_add_head x l), ((a, x) :: ps). auto.
  - destruct (add_tail_repr _ _ _ x R) as (l1 & a & E & R1). rewrite E. exists l1, (ps ++ [(a, x)]). rewrite map_app. auto.
  - destruct ps as [|[a x] s].
    + rewrite (pop_head_nil _ _ R). exists l, []. rewrite removed_beyond by (cbn; lia). auto.
    + destruct (pop_head_repr _ _ _ _ _ R) as (l1 & E & R1). rewrite E. exists l1, s. rewrite removed_head. auto.
  - assert (N : ps = [] \/ ps <> []) by (destruct ps; [now left|right; discriminate]). destruct N as [->|N].
    + rewrite (pop_tail_nil _ _ R). exists l, []. rewrite removed_beyond by (cbn; lia). auto.
    + destruct (exists_last N) as (r & [a x] & ->). destruct (pop_tail_repr _ _ _ _ _ R) as (l1 & E & R1). rewrite E. exists l1, r. unfold last_item. rewrite map_length, app_length. cbn [length].
      replace (length r + 1 - 1)%nat with (length r) by lia. rewrite removed_app, app_nil_r. cbn [fst snd]. split; [|auto]. rewrite map_app, nth_error_app2 by (rewrite map_length; lia). now rewrite map_length, Nat.sub_diag.
  - destruct (pop_at_repr _ _ _ i R) as (l1 & ps1 & E & R1 & M1). rewrite E. exists l1, ps1. destruct (i <? 0); auto.
  - rewrite (get_repr _ _ _ n R). destruct (pop_item_repr _ _ _ n R) as (l1 & ps1 & E & R1 & M1). rewrite E. exists l1, ps1. auto.
  - destruct (clear_repr l pos ps l (S (l_fresh l)) eq_refl R ltac:(lia)) as (l1 & E & R1). unfold ll_clear. rewrite E. exists l1, []. auto.
  - destruct (first_repr _ _ _ R) as (l1 & E & R1). rewrite E, (item_repr _ _ _ 0 R1). exists l1, ps. split; [reflexivity|]. destruct ps; auto.
  - destruct pos as [p|].
    + destruct (next_repr _ _ _ R) as (l1 & E & R1). rewrite E, (item_repr _ _ _ (S p) R1). exists l1, ps. cbn [fst snd]. rewrite map_length. auto.
    + unfold ll_next. rewrite (r_iter _ _ _ R). cbn [addr ll_item]. exists l, ps. auto.
  - rewrite (r_tail _ _ _ R). unfold final, last_item. rewrite (item_repr _ _ _ _ R), map_length. exists l, ps. auto.
  - rewrite (get_repr _ _ _ n R), (item_repr _ _ _ n R). exists l, ps. auto.
  - unfold ll_count. destruct (first_repr _ _ _ R) as (l1 & E & R1). rewrite E. destruct ps as [|c ps].
    + cbn [map nth_error ll_count_from]. exists l1, []. auto.
    + destruct (count_repr (c :: ps) (S (l_fresh l)) 0 l1 0 R1) as (l2 & E2 & R2); [lia|cbn; lia|]. rewrite E2. exists l2, (c :: ps). split; [|auto]. unfold lenZ. rewrite map_length. now rewrite Nat.sub_0_r, Z.add_0_l.
Qed.
Fixpoint perform_all (qs : list (request A)) (l : ll A) : res (ll A * list (answer A)) :=
  match qs with
  | [] => Ok (l, [])
  | q :: qs => match perform q l with
               | Ok (l1, a) => match perform_all qs l1 with Ok (l2, r) => Ok (l2, a :: r) | UB => UB | OutOfFuel => OutOfFuel end
               | UB => UB | OutOfFuel => OutOfFuel
               end
  end.
Lemma perform_all_repr qs : forall l ps pos, repr l ps pos ->
  exists l1 ps1, perform_all qs l = Ok (l1, snd (expected_all qs (map snd ps, pos))) /\ repr l1 ps1 (snd (fst (expected_all qs (map snd ps, pos)))) /\ map snd ps1 = fst (fst (expected_all qs (map snd ps, pos))).
Proof.
  induction qs as [|q qs IH]; intros l ps pos R; [exists l, ps; auto|]. cbn [perform_all expected_all]. destruct (perform_repr q l ps pos R) as (l1 & ps1 & E & R1 & M1). rewrite E.
  destruct (expected q (map snd ps, pos)) as [[xs1 pos1] a]. cbn [fst snd] in *. subst xs1. destruct (IH l1 ps1 pos1 R1) as (l2 & ps2 & E2 & R2 & M2). rewrite E2.
  destruct (expected_all qs (map snd ps1, pos1)) as [s2 r]. cbn [fst snd] in *. eauto.
Qed.
Lemma new_repr : repr ll_new [] None.
Proof. split; cbn; auto; try constructor; try discriminate; intros; try contradiction; discriminate. Qed.
End Proofs.
