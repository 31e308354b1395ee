(* Proofs about expressions, second part: the positions of operands on the stack. *)
From Coq Require Import String Permutation.
From Verif Require Import Base HashModel OpsModel VmModel EmitModel ExprModel ExprSpec.
Open Scope list_scope. Open Scope Z_scope.

Section Stack.
Context {leaf V : Type}.
Variables (val hash : leaf -> V) (un : opcode -> list leaf -> V -> V) (bin : opcode -> V -> V -> V).
Let performs := performs val hash un bin.

Inductive slot := SOp (q : oper) (x : list leaf) | SLeaf (l : leaf) | SVal (v : V).
Inductive rel (st : list V) : ectx leaf -> slot -> Prop :=
| R_op : forall q x, rel st (mkE (KOp q x) (-1)) (SOp q x)
| R_leaf : forall l, rel st (mkE (KLeaf l) (-1)) (SLeaf l)
| R_val : forall p v, 0 <= p -> nth_error st (Z.to_nat p) = Some v -> rel st (mkE KResolved p) (SVal v).

Definition loaded (e : ectx leaf) : bool := negb (e_pos e =? -1).
Definition locs (cs : list (ectx leaf)) : list Z := map e_pos (filter loaded cs).
Definition zseq (a n : nat) : list Z := map Z.of_nat (seq a n).
Definition Inv (cs : list (ectx leaf)) (xs : list slot) (st : list V) : Prop :=
  Forall2 (rel st) cs xs /\ Permutation (locs cs) (zseq 0 (length st)).

(* ---------------------------------------------------------------- lists *)
Lemma locs_app : forall a b, locs (a ++ b) = locs a ++ locs b.
Proof. intros; unfold locs; rewrite filter_app, map_app; reflexivity. Qed.
Lemma locs_cons : forall e b, locs (e :: b) = (if e_pos e =? -1 then [] else [e_pos e]) ++ locs b.
Proof. intros e b; unfold locs; cbn; unfold loaded; destruct (e_pos e =? -1) eqn:E; cbn; reflexivity. Qed.
Lemma in_zseq : forall z a n, In z (zseq a n) <-> Z.of_nat a <= z < Z.of_nat (a + n).
Proof.
  intros z a n; unfold zseq; rewrite in_map_iff; split.
  - intros (y & <- & H); rewrite in_seq in H; lia.
  - intro H; exists (Z.to_nat z); split; [lia | rewrite in_seq; lia].
Qed.
Lemma nodup_zseq : forall a n, NoDup (zseq a n).
Proof.
  intros; unfold zseq; apply FinFun.Injective_map_NoDup; [intros x y; lia | apply seq_NoDup].
Qed.
Lemma length_zseq : forall a n, length (zseq a n) = n.
Proof. intros; unfold zseq; rewrite map_length, seq_length; reflexivity. Qed.
Lemma in_locs : forall cs e, In e cs -> e_pos e <> -1 -> In (e_pos e) (locs cs).
Proof.
  intros cs e H Hp; unfold locs; apply in_map; apply filter_In; split; [exact H|].
  unfold loaded; destruct (e_pos e =? -1) eqn:E; [lia | reflexivity].
Qed.
Lemma locs_in : forall cs p, In p (locs cs) -> exists e, In e cs /\ e_pos e = p.
Proof. intros cs p H; unfold locs in H; rewrite in_map_iff in H; destruct H as (e & <- & H); apply filter_In in H; exists e; tauto. Qed.
Lemma mapi_at : forall {X Y} (f : nat -> X -> Y) (g h : X -> Y) i,
  (forall j e, f j e = if Nat.eqb j i then g e else h e) ->
  forall a k e b, (k + length a = i)%nat -> mapi f k (a ++ e :: b) = map h a ++ g e :: map h b.
Proof.
  intros X Y f g h i Hf.
  assert (Hb : forall b k, (i < k)%nat -> mapi f k b = map h b).
  { induction b as [|y b IH]; intros k Hk; [reflexivity|]; cbn; rewrite Hf.
    destruct (Nat.eqb_spec k i); [lia|]; rewrite IH by lia; reflexivity. }
  induction a as [|y a IH]; intros k e b Hk; cbn in *.
  - rewrite Hf. destruct (Nat.eqb_spec k i); [|lia]. rewrite Hb by lia; reflexivity.
  - rewrite Hf; destruct (Nat.eqb_spec k i); [lia|]; rewrite IH by lia; reflexivity.
Qed.
Lemma set_pos_same : forall (e : ectx leaf), set_pos e (e_pos e) = e.
Proof. intros [k p]; reflexivity. Qed.

(* ---------------------------------------------------------------- pushToStack *)
Lemma compact_id : forall n h (cs : list (ectx leaf)),
  (forall x, h <= x < h + Z.of_nat n -> exists e, In e cs /\ e_pos e = x) -> compact n h cs = cs.
Proof.
  induction n as [|n IH]; intros h cs H; [reflexivity|]; cbn [compact].
  replace (existsb (fun e => e_pos e =? h) cs) with true.
  - apply IH; intros x Hx; apply H; lia.
  - symmetry; apply existsb_exists; destruct (H h ltac:(lia)) as (e & He & Ep); exists e; split; [exact He | lia].
Qed.
Lemma compact_gap : forall d n (cs : list (ectx leaf)), (0 < n)%nat ->
  (forall e, In e cs -> e_pos e = -1 \/ e_pos e = 0 \/ Z.of_nat d + 1 <= e_pos e <= Z.of_nat (d + n)) ->
  (forall k, Z.of_nat d + 1 <= k <= Z.of_nat (d + n) -> exists e, In e cs /\ e_pos e = k) ->
  compact (d + n - 1) 1 cs = map (fun e => if 1 <=? e_pos e then set_pos e (e_pos e - Z.of_nat d) else e) cs.
Proof.
  induction d as [|d IH]; intros n cs Hn H1 H2.
  - rewrite compact_id.
    + rewrite <- (map_id cs) at 1. apply map_ext; intros e. destruct (1 <=? e_pos e); [|reflexivity].
      rewrite Z.sub_0_r, set_pos_same; reflexivity.
    + intros x Hx; apply H2; lia.
  - replace (S d + n - 1)%nat with (S (d + n - 1)) by lia. cbn [compact].
    replace (existsb (fun e => e_pos e =? 1) cs) with false.
    + rewrite IH; [|exact Hn| |].
      * rewrite map_map; apply map_ext_in; intros e He; specialize (H1 e He).
        destruct (1 <? e_pos e) eqn:E1.
        -- cbn [set_pos e_pos e_kind]. replace (1 <=? e_pos e - 1) with true by lia. replace (1 <=? e_pos e) with true by lia.
           unfold set_pos; cbn; f_equal; lia.
        -- replace (1 <=? e_pos e) with false by lia. reflexivity.
      * intros e' He'; apply in_map_iff in He'; destruct He' as (e & <- & He); specialize (H1 e He).
        destruct (1 <? e_pos e) eqn:E1; cbn [set_pos e_pos]; lia.
      * intros k Hk; destruct (H2 (k + 1) ltac:(lia)) as (e & He & Ep). exists (set_pos e k); split; [|reflexivity].
        apply in_map_iff; exists e; split; [|exact He]. replace (1 <? e_pos e) with true by lia. f_equal; lia.
    + symmetry; apply not_true_is_false; intro E; apply existsb_exists in E; destruct E as (e & He & Ep); specialize (H1 e He); lia.
Qed.
Definition sh (d : Z) (e : ectx leaf) : ectx leaf := if e_pos e =? -1 then e else set_pos e (e_pos e - d + 1).
Lemma highest_is : forall (cs : list (ectx leaf)) m h0, h0 <= m -> (forall e, In e cs -> e_pos e <= m) ->
  (m = h0 \/ exists e, In e cs /\ e_pos e = m) -> fold_left (fun h e => Z.max h (e_pos e)) cs h0 = m.
Proof.
  induction cs as [|e cs IH]; intros m h0 H0 H1 H2; cbn.
  - destruct H2 as [H2|(e & [] & _)]; lia.
  - apply IH; [specialize (H1 e (or_introl eq_refl)); lia | intros; apply H1; now right |].
    specialize (H1 e (or_introl eq_refl)).
    destruct H2 as [H2 | (e' & [ -> | He'] & E)]; [left; lia | left; lia | right; exists e'; auto].
Qed.
Lemma push_lemma : forall a e b d n, Permutation (locs (a ++ b)) (zseq d n) ->
  push_to_stack (length a) (a ++ e :: b) = map (sh (Z.of_nat d)) a ++ set_pos e 0 :: map (sh (Z.of_nat d)) b.
Proof.
  intros a e b d n HP. unfold push_to_stack.
  rewrite (mapi_at _ (fun e => set_pos e 0) (fun e => if e_pos e =? -1 then e else set_pos e (e_pos e + 1)) (length a)); [|reflexivity|reflexivity].
  set (up := fun e : ectx leaf => if e_pos e =? -1 then e else set_pos e (e_pos e + 1)).
  set (cs1 := map up a ++ set_pos e 0 :: map up b).
  assert (Hin : forall x, In x (a ++ b) -> e_pos x = -1 \/ Z.of_nat d <= e_pos x < Z.of_nat (d + n)).
  { intros x Hx. destruct (Z.eq_dec (e_pos x) (-1)) as [E|E]; [now left|right].
    apply in_zseq. apply (Permutation_in _ HP). apply in_locs; assumption. }
  assert (Hex : forall k, Z.of_nat d <= k < Z.of_nat (d + n) -> exists x, In x (a ++ b) /\ e_pos x = k).
  { intros k Hk; apply locs_in. apply (Permutation_in _ (Permutation_sym HP)). apply in_zseq; exact Hk. }
  assert (H1 : forall x, In x cs1 -> e_pos x = -1 \/ e_pos x = 0 \/ Z.of_nat d + 1 <= e_pos x <= Z.of_nat (d + n)).
  { intros x Hx; unfold cs1 in Hx; apply in_app_or in Hx; cbn in Hx; destruct Hx as [Hx | [ <- | Hx]];
      [| right; left; reflexivity |]; apply in_map_iff in Hx; destruct Hx as (y & <- & Hy);
      specialize (Hin y ltac:(apply in_or_app; tauto)); unfold up; destruct (e_pos y =? -1) eqn:E; cbn [set_pos e_pos]; lia. }
  assert (H2 : forall k, Z.of_nat d + 1 <= k <= Z.of_nat (d + n) -> exists x, In x cs1 /\ e_pos x = k).
  { intros k Hk; destruct (Hex (k - 1) ltac:(lia)) as (x & Hx & E). exists (up x). split.
    - unfold cs1; apply in_or_app; apply in_app_or in Hx; cbn; destruct Hx as [Hx|Hx]; [left | right; right]; apply in_map; exact Hx.
    - unfold up. destruct (e_pos x =? -1) eqn:E2; cbn [set_pos e_pos]; lia. }
  assert (H0 : In (set_pos e 0) cs1) by (unfold cs1; apply in_or_app; right; left; reflexivity).
  destruct (Nat.eq_dec n 0) as [Hn|Hn].
  - rewrite (highest_is cs1 0 0); [|lia | intros x Hx; specialize (H1 x Hx); lia | now left].
    cbn [compact Z.to_nat]. unfold cs1; f_equal; [|f_equal]; apply map_ext_in; intros x Hx;
      specialize (Hin x ltac:(apply in_or_app; tauto)); unfold up, sh; destruct (e_pos x =? -1) eqn:E; [reflexivity | lia | reflexivity | lia].
  - rewrite (highest_is cs1 (Z.of_nat (d + n)) 0); [|lia | intros x Hx; specialize (H1 x Hx); lia | right; apply H2; lia].
    rewrite Nat2Z.id. replace (d + n)%nat with (S (d + n - 1)) at 1 by lia. cbn [compact].
    replace (existsb (fun x => e_pos x =? 0) cs1) with true by (symmetry; apply existsb_exists; exists (set_pos e 0); split; [exact H0|reflexivity]).
    cbn [Z.add]. rewrite (compact_gap d n cs1 ltac:(lia) H1 H2).
    unfold cs1; rewrite map_app; cbn [map]; rewrite !map_map. f_equal; [|f_equal]; apply map_ext_in; intros x Hx;
      specialize (Hin x ltac:(apply in_or_app; tauto)); unfold up, sh; destruct (e_pos x =? -1) eqn:E;
      try (replace (1 <=? e_pos x) with false by lia; reflexivity);
      cbn [set_pos e_pos e_kind]; replace (1 <=? e_pos x + 1) with true by lia; unfold set_pos; cbn; f_equal; lia.
Qed.

(* ---------------------------------------------------------------- facts of the invariant *)
Lemma inv_len : forall cs xs st, Inv cs xs st -> length cs = length xs.
Proof. intros cs xs st [H _]; induction H; cbn; lia. Qed.
Lemma inv_bound : forall cs xs st, Inv cs xs st -> (length st <= length xs)%nat.
Proof.
  intros cs xs st H; rewrite <- (inv_len _ _ _ H); destruct H as [_ P]; apply Permutation_length in P.
  rewrite length_zseq in P; rewrite <- P; unfold locs; rewrite map_length; clear P.
  induction cs as [|e cs IH]; cbn; [lia|]; destruct (loaded e); cbn; lia.
Qed.
Lemma inv_nth : forall cs xs st i s, Inv cs xs st -> nth_error xs i = Some s -> exists e, nth_error cs i = Some e /\ rel st e s.
Proof.
  intros cs xs st i s [H _]; revert i; induction H as [|e s0 cs xs H HF IH]; intros [|i] E; cbn in *; try discriminate.
  - injection E as ->; exists e; auto.
  - apply IH; exact E.
Qed.
Lemma inv_op : forall cs xs st i q x, Inv cs xs st -> nth_error xs i = Some (SOp q x) -> nth_error cs i = Some (mkE (KOp q x) (-1)).
Proof. intros cs xs st i q x H E; destruct (inv_nth _ _ _ _ _ H E) as (e & He & R); inversion R; subst; exact He. Qed.
Lemma inv_leaf : forall cs xs st i l, Inv cs xs st -> nth_error xs i = Some (SLeaf l) -> nth_error cs i = Some (mkE (KLeaf l) (-1)).
Proof. intros cs xs st i l H E; destruct (inv_nth _ _ _ _ _ H E) as (e & He & R); inversion R; subst; exact He. Qed.
Lemma inv_val : forall cs xs st i v, Inv cs xs st -> nth_error xs i = Some (SVal v) ->
  exists p, nth_error cs i = Some (mkE KResolved p) /\ 0 <= p < Z.of_nat (length st) /\ nth_error st (Z.to_nat p) = Some v /\ pos_of cs i = p.
Proof.
  intros cs xs st i v H E; destruct (inv_nth _ _ _ _ _ H E) as (e & He & R); inversion R; subst.
  exists p; split; [exact He|]; split; [|split; [assumption | unfold pos_of; rewrite He; reflexivity]].
  assert (nth_error st (Z.to_nat p) <> None) as N by congruence; apply nth_error_Some in N; lia.
Qed.
Lemma inv_distinct : forall cs xs st i j, Inv cs xs st -> i <> j -> pos_of cs i <> -1 -> pos_of cs i <> pos_of cs j.
Proof.
  intros cs xs st i j [_ P] Hij Hi E.
  assert (ND : NoDup (locs cs)) by (apply (Permutation_NoDup (Permutation_sym P)); apply nodup_zseq).
  clear P; revert i j Hij Hi E; induction cs as [|e cs IH]; intros i j Hij Hi E.
  - unfold pos_of in Hi; destruct i; cbn in Hi; congruence.
  - rewrite locs_cons in ND.
    assert (NDt : NoDup (locs cs)) by (destruct (e_pos e =? -1); [exact ND | cbn in ND; inversion ND; assumption]).
    assert (Hh : forall k, pos_of cs k = e_pos e -> e_pos e <> -1 -> False).
    { intros k Ek Ne. destruct (e_pos e =? -1) eqn:E1; [lia|]. cbn in ND; inversion ND; subst. apply H1.
      unfold pos_of in Ek; destruct (nth_error cs k) as [e'|] eqn:En; [|lia]. rewrite <- Ek; apply in_locs; [|lia].
      eapply nth_error_In; exact En. }
    destruct i as [|i], j as [|j].
    + congruence.
    + apply (Hh j); [symmetry; exact E | exact Hi].
    + assert (E' : pos_of cs i = e_pos e) by exact E. apply (Hh i E'). change (pos_of (e :: cs) (S i)) with (pos_of cs i) in Hi. congruence.
    + apply (IH NDt i j); [congruence | exact Hi | exact E].
Qed.

(* ---------------------------------------------------------------- swapping *)
Definition swpz (p x : Z) : Z := if x =? 0 then p else if x =? p then 0 else x.
Definition swp (p : Z) (e : ectx leaf) : ectx leaf := set_pos e (swpz p (e_pos e)).
Lemma nth_upd : forall {X} (l : list X) i j x, nth_error (Base.upd l i x) j = if Nat.eqb j i then (if (i <? length l)%nat then Some x else None) else nth_error l j.
Proof.
  induction l as [|y l IH]; intros i j x.
  - cbn [Base.upd length]. destruct j as [|j]; cbn [nth_error]; [destruct i; reflexivity|]. destruct i; [reflexivity|]. destruct (Nat.eqb (S j) (S i)); reflexivity.
  - destruct i as [|i], j as [|j]; cbn; try reflexivity. rewrite IH. reflexivity.
Qed.
Lemma length_upd : forall {X} (l : list X) i x, length (Base.upd l i x) = length l.
Proof. induction l as [|y l IH]; intros [|i] x; cbn; auto. Qed.
Lemma exchange_spec : forall (st : list V) p, (p < length st)%nat -> exists st', exchange 0 p st = Some st' /\ length st' = length st /\
  forall k, nth_error st' k = nth_error st (if Nat.eqb k 0 then p else if Nat.eqb k p then 0%nat else k).
Proof.
  intros st p Hp. unfold exchange.
  destruct (nth_error st 0) as [x|] eqn:E0; [|apply nth_error_None in E0; lia].
  destruct (nth_error st p) as [y|] eqn:Ep; [|apply nth_error_None in Ep; lia].
  eexists; split; [reflexivity|]; split; [rewrite !length_upd; reflexivity|].
  intro k; rewrite nth_upd, length_upd, nth_upd.
  replace (p <? length st)%nat with true by (symmetry; apply Nat.ltb_lt; lia).
  replace (0 <? length st)%nat with true by (symmetry; apply Nat.ltb_lt; lia).
  destruct (Nat.eqb_spec k p), (Nat.eqb_spec k 0); subst; congruence.
Qed.
Lemma swap_ok : forall cs xs st p, Inv cs xs st -> 0 <= p < Z.of_nat (length st) -> (length xs <= 255)%nat ->
  exists st', swap_with_top p cs = COk (map (swp p) cs) /\ performs (swap_code p) st = Some st' /\
              Inv (map (swp p) cs) xs st' /\ length st' = length st /\
              forall k, nth_error st' k = nth_error st (if Nat.eqb k 0 then Z.to_nat p else if Nat.eqb k (Z.to_nat p) then 0%nat else k).
Proof.
  intros cs xs st p HI Hp Hl. pose proof (inv_bound _ _ _ HI) as Hb.
  assert (Hinv : forall st', length st' = length st -> (forall k, nth_error st' k = nth_error st (if Nat.eqb k 0 then Z.to_nat p else if Nat.eqb k (Z.to_nat p) then 0%nat else k)) ->
            Inv (map (swp p) cs) xs st').
  { intros st' Hlen Hn; destruct HI as [HF HP]; split.
    - clear HP Hl Hb. induction HF as [|e s cs xs R HF IH]; cbn [map]; [constructor|]. constructor; [|exact IH].
      inversion R; subst; unfold swp, set_pos; cbn [e_kind e_pos].
      + replace (swpz p (-1)) with (-1) by (unfold swpz; destruct (-1 =? 0) eqn:?, (-1 =? p) eqn:?; lia); constructor.
      + replace (swpz p (-1)) with (-1) by (unfold swpz; destruct (-1 =? 0) eqn:?, (-1 =? p) eqn:?; lia); constructor.
      + constructor; [unfold swpz; destruct (p0 =? 0) eqn:?, (p0 =? p) eqn:?; lia|]. rewrite Hn, <- H0. f_equal.
        unfold swpz. destruct (p0 =? 0) eqn:E0, (p0 =? p) eqn:E1;
          repeat match goal with |- context [Nat.eqb ?a ?b] => destruct (Nat.eqb_spec a b) end; lia.
    - rewrite Hlen. assert (EL : locs (map (swp p) cs) = map (swpz p) (locs cs)).
      { clear HF HP Hn. induction cs as [|e cs IH]; [reflexivity|]; cbn [map]; rewrite !locs_cons, map_app, IH; f_equal.
        unfold swp; cbn [set_pos e_pos]. unfold swpz at 1 2. destruct (e_pos e =? -1) eqn:E.
        - replace (e_pos e =? 0) with false by lia. replace (e_pos e =? p) with false by lia. rewrite E; reflexivity.
        - cbn [map]. fold (swpz p (e_pos e)). replace (swpz p (e_pos e) =? -1) with false; [reflexivity|].
          unfold swpz; destruct (e_pos e =? 0), (e_pos e =? p); lia. }
      rewrite EL. apply Permutation_trans with (map (swpz p) (zseq 0 (length st))); [apply Permutation_map; exact HP|].
      apply NoDup_Permutation; [|apply nodup_zseq|].
      + apply FinFun.Injective_map_NoDup; [|apply nodup_zseq]. intros x y; unfold swpz.
        destruct (x =? 0) eqn:?, (x =? p) eqn:?, (y =? 0) eqn:?, (y =? p) eqn:?; lia.
      + intro x; rewrite in_zseq, in_map_iff; split.
        * intros (y & <- & Hy); rewrite in_zseq in Hy; unfold swpz; destruct (y =? 0) eqn:?, (y =? p) eqn:?; lia.
        * intro Hx; exists (swpz p x); rewrite in_zseq; unfold swpz; destruct (x =? 0) eqn:?, (x =? p) eqn:?; 
            repeat match goal with |- context [?a =? ?b] => destruct (a =? b) eqn:? end; lia. }
  unfold swap_with_top, swap_code. destruct (p =? 0) eqn:E0.
  - exists st. assert (p = 0) by lia; subst p. assert (H0 : forall k, nth_error st k = nth_error st (if Nat.eqb k 0 then Z.to_nat 0 else if Nat.eqb k (Z.to_nat 0) then 0%nat else k))
      by (intro k; cbn; destruct (Nat.eqb_spec k 0); subst; reflexivity).
    split; [|split; [reflexivity|split; [|split; [reflexivity|exact H0]]]].
    + f_equal. rewrite <- (map_id cs) at 1; apply map_ext; intro e; unfold swp, swpz. destruct (e_pos e =? 0) eqn:E; [|].
      * assert (e_pos e = 0) as <- by lia; rewrite set_pos_same; reflexivity.
      * rewrite set_pos_same; reflexivity.
    + apply Hinv; [reflexivity | exact H0].
  - destruct (exchange_spec st (Z.to_nat p) ltac:(lia)) as (st' & Ex & Hlen & Hn).
    exists st'. split; [|split; [|split; [apply Hinv; assumption | split; [exact Hlen | exact Hn]]]].
    + destruct HI as [HF HP].
      assert (Hex : forall k, 0 <= k < Z.of_nat (length st) -> existsb (fun e => e_pos e =? k) cs = true).
      { intros k Hk. assert (In k (locs cs)) as Hin by (apply (Permutation_in _ (Permutation_sym HP)); apply in_zseq; lia).
        apply locs_in in Hin; destruct Hin as (e & He & Ep); apply existsb_exists; exists e; split; [exact He|lia]. }
      rewrite !Hex by lia; cbn [andb]. f_equal. apply map_ext; intro e; unfold swp, swpz.
      destruct (e_pos e =? 0); [reflexivity|]. destruct (e_pos e =? p); [reflexivity|]. rewrite set_pos_same; reflexivity.
    + unfold performs; cbn [ExprSpec.performs perform]. assert (u8 (p + 1) = p + 1) as -> by (unfold u8; apply Z.mod_small; lia).
      replace (p + 1 <? 1) with false by lia. replace (p + 1 - 1) with p by lia. rewrite Ex; reflexivity.
Qed.
Lemma pos_swap : forall cs p i, 0 <= p -> pos_of (map (swp p) cs) i = swpz p (pos_of cs i).
Proof.
  intros cs p i Hp; unfold pos_of; rewrite nth_error_map; destruct (nth_error cs i); cbn [option_map]; [reflexivity|].
  unfold swpz; destruct (-1 =? 0) eqn:?, (-1 =? p) eqn:?; lia.
Qed.

(* ---------------------------------------------------------------- loading *)
Lemma rel_sh : forall d n (a : list (ectx leaf)) xs st st' locsrest,
  Forall2 (rel st) a xs -> (forall x, In x (locs a) -> In x locsrest) ->
  (forall x, In x locsrest -> Z.of_nat d <= x < Z.of_nat (d + n)) ->
  (forall p v, Z.of_nat d <= p < Z.of_nat (d + n) -> nth_error st (Z.to_nat p) = Some v -> nth_error st' (Z.to_nat (p - Z.of_nat d + 1)) = Some v) ->
  Forall2 (rel st') (map (sh (Z.of_nat d)) a) xs.
Proof.
  intros d n a xs st st' lr HF; induction HF as [|e s a xs R HF IH]; intros H1 H2 H3; cbn; constructor.
  - inversion R; subst; unfold sh; cbn [e_pos].
    + constructor.
    + constructor.
    + replace (p =? -1) with false by lia. unfold set_pos; cbn [e_kind].
      assert (Z.of_nat d <= p < Z.of_nat (d + n)).
      { apply H2, H1. change p with (e_pos (@mkE leaf KResolved p)). apply in_locs; [now left | cbn; lia]. }
      constructor; [lia | apply H3; assumption].
  - apply IH; [|exact H2|exact H3]. intros x Hx; apply H1; rewrite locs_cons; apply in_or_app; now right.
Qed.
Lemma locs_sh : forall d n (a : list (ectx leaf)), (forall x, In x (locs a) -> Z.of_nat d <= x < Z.of_nat (d + n)) ->
  locs (map (sh (Z.of_nat d)) a) = map (fun x => x - Z.of_nat d + 1) (locs a).
Proof.
  intros d n a H; induction a as [|e a IH]; [reflexivity|]; cbn [map]; rewrite !locs_cons, map_app, IH; [f_equal|].
  - unfold sh. destruct (e_pos e =? -1) eqn:E; [rewrite E; reflexivity|]. cbn [set_pos e_pos map].
    assert (Z.of_nat d <= e_pos e < Z.of_nat (d + n)) by (apply H; rewrite locs_cons, E; now left).
    replace (e_pos e - Z.of_nat d + 1 =? -1) with false by lia; reflexivity.
  - intros x Hx; apply H; rewrite locs_cons; apply in_or_app; now right.
Qed.
(* an entry goes to the top, the others keep their order *)
Lemma push_ok : forall a b xa xb (e : ectx leaf) d n st w st',
  Forall2 (rel st) a xa -> Forall2 (rel st) b xb ->
  Permutation (locs (a ++ b)) (zseq d n) -> length st' = n ->
  (forall p v, Z.of_nat d <= p < Z.of_nat (d + n) -> nth_error st (Z.to_nat p) = Some v -> nth_error st' (Z.to_nat (p - Z.of_nat d)) = Some v) ->
  Inv (map (sh (Z.of_nat d)) a ++ mkE KResolved 0 :: map (sh (Z.of_nat d)) b) (xa ++ SVal w :: xb) (w :: st').
Proof.
  intros a b xa xb e d n st w st' Fa Fb HP Hl Hst.
  assert (Hr : forall x, In x (locs (a ++ b)) -> Z.of_nat d <= x < Z.of_nat (d + n)).
  { intros x Hx; apply in_zseq; apply (Permutation_in _ HP); exact Hx. }
  assert (Hv : forall p v, Z.of_nat d <= p < Z.of_nat (d + n) -> nth_error st (Z.to_nat p) = Some v -> nth_error (w :: st') (Z.to_nat (p - Z.of_nat d + 1)) = Some v).
  { intros p v Hp E. replace (Z.to_nat (p - Z.of_nat d + 1)) with (S (Z.to_nat (p - Z.of_nat d))) by lia. cbn. apply Hst; assumption. }
  split.
  - apply Forall2_app; [|constructor; [constructor; [lia|reflexivity]|]].
    + eapply rel_sh with (locsrest := locs (a ++ b)); [exact Fa | | exact Hr | exact Hv].
      intros x Hx; rewrite locs_app; apply in_or_app; now left.
    + eapply rel_sh with (locsrest := locs (a ++ b)); [exact Fb | | exact Hr | exact Hv].
      intros x Hx; rewrite locs_app; apply in_or_app; now right.
  - rewrite locs_app, locs_cons; cbn [e_pos Z.eqb app].
    rewrite (locs_sh d n a), (locs_sh d n b).
    + cbn [length]. apply Permutation_trans with (0 :: map (fun x => x - Z.of_nat d + 1) (locs (a ++ b))).
      * rewrite locs_app, map_app. apply Permutation_sym, Permutation_middle.
      * rewrite Hl. unfold zseq. cbn [seq map]. apply perm_skip.
        apply Permutation_trans with (map (fun x => x - Z.of_nat d + 1) (zseq d n)); [apply Permutation_map; exact HP|].
        assert (EZ : forall k m, map (fun x => x - Z.of_nat d + 1) (map Z.of_nat (seq (d + k) m)) = map Z.of_nat (seq (S k) m)).
        { intros k m; revert k; induction m as [|m IH]; intro k; [reflexivity|]; cbn [seq map].
          f_equal; [lia|]. replace (S (d + k)) with (d + S k)%nat by lia. apply IH. }
        specialize (EZ 0%nat n); rewrite Nat.add_0_r in EZ. unfold zseq; rewrite EZ. apply Permutation_refl.
    + intros x Hx; apply Hr; rewrite locs_app; apply in_or_app; now right.
    + intros x Hx; apply Hr; rewrite locs_app; apply in_or_app; now left.
Qed.
Lemma load_ok : forall cs X l Y st w, Inv cs (X ++ SLeaf l :: Y) st ->
  Inv (load (length X) cs) (X ++ SVal w :: Y) (w :: st) /\
  (forall i, pos_of (load (length X) cs) i = if Nat.eqb i (length X) then 0 else if pos_of cs i =? -1 then -1 else pos_of cs i + 1).
Proof.
  intros cs X l Y st w [HF HP].
  apply Forall2_app_inv_r in HF. destruct HF as (a & eb & Fa & Feb & ->). inversion Feb as [|e ? b ? Re Fb]; subst. inversion Re; subst.
  assert (HP' : Permutation (locs (a ++ b)) (zseq 0 (length st))).
  { rewrite locs_app, locs_cons in HP; cbn in HP; rewrite locs_app; exact HP. }
  assert (La : length X = length a) by (clear -Fa; induction Fa; cbn; lia).
  assert (EQ : load (length X) (a ++ mkE (KLeaf l) (-1) :: b) = map (sh 0) a ++ mkE KResolved 0 :: map (sh 0) b).
  { unfold load. rewrite La, (push_lemma a _ b 0 (length st) HP').
    rewrite (mapi_at _ (fun e => mkE KResolved (e_pos e)) (fun e => e) (length a)); [|reflexivity|rewrite map_length; reflexivity].
    rewrite !map_id; reflexivity. }
  rewrite EQ; split.
  - apply (push_ok a b X Y (mkE KNone 0) 0 (length st) st); auto. intros p v Hp E; cbn; rewrite Z.sub_0_r; exact E.
  - intro i. rewrite La. unfold pos_of.
    destruct (Nat.eqb_spec i (length a)) as [->|Ni].
    + rewrite nth_error_app2, map_length, Nat.sub_diag by (rewrite map_length; lia). reflexivity.
    + assert (G : forall c j, match nth_error (map (sh 0) c) j with Some e => e_pos e | None => -1 end =
               (if match nth_error c j with Some e => e_pos e | None => -1 end =? -1 then -1 else match nth_error c j with Some e => e_pos e | None => -1 end + 1)).
      { intros c j; rewrite nth_error_map; destruct (nth_error c j) as [e|]; cbn; [|reflexivity].
        unfold sh; destruct (e_pos e =? -1) eqn:E; cbn; lia. }
      destruct (Nat.lt_ge_cases i (length a)).
      * rewrite !nth_error_app1 by (rewrite ?map_length; lia). apply G.
      * rewrite !nth_error_app2 by (rewrite ?map_length; lia). rewrite map_length.
        destruct (i - length a)%nat as [|j] eqn:Ej; [lia|]. cbn [nth_error]. apply G.
Qed.

(* ---------------------------------------------------------------- the operator takes its operands *)
Lemma unary_done : forall cs xa xb q x v st w (post : bool),
  Inv cs (if post then xa ++ SVal v :: SOp q x :: xb else xa ++ SOp q x :: SVal v :: xb) st ->
  pos_of cs (if post then length xa else S (length xa)) = 0 ->
  exists rest, st = v :: rest /\
    Inv (push_to_stack (length xa) (remove_at (if post then S (length xa) else length xa) 1 cs)) (xa ++ SVal w :: xb) (w :: rest).
Proof.
  intros cs xa xb q x v st w post [HF HP] Hpos.
  assert (exists a b e, Forall2 (rel st) a xa /\ Forall2 (rel st) b xb /\ rel st e (SVal v) /\ length a = length xa /\
            remove_at (if post then S (length xa) else length xa) 1 cs = a ++ e :: b /\ e_pos e = 0 /\ Permutation (locs (a ++ e :: b)) (zseq 0 (length st))) as
    (a & b & e & Fa & Fb & Re & La & -> & Ep & HP').
  { destruct post.
    - apply Forall2_app_inv_r in HF. destruct HF as (a & c & Fa & Fc & ->).
      inversion Fc as [|e ? c2 ? Re Fc2]; subst. inversion Fc2 as [|e2 ? b ? Re2 Fb]; subst.
      assert (La : length a = length xa) by (clear -Fa; induction Fa; cbn; lia).
      exists a, b, e. split; [exact Fa|]; split; [exact Fb|]; split; [exact Re|]; split; [exact La|]; split; [|split].
      + unfold remove_at. rewrite <- La.
        replace (S (length a) + 1)%nat with (length a + 2)%nat by lia. rewrite firstn_app, skipn_app.
        rewrite firstn_all2 by lia. replace (S (length a) - length a)%nat with 1%nat by lia.
        rewrite skipn_all2 by lia. replace (length a + 2 - length a)%nat with 2%nat by lia. cbn. rewrite <- app_assoc; reflexivity.
      + unfold pos_of in Hpos. rewrite <- La, nth_error_app2, Nat.sub_diag in Hpos by lia. exact Hpos.
      + rewrite locs_app, !locs_cons in *. inversion Re2; subst. cbn in HP. exact HP.
    - apply Forall2_app_inv_r in HF. destruct HF as (a & c & Fa & Fc & ->).
      inversion Fc as [|e2 ? c2 ? Re2 Fc2]; subst. inversion Fc2 as [|e ? b ? Re Fb]; subst.
      assert (La : length a = length xa) by (clear -Fa; induction Fa; cbn; lia).
      exists a, b, e. split; [exact Fa|]; split; [exact Fb|]; split; [exact Re|]; split; [exact La|]; split; [|split].
      + unfold remove_at. rewrite <- La. rewrite firstn_app, skipn_app.
        rewrite firstn_all2 by lia. rewrite Nat.sub_diag.
        rewrite skipn_all2 by lia. replace (length a + 1 - length a)%nat with 1%nat by lia. cbn. rewrite app_nil_r; reflexivity.
      + unfold pos_of in Hpos. rewrite <- La, nth_error_app2 in Hpos by lia. replace (S (length a) - length a)%nat with 1%nat in Hpos by lia. exact Hpos.
      + rewrite locs_app, !locs_cons in *. inversion Re2; subst. cbn in HP. exact HP. }
  inversion Re as [| |p v' Hp0 Hn]; subst. cbn in Ep; subst p.
  destruct st as [|v0 rest]; [discriminate|]. cbn in Hn; injection Hn as ->. exists rest; split; [reflexivity|].
  rewrite locs_app, locs_cons in HP'. cbn [e_pos Z.eqb app] in HP'.
  assert (HP2 : Permutation (locs (a ++ b)) (zseq 1 (length rest))).
  { rewrite locs_app. unfold zseq in *; cbn [length seq map Z.of_nat] in HP'. apply (Permutation_cons_inv (a := 0)).
    eapply Permutation_trans; [apply Permutation_middle | exact HP']. }
  rewrite <- La, (push_lemma a _ b 1 (length rest) HP2). cbn [set_pos e_kind].
  apply (push_ok a b xa xb (mkE KNone 0) 1 (length rest) (v :: rest)); auto.
  intros p v0 Hp E. replace (Z.to_nat p) with (S (Z.to_nat (p - 1))) in E by lia. cbn in E. exact E.
Qed.
Lemma binary_done : forall cs xa xb q x v1 v2 st w,
  Inv cs (xa ++ SVal v1 :: SOp q x :: SVal v2 :: xb) st ->
  let f := pos_of cs (length xa) in let s := pos_of cs (S (S (length xa))) in
  (f = 0 /\ s = 1) \/ (f = 1 /\ s = 0) ->
  exists rest, st = (if f =? 0 then v1 else v2) :: (if f =? 0 then v2 else v1) :: rest /\
    Inv (push_to_stack (length xa) (remove_at (length xa) 2 cs)) (xa ++ SVal w :: xb) (w :: rest).
Proof.
  intros cs xa xb q x v1 v2 st w HI f s Hfs.
  destruct HI as [HF HP]. apply Forall2_app_inv_r in HF. destruct HF as (a & c & Fa & Fc & ->).
  inversion Fc as [|e1 ? c2 ? Re1 Fc2]; subst. inversion Fc2 as [|e2 ? c3 ? Re2 Fc3]; subst. inversion Fc3 as [|e3 ? b ? Re3 Fb]; subst.
  assert (La : length a = length xa) by (clear -Fa; induction Fa; cbn; lia).
  assert (Ef : f = e_pos e1) by (unfold f, pos_of; rewrite <- La, nth_error_app2, Nat.sub_diag by lia; reflexivity).
  assert (Es : s = e_pos e3).
  { unfold s, pos_of; rewrite <- La, nth_error_app2 by lia. replace (S (S (length a)) - length a)%nat with 2%nat by lia; reflexivity. }
  clearbody f s.
  assert (ER : remove_at (length xa) 2 (a ++ e1 :: e2 :: e3 :: b) = a ++ e3 :: b).
  { unfold remove_at. rewrite <- La. rewrite firstn_app, skipn_app, firstn_all2 by lia. rewrite Nat.sub_diag.
    rewrite skipn_all2 by lia. replace (length a + 2 - length a)%nat with 2%nat by lia. cbn. rewrite app_nil_r; reflexivity. }
  rewrite ER. inversion Re1 as [| |p1 ? Hp1 Hn1]; subst. inversion Re3 as [| |p3 ? Hp3 Hn3]; subst. inversion Re2; subst.
  cbn [e_pos] in Hfs, HP |- *.
  assert (exists z0 z1 rest, st = z0 :: z1 :: rest) as (z0 & z1 & rest & ->).
  { destruct Hfs as [[E1 E2]|[E1 E2]]; rewrite E1 in Hn1; rewrite E2 in Hn3; destruct st as [|z0 [|z1 rest]]; try discriminate; exists z0, z1, rest; reflexivity. }
  exists rest. split.
  { destruct Hfs as [[-> ->]|[-> ->]]; change (Z.to_nat 0) with 0%nat in *; change (Z.to_nat 1) with 1%nat in *; cbn in Hn1, Hn3 |- *; congruence. }
  assert (HP2 : Permutation (locs (a ++ b)) (zseq 2 (length rest))).
  { rewrite locs_app, !locs_cons in HP. cbn [e_pos] in HP.
    replace (p1 =? -1) with false in HP by lia. replace (p3 =? -1) with false in HP by lia. cbn [Z.eqb app] in HP.
    rewrite locs_app. unfold zseq in HP; cbn [length seq map Z.of_nat] in HP.
    assert (Permutation (0 :: 1 :: locs a ++ locs b) (0 :: 1 :: zseq 2 (length rest))) as P.
    { eapply Permutation_trans; [|exact HP].
      assert (Permutation (p1 :: p3 :: locs a ++ locs b) (locs a ++ p1 :: p3 :: locs b)) as P3.
      { eapply Permutation_trans; [apply perm_skip; apply Permutation_middle|]. apply Permutation_middle. }
      eapply Permutation_trans; [|exact P3].
      destruct Hfs as [[E1 E2]|[E1 E2]]; rewrite E1, E2; [apply Permutation_refl | apply perm_swap]. }
    apply Permutation_cons_inv in P; apply Permutation_cons_inv in P; exact P. }
  rewrite <- La, (push_lemma a _ b 2 (length rest) HP2). cbn [set_pos e_kind].
  apply (push_ok a b xa xb (mkE KNone 0) 2 (length rest) (z0 :: z1 :: rest)); auto.
  intros p v0 Hp E. replace (Z.to_nat p) with (S (S (Z.to_nat (p - 2)))) in E by lia. cbn in E. exact E.
Qed.
End Stack.
