From Verif Require Import Base BaseLemmas GCModel GCSpec.

Lemma hget_upd h i j x : (i < length h)%nat ->
  hget (upd h i x) j = if (j =? i)%nat then x else hget h j.
Proof.
  intros Hi. unfold hget. destruct (Nat.eqb_spec j i) as [->|Hne].
  - rewrite upd_same by exact Hi. destruct x; reflexivity.
  - rewrite upd_other by congruence. reflexivity.
Qed.
Lemma hget_len h i o : hget h i = Some o -> (i < length h)%nat.
Proof.
  unfold hget. intros H. apply nth_error_Some. destruct (nth_error h i); [discriminate|discriminate].
Qed.
Lemma set_mark_get h i b j :
  hget (set_mark h i b) j =
  if (j =? i)%nat then option_map (fun o => mkObj (o_kind o) b (o_perm o)) (hget h i) else hget h j.
Proof.
  unfold set_mark. destruct (hget h i) as [o|] eqn:E.
  - rewrite hget_upd by (eapply hget_len; exact E). reflexivity.
  - destruct (Nat.eqb_spec j i) as [->|]; [exact E|reflexivity].
Qed.

Lemma sc_refl h : same_contents h h.
Proof. intros i. reflexivity. Qed.
Lemma sc_trans a b c : same_contents a b -> same_contents b c -> same_contents a c.
Proof. intros H1 H2 i. rewrite H1. apply H2. Qed.
Lemma sc_sym a b : same_contents a b -> same_contents b a.
Proof. intros H i. symmetry. apply H. Qed.
Lemma sc_set_mark h i b : same_contents h (set_mark h i b).
Proof.
  intros j. rewrite set_mark_get. destruct (Nat.eqb_spec j i) as [->|]; [|reflexivity].
  destruct (hget h i); reflexivity.
Qed.
Lemma sc_get h0 h i o : same_contents h0 h -> hget h i = Some o ->
  exists o0, hget h0 i = Some o0 /\ o_kind o0 = o_kind o /\ o_perm o0 = o_perm o.
Proof.
  intros H E. specialize (H i). rewrite E in H. destruct (hget h0 i) as [o0|]; [|discriminate].
  cbn in H. exists o0. split; [reflexivity|]. split; congruence.
Qed.
Lemma sc_get' h0 h i o0 : same_contents h0 h -> hget h0 i = Some o0 ->
  exists o, hget h i = Some o /\ o_kind o = o_kind o0 /\ o_perm o = o_perm o0.
Proof. intros H E. exact (sc_get h h0 i o0 (sc_sym _ _ H) E). Qed.
Lemma sc_read h0 h r l : same_contents h0 h -> read_loc h r l = read_loc h0 r l.
Proof.
  intros H. destruct l as [n|n|i n]; cbn; try reflexivity.
  destruct (hget h i) as [o|] eqn:E.
  - destruct (sc_get _ _ _ _ H E) as (o0 & E0 & K & _). rewrite E0, K. reflexivity.
  - specialize (H i). rewrite E in H. destruct (hget h0 i); [discriminate|reflexivity].
Qed.
Lemma marked_set h i j : marked (set_mark h i true) j <-> (j = i /\ hget h i <> None) \/ marked h j.
Proof.
  unfold marked. rewrite set_mark_get. destruct (Nat.eqb_spec j i) as [->|Hne].
  - destruct (hget h i) as [o|] eqn:E; cbn.
    + split; [intros _; left; split; [reflexivity|discriminate]|]. intros _. eexists. split; reflexivity.
    + split; [intros (o & H & _); discriminate|]. intros [[_ H]|(o & H & _)]; [congruence|discriminate].
  - split; [intros H; right; exact H|]. intros [[H _]|H]; [contradiction|exact H].
Qed.

Section Spec.
Variable r : roots.
Variable h0 : heap.

Inductive tgt : value -> nat -> Prop :=
| tg_obj i : tgt (VObj i) i
| tg_hm i : tgt (VHashMember i) i
| tg_mem l v j : read_loc h0 r l = Some v -> is_exarray v = true -> tgt v j -> tgt (VMember l) j.
Inductive child : nat -> nat -> Prop :=
| ch_elem i o es v j : hget h0 i = Some o -> o_kind o = KValue es -> In v es -> tgt v j -> child i j
| ch_int i o n : hget h0 i = Some o -> o_kind o = KHash n -> child i n
| ch_slot i o n on sl v j : hget h0 i = Some o -> o_kind o = KHash n ->
    hget h0 n = Some on -> o_kind on = KInternal sl -> In v (live_slots sl) -> tgt v j -> child i j.

Lemma tgt_reach v i j : tgt v i -> reach_o h0 r i j -> reach_v h0 r v j.
Proof.
  intros H. revert j. induction H as [i|i|l v i E X H IH]; intros j R.
  - constructor; exact R.
  - constructor; exact R.
  - eapply rv_mem; eauto.
Qed.

Definition closed (h : heap) : Prop := forall i j, marked h i -> child i j -> marked h j.

Lemma closed_reach h : closed h ->
  (forall v j, reach_v h0 r v j -> (forall i, tgt v i -> marked h i) -> marked h j) /\
  (forall i j, reach_o h0 r i j -> marked h i -> marked h j).
Proof.
  intros HC.
  assert (forall v j, reach_v h0 r v j -> (forall i, tgt v i -> marked h i) -> marked h j) as H.
  { fix IHv 3. intros v j R.
    assert (IHo : forall i j, reach_o h0 r i j -> marked h i -> marked h j).
    { fix IHo 3. intros i k RO. destruct RO as [i|i o es v' k Hg Hk Hi Hr|i o n k Hg Hk Hr|i o n on sl v' k Hg Hk Hn Hkn Hi Hr]; intros M.
      - exact M.
      - apply (IHv v' k Hr). intros t Ht. eapply HC; [exact M|]. eapply ch_elem; eauto.
      - apply (IHo n k Hr). eapply HC; [exact M|]. eapply ch_int; eauto.
      - apply (IHv v' k Hr). intros t Ht. eapply HC; [exact M|]. eapply ch_slot; eauto. }
    destruct R as [i j R|l v j E X R|i j R]; intros T.
    - apply (IHo i j R). apply T. constructor.
    - apply (IHv v j R). intros t Ht. apply T. eapply tg_mem; eauto.
    - apply (IHo i j R). apply T. constructor. }
  split; [exact H|].
  intros i j R M. apply (H (VObj i) j); [constructor; exact R|]. intros t Ht. inversion Ht; subst. exact M.
Qed.

Definition good (R : nat -> Prop) (h h' : heap) : Prop :=
  same_contents h0 h' /\ closed h' /\ (forall j, marked h j -> marked h' j) /\
  (forall j, marked h' j -> marked h j \/ R j).
Definition fspec (f : heap -> value -> res heap) (v : value) : Prop :=
  forall h h', same_contents h0 h -> closed h -> f h v = Ok h' ->
  good (reach_v h0 r v) h h' /\ (forall j, tgt v j -> marked h' j).

Lemma mark_list_spec f vs : (forall v, In v vs -> fspec f v) ->
  forall h h', same_contents h0 h -> closed h -> mark_list f h vs = Ok h' ->
  good (fun j => exists v, In v vs /\ reach_v h0 r v j) h h' /\
  (forall v j, In v vs -> tgt v j -> marked h' j).
Proof.
  induction vs as [|v vs IH]; intros Hf h h' Hs Hc E; cbn in E.
  - injection E as <-. split; [|intros v j []]. repeat split; auto.
  - destruct (f h v) as [h1| |] eqn:E1; try discriminate.
    destruct (Hf v (or_introl eq_refl) h h1 Hs Hc E1) as ((S1 & C1 & M1 & R1) & T1).
    assert (Hf' : forall w, In w vs -> fspec f w) by (intros w Hw; apply Hf; right; exact Hw).
    destruct (IH Hf' h1 h' S1 C1 E) as ((S2 & C2 & M2 & R2) & T2).
    split.
    + split; [exact S2|]. split; [exact C2|]. split; [auto|].
      intros j Hj. destruct (R2 j Hj) as [Hj1|(w & Hw & Rw)].
      * destruct (R1 j Hj1) as [Hh|Rv]; [left; exact Hh|]. right. exists v. split; [left; reflexivity|exact Rv].
      * right. exists w. split; [right; exact Hw|exact Rw].
    + intros w j [<-|Hw] Ht; [apply M2, T1, Ht|]. eapply T2; eauto.
Qed.

(* adding a mark to an object all of whose children are marked *)
Lemma good_set (R : nat -> Prop) h i : same_contents h0 h -> closed h -> hget h i <> None ->
  (forall j, child i j -> marked h j) -> R i -> good R h (set_mark h i true).
Proof.
  intros Hs Hc Hl Hch HR.
  split; [eapply sc_trans; [exact Hs|apply sc_set_mark]|].
  split; [|split].
  - intros a b Ma Hab. apply marked_set. right. apply marked_set in Ma as [[-> _]|Ma].
    + apply Hch, Hab.
    + eapply Hc; eauto.
  - intros j Mj. apply marked_set. right. exact Mj.
  - intros j Mj. apply marked_set in Mj as [[-> _]|Mj]; [right; exact HR|left; exact Mj].
Qed.
Lemma good_trans (R1 R2 R : nat -> Prop) h h1 h2 : good R1 h h1 -> good R2 h1 h2 ->
  (forall j, R1 j -> R j) -> (forall j, R2 j -> R j) -> good R h h2.
Proof.
  intros (A1 & A2 & A3 & A4) (B1 & B2 & B3 & B4) H1 H2.
  split; [exact B1|]. split; [exact B2|]. split; [auto|].
  intros j Hj. destruct (B4 j Hj) as [Hj1|X]; [|right; auto]. destruct (A4 j Hj1) as [X|X]; [left; exact X|right; auto].
Qed.

Lemma leaf_no_child i o : hget h0 i = Some o -> (forall es, o_kind o <> KValue es) ->
  (forall n, o_kind o <> KHash n) -> forall j, ~ child i j.
Proof.
  intros E HV HH j Hc. destruct Hc as [i o' es v j E' K _ _|i o' n E' K|i o' n on sl v j E' K _ _ _ _];
  rewrite E in E'; injection E' as <-; [eapply HV|eapply HH|eapply HH]; exact K.
Qed.

Lemma markBase_spec f i :
  (forall v, fspec f v) ->
  forall h h', same_contents h0 h -> closed h -> markBase f h i = Ok h' ->
  good (reach_o h0 r i) h h' /\ marked h' i.
Proof.
  intros Hf h h' Hs Hc E. unfold markBase in E.
  destruct (hget h i) as [o|] eqn:Eo; [|discriminate].
  destruct (sc_get _ _ _ _ Hs Eo) as (o0 & E0 & K0 & _).
  destruct (o_kind o) as [es|m|n|sl] eqn:K.
  - destruct (mark_list f h es) as [h1| |] eqn:E1; try discriminate. injection E as <-.
    destruct (mark_list_spec f es (fun v _ => Hf v) h h1 Hs Hc E1) as (G1 & T1).
    destruct G1 as (S1 & C1 & M1 & R1).
    destruct (sc_get' _ _ _ _ S1 E0) as (o1 & E1o & K1 & _).
    split; [|apply marked_set; left; split; [reflexivity|congruence]].
    eapply good_trans; [split; [exact S1|split; [exact C1|split; [exact M1|exact R1]]]| | |].
    + apply (good_set (reach_o h0 r i)); [exact S1|exact C1|congruence| |constructor].
      intros j Hj. inversion Hj as [a b es' v' c Hb Kb Hi Ht|a b n' Hb Kb|a b n' on sl' v' c Hb Kb _ _ _ _]; subst;
      rewrite E0 in Hb; injection Hb as <-; rewrite K0 in Kb; try discriminate.
      injection Kb as <-. eapply T1; eauto.
    + intros j (v & Hv & Rv). eapply ro_elem; [exact E0|exact K0|exact Hv|exact Rv].
    + auto.
  - injection E as <-. split; [|apply marked_set; left; split; [reflexivity|congruence]].
    apply good_set; [exact Hs|exact Hc|congruence| |constructor].
    intros j Hj. exfalso. revert Hj. eapply leaf_no_child; [exact E0| |]; rewrite K0; discriminate.
  - destruct (hget h n) as [[kn mn pn]|] eqn:En; [|discriminate].
    destruct kn as [|?|?|sl]; try discriminate.
    destruct (sc_get _ _ _ _ Hs En) as (n0 & En0 & Kn0 & _). cbn in Kn0.
    destruct (mark_list f (set_mark h n true) (live_slots sl)) as [h1| |] eqn:E1; try discriminate.
    injection E as <-.
    assert (Rn : reach_o h0 r i n) by (eapply ro_int; [exact E0|exact K0|constructor]).
    assert (G0 : good (reach_o h0 r i) h (set_mark h n true)).
    { apply good_set; [exact Hs|exact Hc|congruence| |exact Rn].
      intros j Hj. exfalso. revert Hj. eapply leaf_no_child; [exact En0| |]; rewrite Kn0; discriminate. }
    pose proof G0 as (S0 & C0 & M0 & _).
    destruct (mark_list_spec f (live_slots sl) (fun v _ => Hf v) _ h1 S0 C0 E1) as (G1 & T1).
    pose proof G1 as (S1 & C1 & M1 & R1).
    destruct (sc_get' _ _ _ _ S1 E0) as (o1 & E1o & K1 & _).
    split; [|apply marked_set; left; split; [reflexivity|congruence]].
    eapply good_trans; [exact G0| |auto|].
    2:{ intros j Hj. exact Hj. }
    eapply good_trans; [exact G1| | |].
    + apply (good_set (reach_o h0 r i)); [exact S1|exact C1|congruence| |constructor].
      intros j Hj. inversion Hj as [a b es' v' c Hb Kb Hi Ht|a b n' Hb Kb|a b n' on sl' v' c Hb Kb Hn' Kn' Hi Ht]; subst;
      rewrite E0 in Hb; injection Hb as <-; rewrite K0 in Kb; try discriminate; injection Kb as <-.
      * apply M1. apply marked_set. left. split; [reflexivity|congruence].
      * rewrite En0 in Hn'. injection Hn' as <-. rewrite Kn0 in Kn'. injection Kn' as <-. eapply T1; eauto.
    + intros j (v & Hv & Rv). eapply ro_slot; [exact E0|exact K0|exact En0|exact Kn0|exact Hv|exact Rv].
    + auto.
  - injection E as <-. split; [|apply marked_set; left; split; [reflexivity|congruence]].
    apply good_set; [exact Hs|exact Hc|congruence| |constructor].
    intros j Hj. exfalso. revert Hj. eapply leaf_no_child; [exact E0| |]; rewrite K0; discriminate.
Qed.

Lemma mark_spec fuel : forall v, fspec (mark r fuel) v.
Proof.
  induction fuel as [|n IH]; intros v h h' Hs Hc E; [discriminate|].
  assert (Hobj : forall i w, (forall j, tgt w j -> j = i) ->
    (forall j, reach_o h0 r i j -> reach_v h0 r w j) ->
    match hget h i with None => UB | Some o => if o_marked o then Ok h else markBase (mark r n) h i end = Ok h' ->
    good (reach_v h0 r w) h h' /\ (forall j, tgt w j -> marked h' j)).
  { intros i w Hi HR E'. destruct (hget h i) as [o|] eqn:Eo; [|discriminate].
    destruct (o_marked o) eqn:Em.
    - injection E' as <-. split; [repeat split; auto|]. intros j Hj. rewrite (Hi j Hj). exists o. split; assumption.
    - destruct (markBase_spec _ i IH h h' Hs Hc E') as (G & M). split.
      + destruct G as (A & B & C & D). split; [exact A|]. split; [exact B|]. split; [exact C|].
        intros j Hj. destruct (D j Hj) as [X|X]; [left; exact X|right; apply HR, X].
      + intros j Hj. rewrite (Hi j Hj). exact M. }
  destruct v as [b| |l|i|l|i]; cbn [mark] in E.
  - injection E as <-. split; [repeat split; auto|]. intros j Hj. inversion Hj.
  - injection E as <-. split; [repeat split; auto|]. intros j Hj. inversion Hj.
  - injection E as <-. split; [repeat split; auto|]. intros j Hj. inversion Hj.
  - apply (Hobj i (VObj i)); [|intros j Hj; constructor; exact Hj|exact E]. intros j Hj. inversion Hj. reflexivity.
  - rewrite (sc_read _ _ _ _ Hs) in E. destruct (read_loc h0 r l) as [v|] eqn:El; [|discriminate].
    destruct (is_exarray v) eqn:Ex; [|discriminate].
    destruct (IH v h h' Hs Hc E) as ((A & B & C & D) & T). split.
    + split; [exact A|]. split; [exact B|]. split; [exact C|].
      intros j Hj. destruct (D j Hj) as [X|X]; [left; exact X|right]. eapply rv_mem; eauto.
    + intros j Hj. inversion Hj as [|?|l' v' j' E' X' T']; subst. rewrite El in E'. injection E' as <-. apply T, T'.
  - apply (Hobj i (VHashMember i)); [|intros j Hj; constructor; exact Hj|exact E]. intros j Hj. inversion Hj. reflexivity.
Qed.

Lemma mark_perms_spec fuel chain : forall h h',
  same_contents h0 h -> closed h -> mark_perms (mark r fuel) h chain = Ok h' ->
  good (fun j => exists i, In i (perms h0 chain) /\ reach_o h0 r i j) h h' /\
  (forall i, In i (perms h0 chain) -> marked h' i).
Proof.
  induction chain as [|i t IH]; intros h h' Hs Hc E; cbn in E.
  - injection E as <-. split; [repeat split; auto|intros i []].
  - destruct (hget h i) as [o|] eqn:Eo; [|discriminate].
    destruct (sc_get _ _ _ _ Hs Eo) as (o0 & E0 & _ & P0).
    unfold perms. cbn [filter]. fold (perms h0 t). rewrite E0, P0.
    destruct (o_perm o) eqn:Ep; cbn [andb] in E.
    + assert (exists h1, good (reach_o h0 r i) h h1 /\ marked h1 i /\ mark_perms (mark r fuel) h1 t = Ok h') as (h1 & G1 & M1 & E').
      { destruct (o_marked o) eqn:Em; cbn [negb] in E.
        - exists h. split; [repeat split; auto|]. split; [exists o; split; assumption|exact E].
        - destruct (markBase (mark r fuel) h i) as [h1| |] eqn:E1; try discriminate.
          destruct (markBase_spec _ i (mark_spec fuel) h h1 Hs Hc E1) as (G & M). exists h1. auto. }
      pose proof G1 as (S1 & C1 & _ & _).
      destruct (IH h1 h' S1 C1 E') as (G2 & M2). pose proof G2 as (_ & _ & X2 & _). split.
      * eapply good_trans; [exact G1|exact G2| |].
        -- intros j Hj. exists i. split; [left; reflexivity|exact Hj].
        -- intros j (k & Hk & Rk). exists k. split; [right; exact Hk|exact Rk].
      * intros k [<-|Hk]; [apply X2, M1|apply M2, Hk].
    + apply IH; assumption.
Qed.
End Spec.

(* ---------------- sweep ---------------- *)
Lemma sweep_spec chain : forall h h' c, NoDup chain -> sweep h chain = Ok (h', c) ->
  c = filter (fun i => match hget h i with Some o => o_marked o | None => false end) chain /\
  (forall i, In i chain -> exists o, hget h i = Some o /\
     hget h' i = if o_marked o then Some (mkObj (o_kind o) false (o_perm o)) else None) /\
  (forall i, ~ In i chain -> hget h' i = hget h i).
Proof.
  induction chain as [|i t IH]; intros h h' c Hn E; cbn in E.
  - injection E as <- <-. split; [reflexivity|]. split; [intros i []|reflexivity].
  - inversion Hn as [|? ? Hi Hn']; subst.
    destruct (hget h i) as [o|] eqn:Eo; [|discriminate].
    assert (Hstep : forall h1, (forall j, j <> i -> hget h1 j = hget h j) ->
      filter (fun i => match hget h1 i with Some o => o_marked o | None => false end) t =
      filter (fun i => match hget h i with Some o => o_marked o | None => false end) t).
    { intros h1 H1. apply filter_ext_in. intros a Ha. rewrite H1; [reflexivity|]. intros ->. contradiction. }
    cbn [filter]. rewrite Eo. destruct (o_marked o) eqn:Em.
    + assert (H1 : forall j, j <> i -> hget (set_mark h i false) j = hget h j).
      { intros j Hj. rewrite set_mark_get. destruct (Nat.eqb_spec j i); [contradiction|reflexivity]. }
      destruct (sweep (set_mark h i false) t) as [[h2 c2]| |] eqn:E2; try discriminate. injection E as <- <-.
      destruct (IH _ _ _ Hn' E2) as (A & B & C). split; [|split].
      * rewrite A, (Hstep _ H1). reflexivity.
      * intros j [<-|Hj].
        -- exists o. split; [exact Eo|]. rewrite Em, (C i Hi), set_mark_get, Nat.eqb_refl, Eo. reflexivity.
        -- destruct (B j Hj) as (oj & X & Y). rewrite H1 in X by (intros ->; contradiction). exists oj. auto.
      * intros j Hj. rewrite C by (intros X; apply Hj; right; exact X). apply H1. intros ->. apply Hj. left. reflexivity.
    + assert (H1 : forall j, j <> i -> hget (hfree h i) j = hget h j).
      { intros j Hj. unfold hfree. rewrite hget_upd by (eapply hget_len; exact Eo). destruct (Nat.eqb_spec j i); [contradiction|reflexivity]. }
      destruct (IH _ _ _ Hn' E) as (A & B & C). split; [|split].
      * rewrite A, (Hstep _ H1). reflexivity.
      * intros j [<-|Hj].
        -- exists o. split; [exact Eo|]. rewrite Em, (C i Hi). unfold hfree. rewrite hget_upd by (eapply hget_len; exact Eo).
           rewrite Nat.eqb_refl. reflexivity.
        -- destruct (B j Hj) as (oj & X & Y). rewrite H1 in X by (intros ->; contradiction). exists oj. auto.
      * intros j Hj. rewrite C by (intros X; apply Hj; right; exact X). apply H1. intros ->. apply Hj. left. reflexivity.
Qed.

Lemma sweep_ok chain : forall h, NoDup chain -> (forall i, In i chain -> exists o, hget h i = Some o) ->
  exists p, sweep h chain = Ok p.
Proof.
  induction chain as [|i t IH]; intros h Hn Hl; cbn; [eauto|].
  inversion Hn as [|? ? Hi Hn']; subst.
  destruct (Hl i (or_introl eq_refl)) as (o & Eo). rewrite Eo. destruct (o_marked o).
  - destruct (IH (set_mark h i false) Hn') as ([h' c] & E).
    + intros j Hj. rewrite set_mark_get. destruct (Nat.eqb_spec j i) as [->|]; [contradiction|].
      apply Hl. right. exact Hj.
    + rewrite E. eauto.
  - apply IH; [exact Hn'|]. intros j Hj. unfold hfree. rewrite hget_upd by (eapply hget_len; exact Eo).
    destruct (Nat.eqb_spec j i) as [->|]; [contradiction|]. apply Hl. right. exact Hj.
Qed.

(* ---------------- gc ---------------- *)
Lemma closed_nomarks r h : no_marks h -> closed r h h.
Proof. intros H i j M _. exfalso. exact (H i M). Qed.

(* marking phase: the marked objects are exactly the reachable ones *)
Lemma mark_phase fuel r top h chain h2 :
  no_marks h ->
  (match (match top with
          | None => Ok h
          | Some tp => match mark_perms (mark r fuel) h chain with
                       | Ok h => mark_list (mark r fuel) h (scanned r tp) | e => e end
          end) with
   | Ok h1 => mark_list (mark r fuel) h1 (r_globals r) | e => e end) = Ok h2 ->
  same_contents h h2 /\
  forall j, marked h2 j <-> root_reach h r (root_values r top) (root_perms h chain top) j.
Proof.
  intros HN E.
  pose proof (closed_nomarks r h HN) as HC. pose proof (sc_refl h) as HS.
  assert (exists h1 Rs Ps, good r h (root_reach h r Rs Ps) h h1 /\
    (forall v j, In v Rs -> tgt r h v j -> marked h1 j) /\ (forall i, In i Ps -> marked h1 i) /\
    root_values r top = Rs ++ r_globals r /\ root_perms h chain top = Ps /\
    mark_list (mark r fuel) h1 (r_globals r) = Ok h2) as (h1 & Rs & Ps & G1 & T1 & P1 & EV & EP & E1).
  { destruct top as [tp|].
    - destruct (mark_perms (mark r fuel) h chain) as [ha| |] eqn:Ea; try discriminate.
      destruct (mark_list (mark r fuel) ha (scanned r tp)) as [hb| |] eqn:Eb; try discriminate.
      destruct (mark_perms_spec r h fuel chain h ha HS HC Ea) as (Ga & Ma). pose proof Ga as (Sa & Ca & _ & _).
      destruct (mark_list_spec r h _ (scanned r tp) (fun v _ => mark_spec r h fuel v) ha hb Sa Ca Eb) as (Gb & Tb).
      pose proof Gb as (_ & _ & Xb & _).
      exists hb, (scanned r tp), (perms h chain). split; [|split; [|split; [|split; [|split]]]].
      + eapply good_trans; [exact Ga|exact Gb| |]; intros j Hj; [right|left]; exact Hj.
      + exact Tb.
      + intros i Hi. apply Xb, Ma, Hi.
      + reflexivity.
      + reflexivity.
      + exact E.
    - exists h, [], []. split; [repeat split; auto|]. split; [intros v j []|]. split; [intros i []|].
      split; [reflexivity|]. split; [reflexivity|exact E]. }
  pose proof G1 as (S1 & C1 & _ & _).
  destruct (mark_list_spec r h _ (r_globals r) (fun v _ => mark_spec r h fuel v) h1 h2 S1 C1 E1) as (G2 & T2).
  pose proof G2 as (S2 & C2 & X2 & R2). split; [exact S2|].
  rewrite EV, EP. intros j. split.
  - intros M. destruct (R2 j M) as [M1|(v & Hv & Rv)].
    + pose proof G1 as (_ & _ & _ & R1). destruct (R1 j M1) as [M0|[(v & Hv & Rv)|X]].
      * exfalso. exact (HN j M0).
      * left. exists v. split; [apply in_or_app; left; exact Hv|exact Rv].
      * right. exact X.
    + left. exists v. split; [apply in_or_app; right; exact Hv|exact Rv].
  - destruct (closed_reach r h h2 C2) as (CV & CO).
    intros [(v & Hv & Rv)|(i & Hi & Ri)].
    + apply (CV v j Rv). intros t Ht. apply in_app_or in Hv as [Hv|Hv]; [apply X2; eapply T1; eauto|eapply T2; eauto].
    + apply (CO i j Ri). apply X2, P1, Hi.
Qed.

Lemma no_marks_get h i o : no_marks h -> hget h i = Some o -> o = mkObj (o_kind o) false (o_perm o).
Proof.
  intros H E. destruct o as [k m p]. destruct m; [|reflexivity].
  exfalso. apply (H i). eexists. split; [exact E|reflexivity].
Qed.

Lemma gc_exact_lem fuel r top g g' :
  no_marks (g_heap g) -> chain_ok (g_heap g) (g_chain g) -> g_limit g <= g_hint g ->
  gc fuel r top g = Ok g' ->
  let live := root_reach (g_heap g) r (root_values r top) (root_perms (g_heap g) (g_chain g) top) in
  (exists keep, g_chain g' = filter keep (g_chain g)) /\
  (forall j, In j (g_chain g') <-> In j (g_chain g) /\ live j) /\
  (forall j, In j (g_chain g) -> live j -> hget (g_heap g') j = hget (g_heap g) j) /\
  (forall j, In j (g_chain g) -> ~ live j -> hget (g_heap g') j = None) /\
  (forall j o, ~ In j (g_chain g) -> hget (g_heap g) j = Some o ->
     (live j -> hget (g_heap g') j = Some (mkObj (o_kind o) true (o_perm o))) /\
     (~ live j -> hget (g_heap g') j = Some o)) /\
  g_hint g' = 0 /\ g_limit g' = g_limit g.
Proof.
  intros HN (Hnd & Hlive) Hlim E live. unfold gc in E.
  destruct (Z.ltb_spec (g_hint g) (g_limit g)) as [Hlt|_]; [lia|].
  pose proof (mark_phase fuel r top (g_heap g) (g_chain g)) as HM.
  destruct (match top with None => Ok (g_heap g) | Some tp => _ end) as [h1| |] eqn:E1; try discriminate.
  destruct (mark_list (mark r fuel) h1 (r_globals r)) as [h2| |] eqn:E2; try discriminate.
  specialize (HM h2 HN eq_refl) as (S2 & M2).
  destruct (sweep h2 (g_chain g)) as [[h3 c]| |] eqn:E3; try discriminate. injection E as <-. cbn [g_chain g_heap g_hint g_limit].
  destruct (sweep_spec _ _ _ _ Hnd E3) as (A & B & C).
  assert (Hm : forall j o, hget h2 j = Some o -> (o_marked o = true <-> live j)).
  { intros j o Ej. split.
    - intros X. apply M2. exists o. auto.
    - intros X. apply M2 in X as (o' & Ej' & Y). congruence. }
  split; [eexists; exact A|]. split; [|split; [|split; [|split; [|split; reflexivity]]]].
  - intros j. rewrite A, filter_In. split.
    + intros [Hj X]. split; [exact Hj|]. destruct (hget h2 j) as [o|] eqn:Ej; [|discriminate]. eapply Hm; eauto.
    + intros [Hj X]. split; [exact Hj|]. destruct (B j Hj) as (o & Ej & _). rewrite Ej. eapply Hm; eauto.
  - intros j Hj X. destruct (B j Hj) as (o & Ej & Y). rewrite Y.
    assert (Z1 : o_marked o = true) by (eapply Hm; eauto). rewrite Z1.
    destruct (sc_get _ _ _ _ S2 Ej) as (o0 & E0 & K & P). rewrite E0.
    rewrite (no_marks_get _ _ _ HN E0), K, P. reflexivity.
  - intros j Hj X. destruct (B j Hj) as (o & Ej & Y). rewrite Y.
    destruct (o_marked o) eqn:Z1; [|reflexivity]. exfalso. apply X. eapply Hm; eauto.
  - intros j o Hj E0. destruct (sc_get' _ _ _ _ S2 E0) as (o2 & Ej & K & P).
    rewrite (C j Hj), Ej. split; intros X.
    + assert (Z1 : o_marked o2 = true) by (eapply Hm; eauto). destruct o2 as [k m p]; cbn in *. subst. reflexivity.
    + assert (Z1 : o_marked o2 = false).
      { destruct (o_marked o2) eqn:Z2; [|reflexivity]. exfalso. apply X. eapply Hm; eauto. }
      rewrite (no_marks_get _ _ _ HN E0). destruct o2 as [k m p]; cbn in *. subst. reflexivity.
Qed.

(* access = ownership on tame worlds *)
Lemma scanned_in r top n w : (r_offset r <= n < top)%nat -> nth_error (r_stack r) n = Some w -> In w (scanned r top).
Proof.
  intros Hn E. unfold scanned. apply nth_error_In with (n - r_offset r)%nat.
  rewrite nth_error_firstn_lt by lia. rewrite nth_error_skipn_add.
  replace (r_offset r + (n - r_offset r))%nat with n by lia. exact E.
Qed.
Lemma access_live h r top (ps : list nat) : all_tame h r top ->
  forall v j, access h r v j -> tame h r top v ->
  (forall k, reach_v h r v k -> root_reach h r (scanned r top ++ r_globals r) ps k) ->
  root_reach h r (scanned r top ++ r_globals r) ps j.
Proof.
  intros (TR & TH) v j A.
  assert (Hcont : forall i v, access_in h i v -> tame h r top v).
  { intros i w [i' o es w' Ei Ki Hi|i' o sl w' Ei Ki Hi]; eapply TH; try exact Ei; rewrite Ki; cbn [contents]; [exact Hi|].
    unfold live_slots in Hi. apply in_flat_map in Hi as ([[occ a] b] & Hs & Hi).
    apply in_flat_map. exists (occ, a, b). split; [exact Hs|]. destruct occ; [exact Hi|destruct Hi]. }
  induction A as [i|i v j Hin A IH|l v j E A IH|i|i v j Hin A IH|i o n E K|i o n v j E K Hin A IH|i n|l v j E A IH];
  intros T HR.
  - apply HR. constructor. constructor.
  - apply IH; [eapply Hcont; exact Hin|]. intros k Rk. apply HR. constructor.
    destruct Hin as [i o es v Ei Ki Hi|i o sl v Ei Ki Hi]; [eapply ro_elem; eauto|].
    exfalso. exact (T _ _ Ei Ki).
  - destruct T as ((w & Ew & X) & TS). rewrite E in Ew. injection Ew as <-.
    apply IH.
    + destruct l as [n|n|i n]; cbn in E.
      * apply TR, in_or_app. right. eapply nth_error_In; exact E.
      * apply TR, in_or_app. left. eapply scanned_in; [apply TS; reflexivity|exact E].
      * destruct (hget h i) as [o|] eqn:Ei; [|discriminate]. eapply TH; [exact Ei|eapply nth_error_In; exact E].
    + intros k Rk. apply HR. eapply rv_mem; eauto.
  - destruct T.
  - destruct T.
  - apply HR. constructor. eapply ro_int; [exact E|exact K|constructor].
  - apply IH; [eapply Hcont; exact Hin|]. intros k Rk. apply HR. constructor.
    destruct Hin as [i' o' es v Ei Ki Hi|i' o' sl v Ei Ki Hi].
    + eapply ro_int; [exact E|exact K|]. eapply ro_elem; eauto.
    + eapply ro_slot; eauto.
  - destruct T.
  - destruct l as [n|n|i n]; cbn in E, T; [| |destruct T].
    + assert (Hv : In v (scanned r top ++ r_globals r)) by (apply in_or_app; right; eapply nth_error_In; exact E).
      apply IH; [apply TR, Hv|]. intros k Rk. left. exists v. auto.
    + assert (Hv : In v (scanned r top ++ r_globals r)) by (apply in_or_app; left; eapply scanned_in; [exact T|exact E]).
      apply IH; [apply TR, Hv|]. intros k Rk. left. exists v. auto.
Qed.

(* ---------------- termination ---------------- *)
Scheme fin_v_mut := Minimality for fin_v Sort Prop
with fin_o_mut := Minimality for fin_o Sort Prop.
Combined Scheme fin_mutind from fin_v_mut, fin_o_mut.

Lemma mark_sc r h0 fuel : forall v h h', same_contents h0 h -> mark r fuel h v = Ok h' -> same_contents h0 h'.
Proof.
  induction fuel as [|n IH]; intros v h h' Hs E; [discriminate|].
  assert (HL : forall vs h h', same_contents h0 h -> mark_list (mark r n) h vs = Ok h' -> same_contents h0 h').
  { induction vs as [|w vs IHv]; intros a b Ha Eb; cbn in Eb; [injection Eb as <-; exact Ha|].
    destruct (mark r n a w) as [a1| |] eqn:Ea; try discriminate. eapply IHv; [|exact Eb]. eapply IH; eauto. }
  assert (HB : forall i, markBase (mark r n) h i = Ok h' -> same_contents h0 h').
  { intros i Eb. unfold markBase in Eb. destruct (hget h i) as [o|]; [|discriminate].
    destruct (o_kind o) as [es|m|k|sl].
    - destruct (mark_list (mark r n) h es) as [a1| |] eqn:Ea; try discriminate. injection Eb as <-.
      eapply sc_trans; [|apply sc_set_mark]. eapply HL; eauto.
    - injection Eb as <-. eapply sc_trans; [exact Hs|apply sc_set_mark].
    - destruct (hget h k) as [[kk mm pp]|]; [|discriminate]. destruct kk as [| | |sl]; try discriminate.
      destruct (mark_list (mark r n) (set_mark h k true) (live_slots sl)) as [a1| |] eqn:Ea; try discriminate. injection Eb as <-.
      eapply sc_trans; [|apply sc_set_mark]. eapply HL; [|exact Ea]. eapply sc_trans; [exact Hs|apply sc_set_mark].
    - injection Eb as <-. eapply sc_trans; [exact Hs|apply sc_set_mark]. }
  destruct v as [b| |l|i|l|i]; cbn [mark] in E; try (injection E as <-; exact Hs).
  - destruct (hget h i) as [o|]; [|discriminate]. destruct (o_marked o); [injection E as <-; exact Hs|eapply HB; exact E].
  - destruct (read_loc h r l) as [v|]; [|discriminate]. destruct (is_exarray v); [|discriminate]. eapply IH; eauto.
  - destruct (hget h i) as [o|]; [|discriminate]. destruct (o_marked o); [injection E as <-; exact Hs|eapply HB; exact E].
Qed.

(* "marking v succeeds for every recursion budget from n0 on" *)
Definition term_v r h0 v := exists n0, forall n, (n0 <= n)%nat -> forall h, same_contents h0 h ->
  exists h', mark r n h v = Ok h'.
Lemma term_list r h0 vs : (forall v, In v vs -> term_v r h0 v) ->
  exists n0, forall n, (n0 <= n)%nat -> forall h, same_contents h0 h -> exists h', mark_list (mark r n) h vs = Ok h' /\ same_contents h0 h'.
Proof.
  induction vs as [|v vs IH]; intros H.
  - exists 0%nat. intros n _ h Hs. exists h. split; [reflexivity|exact Hs].
  - destruct (H v (or_introl eq_refl)) as (n1 & H1). destruct IH as (n2 & H2); [intros w Hw; apply H; right; exact Hw|].
    exists (Nat.max n1 n2). intros n Hn h Hs. destruct (H1 n ltac:(lia) h Hs) as (h1 & E1).
    pose proof (mark_sc _ _ _ _ _ _ Hs E1) as S1.
    destruct (H2 n ltac:(lia) h1 S1) as (h2 & E2 & S2). exists h2. cbn. rewrite E1. auto.
Qed.
Definition term_o r h0 i := exists n0, forall n, (n0 <= n)%nat -> forall h, same_contents h0 h ->
  exists h', markBase (mark r n) h i = Ok h' /\ same_contents h0 h'.
Lemma fin_term r h0 : (forall v, fin_v h0 r v -> term_v r h0 v) /\ (forall i, fin_o h0 r i -> term_o r h0 i).
Proof.
  assert (Hobj : forall i v, (v = VObj i \/ v = VHashMember i) -> (exists o, hget h0 i = Some o) -> term_o r h0 i -> term_v r h0 v).
  { intros i v Hv (o0 & Eo) (n0 & H). exists (S n0). intros n Hn h Hs. destruct n as [|n]; [lia|].
    destruct (sc_get' _ _ _ _ Hs Eo) as (o & E & _).
    assert (EQ : mark r (S n) h v = if o_marked o then Ok h else markBase (mark r n) h i).
    { destruct Hv as [-> | ->]; cbn [mark]; rewrite E; reflexivity. }
    rewrite EQ. destruct (o_marked o); [eauto|]. destruct (H n ltac:(lia) h Hs) as (h' & E' & _). eauto. }
  assert (Hlive : forall i, fin_o h0 r i -> exists o, hget h0 i = Some o) by (intros i F; destruct F; eauto).
  assert (Hscal : forall v, (forall n h, mark r (S n) h v = Ok h) -> term_v r h0 v).
  { intros v H. exists 1%nat. intros n Hn h _. destruct n as [|n]; [lia|]. rewrite H. eauto. }
  assert (Hleaf : forall i o, hget h0 i = Some o -> (forall es, o_kind o <> KValue es) -> (forall n, o_kind o <> KHash n) -> term_o r h0 i).
  { intros i o E HV HH. exists 0%nat. intros n _ h Hs. destruct (sc_get' _ _ _ _ Hs E) as (o1 & E1 & K1 & _).
    exists (set_mark h i true). split; [|eapply sc_trans; [exact Hs|apply sc_set_mark]].
    unfold markBase. rewrite E1. destruct (o_kind o1) eqn:K; try reflexivity; exfalso; [eapply HV|eapply HH]; symmetry; exact K1. }
  apply (fin_mutind h0 r (term_v r h0) (term_o r h0)).
  - intros b. apply Hscal. reflexivity.
  - apply Hscal. reflexivity.
  - intros l. apply Hscal. reflexivity.
  - intros i F IH. apply (Hobj i); auto.
  - intros l v E X F (n0 & IH). exists (S n0). intros n Hn h Hs. destruct n as [|n]; [lia|].
    cbn [mark]. rewrite (sc_read _ _ _ _ Hs), E, X. apply IH; [lia|exact Hs].
  - intros i F IH. apply (Hobj i); auto.
  - exact Hleaf.
  - intros i o es E K _ IH. destruct (term_list r h0 es IH) as (n0 & H). exists n0. intros n Hn h Hs.
    destruct (sc_get' _ _ _ _ Hs E) as (o1 & E1 & K1 & _). destruct (H n Hn h Hs) as (h' & E' & S').
    exists (set_mark h' i true). split; [|eapply sc_trans; [exact S'|apply sc_set_mark]].
    unfold markBase. rewrite E1, K1, K, E'. reflexivity.
  - intros i o n on sl E K En Kn _ IH. destruct (term_list r h0 (live_slots sl) IH) as (n0 & H). exists n0. intros m Hm h Hs.
    destruct (sc_get' _ _ _ _ Hs E) as (o1 & E1 & K1 & _).
    destruct (sc_get' _ _ _ _ Hs En) as ([kn mn pn] & En1 & Kn1 & _). cbn in Kn1.
    assert (Hs' : same_contents h0 (set_mark h n true)) by (eapply sc_trans; [exact Hs|apply sc_set_mark]).
    destruct (H m Hm _ Hs') as (h' & E' & S').
    exists (set_mark h' i true). split; [|eapply sc_trans; [exact S'|apply sc_set_mark]].
    unfold markBase. rewrite E1, K1, K, En1, Kn1, Kn, E'. reflexivity.
Qed.

(* conversely, a successful mark only met finite structure *)
Definition all_fin r h0 h := forall i, marked h i -> fin_o h0 r i.
Lemma af_set r h0 h i : all_fin r h0 h -> fin_o h0 r i -> all_fin r h0 (set_mark h i true).
Proof. intros H F j M. apply marked_set in M as [[-> _]|M]; auto. Qed.
Lemma mark_fin r h0 fuel : forall v h h', same_contents h0 h -> all_fin r h0 h ->
  mark r fuel h v = Ok h' -> all_fin r h0 h' /\ fin_v h0 r v.
Proof.
  induction fuel as [|n IH]; intros v h h' Hs HF E; [discriminate|].
  assert (HL : forall vs h h', same_contents h0 h -> all_fin r h0 h -> mark_list (mark r n) h vs = Ok h' ->
             all_fin r h0 h' /\ forall w, In w vs -> fin_v h0 r w).
  { induction vs as [|w vs IHv]; intros a b Ha Fa Eb; cbn in Eb.
    - injection Eb as <-. split; [exact Fa|intros w []].
    - destruct (mark r n a w) as [a1| |] eqn:Ea; try discriminate.
      destruct (IH _ _ _ Ha Fa Ea) as (F1 & Fw). pose proof (mark_sc _ _ _ _ _ _ Ha Ea) as S1.
      destruct (IHv _ _ S1 F1 Eb) as (F2 & Fv). split; [exact F2|]. intros x [<-|Hx]; auto. }
  assert (HB : forall i, markBase (mark r n) h i = Ok h' -> all_fin r h0 h' /\ fin_o h0 r i).
  { intros i Eb. unfold markBase in Eb. destruct (hget h i) as [o|] eqn:Eo; [|discriminate].
    destruct (sc_get _ _ _ _ Hs Eo) as (o0 & E0 & K0 & _).
    destruct (o_kind o) as [es|m|k|sl] eqn:K.
    - destruct (mark_list (mark r n) h es) as [a1| |] eqn:Ea; try discriminate. injection Eb as <-.
      destruct (HL _ _ _ Hs HF Ea) as (F1 & Fv). assert (F : fin_o h0 r i) by (eapply fo_value; eauto).
      split; [apply af_set; assumption|exact F].
    - injection Eb as <-. assert (F : fin_o h0 r i) by (eapply fo_leaf; [exact E0| |]; rewrite K0; discriminate).
      split; [apply af_set; assumption|exact F].
    - destruct (hget h k) as [[kk mm pp]|] eqn:Ek; [|discriminate]. destruct kk as [| | |sl]; try discriminate.
      destruct (sc_get _ _ _ _ Hs Ek) as (k0 & Ek0 & Kk0 & _). cbn in Kk0.
      destruct (mark_list (mark r n) (set_mark h k true) (live_slots sl)) as [a1| |] eqn:Ea; try discriminate. injection Eb as <-.
      assert (Fk : fin_o h0 r k) by (eapply fo_leaf; [exact Ek0| |]; rewrite Kk0; discriminate).
      destruct (HL _ _ _ (sc_trans _ _ _ Hs (sc_set_mark h k true)) (af_set _ _ _ _ HF Fk) Ea) as (F1 & Fv).
      assert (F : fin_o h0 r i) by (eapply fo_hash; eauto).
      split; [apply af_set; assumption|exact F].
    - injection Eb as <-. assert (F : fin_o h0 r i) by (eapply fo_leaf; [exact E0| |]; rewrite K0; discriminate).
      split; [apply af_set; assumption|exact F]. }
  destruct v as [b| |l|i|l|i]; cbn [mark] in E.
  - injection E as <-. split; [exact HF|constructor].
  - injection E as <-. split; [exact HF|constructor].
  - injection E as <-. split; [exact HF|constructor].
  - destruct (hget h i) as [o|] eqn:Eo; [|discriminate]. destruct (o_marked o) eqn:Em.
    + injection E as <-. split; [exact HF|]. constructor. apply HF. exists o. auto.
    + destruct (HB i E) as (A & B). split; [exact A|constructor; exact B].
  - rewrite (sc_read _ _ _ _ Hs) in E. destruct (read_loc h0 r l) as [v|] eqn:El; [|discriminate].
    destruct (is_exarray v) eqn:Ex; [|discriminate]. destruct (IH _ _ _ Hs HF E) as (A & B).
    split; [exact A|]. eapply fv_mem; eauto.
  - destruct (hget h i) as [o|] eqn:Eo; [|discriminate]. destruct (o_marked o) eqn:Em.
    + injection E as <-. split; [exact HF|]. constructor. apply HF. exists o. auto.
    + destruct (HB i E) as (A & B). split; [exact A|constructor; exact B].
Qed.

Lemma mark_list_fin r h0 fuel vs : forall h h', same_contents h0 h -> all_fin r h0 h ->
  mark_list (mark r fuel) h vs = Ok h' -> same_contents h0 h' /\ all_fin r h0 h' /\ forall w, In w vs -> fin_v h0 r w.
Proof.
  induction vs as [|w vs IHv]; intros a b Ha Fa Eb; cbn in Eb.
  - injection Eb as <-. split; [exact Ha|]. split; [exact Fa|intros w []].
  - destruct (mark r fuel a w) as [a1| |] eqn:Ea; try discriminate.
    destruct (mark_fin _ _ _ _ _ _ Ha Fa Ea) as (F1 & Fw). pose proof (mark_sc _ _ _ _ _ _ Ha Ea) as S1.
    destruct (IHv _ _ S1 F1 Eb) as (S2 & F2 & Fv). split; [exact S2|]. split; [exact F2|]. intros x [<-|Hx]; auto.
Qed.
Lemma markBase_fin r h0 fuel i h h' : same_contents h0 h -> all_fin r h0 h -> hget h i <> None -> ~ marked h i ->
  markBase (mark r fuel) h i = Ok h' -> same_contents h0 h' /\ all_fin r h0 h' /\ fin_o h0 r i.
Proof.
  intros Hs HF Hl Hm E.
  assert (E' : mark r (S fuel) h (VObj i) = Ok h').
  { cbn [mark]. destruct (hget h i) as [o|] eqn:Eo; [|congruence]. destruct (o_marked o) eqn:Em; [|exact E].
    exfalso. apply Hm. exists o. auto. }
  destruct (mark_fin _ _ _ _ _ _ Hs HF E') as (A & B). split; [eapply mark_sc; eauto|]. split; [exact A|]. inversion B; assumption.
Qed.
Lemma mark_perms_fin r h0 fuel chain : forall h h', same_contents h0 h -> all_fin r h0 h ->
  mark_perms (mark r fuel) h chain = Ok h' ->
  same_contents h0 h' /\ all_fin r h0 h' /\ forall i, In i (perms h0 chain) -> fin_o h0 r i.
Proof.
  induction chain as [|i t IH]; intros h h' Hs HF E; cbn in E.
  - injection E as <-. split; [exact Hs|]. split; [exact HF|intros i []].
  - destruct (hget h i) as [o|] eqn:Eo; [|discriminate].
    destruct (sc_get _ _ _ _ Hs Eo) as (o0 & E0 & _ & P0).
    unfold perms. cbn [filter]. fold (perms h0 t). rewrite E0, P0.
    destruct (o_perm o) eqn:Ep; cbn [andb] in E.
    + destruct (o_marked o) eqn:Em; cbn [negb] in E.
      * destruct (IH h h' Hs HF E) as (A & B & C). split; [exact A|]. split; [exact B|].
        intros k [<-|Hk]; [|auto]. apply HF. exists o. auto.
      * destruct (markBase (mark r fuel) h i) as [h1| |] eqn:E1; try discriminate.
        destruct (markBase_fin r h0 fuel i h h1 Hs HF) as (S1 & F1 & Fi); [congruence| |exact E1|].
        { intros (o' & X & Y). congruence. }
        destruct (IH h1 h' S1 F1 E) as (A & B & C). split; [exact A|]. split; [exact B|].
        intros k [<-|Hk]; [exact Fi|auto].
    + exact (IH h h' Hs HF E).
Qed.
Lemma term_perms r h0 chain : (forall i, In i chain -> exists o, hget h0 i = Some o) ->
  (forall i, In i (perms h0 chain) -> fin_o h0 r i) ->
  exists n0, forall n, (n0 <= n)%nat -> forall h, same_contents h0 h ->
  exists h', mark_perms (mark r n) h chain = Ok h' /\ same_contents h0 h'.
Proof.
  induction chain as [|i t IH]; intros Hl Hf.
  - exists 0%nat. intros n _ h Hs. exists h. split; [reflexivity|exact Hs].
  - destruct (Hl i (or_introl eq_refl)) as (o0 & E0).
    unfold perms in Hf. cbn [filter] in Hf. fold (perms h0 t) in Hf. rewrite E0 in Hf.
    destruct (o_perm o0) eqn:Ep.
    + destruct IH as (n2 & H2); [intros j Hj; apply Hl; right; exact Hj|intros j Hj; apply Hf; right; exact Hj|].
      destruct (proj2 (fin_term r h0) i (Hf i (or_introl eq_refl))) as (n1 & H1).
      exists (Nat.max n1 n2). intros n Hn h Hs. destruct (sc_get' _ _ _ _ Hs E0) as (o & E & _ & P).
      cbn [mark_perms]. rewrite E, P, Ep. destruct (o_marked o); cbn [andb negb].
      * apply H2; [lia|exact Hs].
      * destruct (H1 n ltac:(lia) h Hs) as (h1 & E1 & S1). rewrite E1. apply H2; [lia|exact S1].
    + destruct IH as (n2 & H2); [intros j Hj; apply Hl; right; exact Hj|exact Hf|].
      exists n2. intros n Hn h Hs. destruct (sc_get' _ _ _ _ Hs E0) as (o & E & _ & P).
      cbn [mark_perms]. rewrite E, P, Ep. cbn [andb]. apply H2; assumption.
Qed.

Lemma gc_terminates_lem r top g :
  no_marks (g_heap g) -> chain_ok (g_heap g) (g_chain g) -> g_limit g <= g_hint g ->
  ((exists n0, forall n, (n0 <= n)%nat -> exists g', gc n r top g = Ok g') <->
   ((forall v, In v (root_values r top) -> fin_v (g_heap g) r v) /\
    (forall i, In i (root_perms (g_heap g) (g_chain g) top) -> fin_o (g_heap g) r i))) /\
  ((exists n g', gc n r top g = Ok g') ->
   ((forall v, In v (root_values r top) -> fin_v (g_heap g) r v) /\
    (forall i, In i (root_perms (g_heap g) (g_chain g) top) -> fin_o (g_heap g) r i))).
Proof.
  intros HN (Hnd & Hl) Hlim.
  assert (Hback : (exists n g', gc n r top g = Ok g') ->
   ((forall v, In v (root_values r top) -> fin_v (g_heap g) r v) /\
    (forall i, In i (root_perms (g_heap g) (g_chain g) top) -> fin_o (g_heap g) r i))).
  { intros (fuel & g' & E). unfold gc in E. destruct (Z.ltb_spec (g_hint g) (g_limit g)) as [|_]; [lia|].
    set (h0 := g_heap g) in *. pose proof (sc_refl h0) as HS.
    assert (HF : all_fin r h0 h0) by (intros i M; exfalso; exact (HN i M)).
    destruct top as [tp|].
    - destruct (mark_perms (mark r fuel) h0 (g_chain g)) as [ha| |] eqn:Ea; try discriminate.
      destruct (mark_list (mark r fuel) ha (scanned r tp)) as [hb| |] eqn:Eb; try discriminate.
      destruct (mark_list (mark r fuel) hb (r_globals r)) as [hc| |] eqn:Ec; try discriminate.
      destruct (mark_perms_fin _ _ _ _ _ _ HS HF Ea) as (Sa & Fa & Pa).
      destruct (mark_list_fin _ _ _ _ _ _ Sa Fa Eb) as (Sb & Fb & Vb).
      destruct (mark_list_fin _ _ _ _ _ _ Sb Fb Ec) as (Sc & Fc & Vc).
      split; [|exact Pa]. intros v Hv. cbn in Hv. apply in_app_or in Hv as [Hv|Hv]; auto.
    - destruct (mark_list (mark r fuel) h0 (r_globals r)) as [hc| |] eqn:Ec; try discriminate.
      destruct (mark_list_fin _ _ _ _ _ _ HS HF Ec) as (Sc & Fc & Vc).
      split; [exact Vc|intros i []]. }
  split; [|exact Hback]. split.
  - intros (n0 & H). apply Hback. destruct (H n0 (le_n _)) as (g' & E). eauto.
  - intros (FV & FO). set (h0 := g_heap g) in *.
    destruct (term_list r h0 (r_globals r)) as (n1 & H1).
    { intros v Hv. apply (proj1 (fin_term r h0)), FV. destruct top; [apply in_or_app; right|]; exact Hv. }
    assert (HG : forall h2, same_contents h0 h2 -> exists p, sweep h2 (g_chain g) = Ok p).
    { intros h2 S2. apply sweep_ok; [exact Hnd|]. intros i Hi. destruct (Hl i Hi) as (o & Eo).
      destruct (sc_get' _ _ _ _ S2 Eo) as (o2 & E2 & _). eauto. }
    destruct top as [tp|].
    + destruct (term_perms r h0 (g_chain g) Hl FO) as (n2 & H2).
      destruct (term_list r h0 (scanned r tp)) as (n3 & H3).
      { intros v Hv. apply (proj1 (fin_term r h0)), FV. apply in_or_app; left; exact Hv. }
      exists (Nat.max n1 (Nat.max n2 n3)). intros n Hn. unfold gc.
      destruct (Z.ltb_spec (g_hint g) (g_limit g)) as [|_]; [lia|]. fold h0.
      destruct (H2 n ltac:(lia) h0 (sc_refl h0)) as (ha & Ea & Sa). rewrite Ea.
      destruct (H3 n ltac:(lia) ha Sa) as (hb & Eb & Sb). rewrite Eb.
      destruct (H1 n ltac:(lia) hb Sb) as (hc & Ec & Sc). rewrite Ec.
      destruct (HG hc Sc) as ([h3 c] & E3). rewrite E3. eauto.
    + exists n1. intros n Hn. unfold gc.
      destruct (Z.ltb_spec (g_hint g) (g_limit g)) as [|_]; [lia|]. fold h0.
      destruct (H1 n ltac:(lia) h0 (sc_refl h0)) as (hc & Ec & Sc). rewrite Ec.
      destruct (HG hc Sc) as ([h3 c] & E3). rewrite E3. eauto.
Qed.

(* unallocated addresses stay unallocated *)
Lemma gc_frees_only fuel r top g g' : chain_ok (g_heap g) (g_chain g) -> g_limit g <= g_hint g ->
  gc fuel r top g = Ok g' -> forall j, hget (g_heap g) j = None -> hget (g_heap g') j = None.
Proof.
  intros (Hnd & Hl) HL E j Ej. unfold gc in E. destruct (Z.ltb_spec (g_hint g) (g_limit g)) as [|_]; [lia|].
  assert (HLst : forall vs h h', same_contents (g_heap g) h -> mark_list (mark r fuel) h vs = Ok h' -> same_contents (g_heap g) h').
  { induction vs as [|w vs IHv]; intros a b Ha Eb; cbn in Eb; [injection Eb as <-; exact Ha|].
    destruct (mark r fuel a w) as [a1| |] eqn:Ea; try discriminate. eapply IHv; [|exact Eb]. eapply mark_sc; eauto. }
  assert (HP : forall c h h', same_contents (g_heap g) h -> mark_perms (mark r fuel) h c = Ok h' -> same_contents (g_heap g) h').
  { induction c as [|i c IHc]; intros a b Ha Eb; cbn in Eb; [injection Eb as <-; exact Ha|].
    destruct (hget a i) as [o|] eqn:Eo; [|discriminate].
    destruct (o_perm o && negb (o_marked o)) eqn:Ep; [|eapply IHc; eauto].
    destruct (markBase (mark r fuel) a i) as [a1| |] eqn:Ea; try discriminate. eapply IHc; [|exact Eb].
    apply (mark_sc r _ (S fuel) (VObj i) a a1 Ha). cbn [mark]. rewrite Eo. destruct (o_marked o); [|exact Ea].
    rewrite andb_false_r in Ep. discriminate. }
  assert (exists h2, same_contents (g_heap g) h2 /\ match sweep h2 (g_chain g) with
    | Ok (h3, c) => Ok (mkGC h3 c 0 (g_limit g)) | UB => UB | OutOfFuel => OutOfFuel end = Ok g') as (h2 & S2 & E').
  { pose proof (sc_refl (g_heap g)) as HS. destruct top as [tp|].
    - destruct (mark_perms (mark r fuel) (g_heap g) (g_chain g)) as [ha| |] eqn:Ea; try discriminate.
      destruct (mark_list (mark r fuel) ha (scanned r tp)) as [hb| |] eqn:Eb; try discriminate.
      destruct (mark_list (mark r fuel) hb (r_globals r)) as [hc| |] eqn:Ec; try discriminate.
      exists hc. split; [|exact E]. eapply HLst; [|exact Ec]. eapply HLst; [|exact Eb]. eapply HP; eauto.
    - destruct (mark_list (mark r fuel) (g_heap g) (r_globals r)) as [hc| |] eqn:Ec; try discriminate.
      exists hc. split; [|exact E]. eapply HLst; [exact HS|exact Ec]. }
  destruct (sweep h2 (g_chain g)) as [[h3 c]| |] eqn:E3; try discriminate. injection E' as <-. cbn [g_heap].
  destruct (sweep_spec _ _ _ _ Hnd E3) as (_ & B & C).
  assert (E2 : hget h2 j = None).
  { destruct (hget h2 j) as [o|] eqn:X; [|reflexivity]. destruct (sc_get _ _ _ _ S2 X) as (o0 & Y & _). congruence. }
  destruct (in_dec Nat.eq_dec j (g_chain g)) as [Hj|Hj].
  - destruct (B j Hj) as (o & X & _). congruence.
  - rewrite (C j Hj). exact E2.
Qed.
