(* Compound assignment. *)
From Verif Require Import Base BaseLemmas HashModel FloatModel FloatProofs OpsModel OpsSpec OpsProofs OpsProofs2.
Ltac Zify.zify_post_hook ::= Z.div_mod_to_equations.

Definition same_objs (M M' : mem) := mo M' = mo M /\ mraw M' = mraw M /\ mnext M' = mnext M.

Section ToEx.
Variables (pbits : value -> Z) (x z : number) (m : mem) (av : loc).
(* the element a member target denotes, after the operand was read *)
Lemma to_ex_elem M M2 to c : vis_same m M -> visible to -> is_member (mv m to) = true ->
  cell_of m to (mv m to) c -> mv m c = of_number x ->
  (forall l, visible l -> mv M2 l = mv m l \/ l = av) -> to <> av -> same_objs m M2 ->
  (forall l s, mv m to = VMem l s -> l <> av) -> c <> av ->
  mv M2 LTemp1 = of_number z ->
  forall n, exists M3, wr_valueToEx pbits (S (S n)) to LTemp1 M2 = Ok M3 /\ mv M3 c = of_number z /\ mv M3 LTemp1 = of_number z /\
    (forall l, l <> LTemp2 -> l <> c -> mv M3 l = mv M2 l) /\ same_objs m M3.
Proof.
  intros HV Vt Mm Hc Ec HM Hav (O1&O2&O3) Hl Hcav E1 n.
  assert (Et: mv M2 to = mv m to) by (destruct (HM to Vt); congruence).
  unfold wr_valueToEx, value_to_ex.
  destruct Hc as [x0|l s id n0 Vl Hl1 Ho Hs|id s n0 Ho Hs].
  - destruct x0; discriminate.
  - specialize (Hl l s eq_refl). assert (El: mv M2 l = VArr id) by (destruct (HM l Vl); congruence).
    rewrite Et, El. rewrite (deref_number _ _ _ _ _ E1). cbn [bind].
    rewrite E1. cbn [deref]. rewrite Et. cbv zeta. rewrite wr_other by (now apply visible_notmp). rewrite El, O1, Ho.
    destruct (Nat.ltb_spec s n0); [|lia]. cbn [bind].
    eexists. split; [reflexivity|]. split; [apply wr_same|].
    split. { rewrite !wr_other by congruence. exact E1. }
    split. { intros l0 Vl0 N0. rewrite wr_other by auto. now rewrite wr_other. }
    repeat split; cbn; auto.
  - rewrite Et. rewrite (deref_number _ _ _ _ _ E1). cbn [bind]. rewrite E1.
    assert (Eel: mv M2 (LElem id s) = of_number x) by (destruct (HM (LElem id s) I); congruence).
    set (m1 := wr M2 LTemp2 (VInt (rdi pbits M2 LTemp2))).
    assert (Eel1: mv m1 (LElem id s) = of_number x) by (unfold m1; rewrite wr_other by congruence; auto).
    cbn [deref]. rewrite Et. cbv zeta. rewrite O1, Ho.
    destruct (Nat.ltb_spec s n0); [|lia]. fold m1. rewrite Eel1.
    replace (match of_number x with VRef r => deref pbits n r m1 | VMem r s0 => _ | VHMem id0 s0 => _ | _ => Ok (LElem id s, m1) end)
      with (@Ok (loc * mem) (LElem id s, m1)) by (destruct x; reflexivity).
    cbn [bind].
    eexists. split; [reflexivity|]. split; [apply wr_same|].
    split. { unfold m1. rewrite !wr_other by congruence. exact E1. }
    split. { intros l0 Vl0 N0. unfold m1. rewrite wr_other by auto. now rewrite wr_other. }
    unfold m1; repeat split; cbn; auto.
Qed.

End ToEx.

Section Assign.
Variables (pbits : value -> Z) (obj_hash : mem -> value -> Z).
Variable A : nat -> vtype -> vtype -> loc -> loc -> mem -> res mem.
Variables x y z : number.
Hypothesis Hx : number_ok x.
Hypothesis Hz : number_ok z.
Notation ty v := (type_of (of_number v)).
Hypothesis H_leaf : forall n to from M, mv M to = of_number x -> mv M from = of_number y ->
  exists M', A (S n) (ty x) (ty y) to from M = Ok M' /\ mv M' to = of_number z /\
    (forall l, l <> to -> l <> from -> mv M' l = mv M l) /\ same_objs M M'.
Variable safe : Prop.
Hypothesis H_nr : safe -> forall n to from q M, visible to -> visible q -> mv M to = of_number x -> mv M from = VRef q -> mv M q = of_number y ->
  exists M', A (S (S n)) (ty x) TR to from M = Ok M' /\ mv M' to = of_number z /\
    (forall l, visible l -> l <> to -> l <> from -> mv M' l = mv M l) /\ same_objs M M'.
Hypothesis H_ne : forall n to from M m1, mv M to = of_number x -> is_member (mv M from) = true ->
  single_value pbits obj_hash n from M = Ok m1 -> mv m1 to = of_number x ->
  A (S n) (ty x) TE to from M =
    (m2 <- A n (ty x) (type_of (mv m1 LTemp1)) to LTemp1 m1 ;; Ok (wr m2 from (mv m2 to))).
Hypothesis H_en : forall n to from M m1, is_member (mv M to) = true -> mv M from = of_number y ->
  single_value pbits obj_hash n to M = Ok m1 -> mv m1 from = of_number y ->
  A (S n) TE (ty y) to from M =
    (m2 <- A n (type_of (mv m1 LTemp1)) (ty y) LTemp1 from m1 ;;
     m3 <- wr_valueToEx pbits n to LTemp1 m2 ;; Ok (wr m3 from (mv m3 LTemp1))).
Hypothesis H_rr : forall n to from r q M, mv M to = VRef r -> mv M from = VRef q ->
  A (S n) TR TR to from M =
    (let m1 := wr M (LAuto 0) (mv M q) in
     m2 <- A n (type_of (mv m1 r)) (type_of (mv m1 (LAuto 0))) r (LAuto 0) m1 ;;
     Ok (wr m2 from (mv m2 r))).
Hypothesis H_rn : forall n to from r M f, mv M to = VRef r -> (f = TE /\ is_member (mv M from) = true \/ f = ty y) ->
  A (S n) TR f to from M = (m1 <- A n (type_of (mv M r)) f r from M ;; Ok (wr m1 from (mv m1 r))) \/
  (A (S n) TR f to from M = A n (type_of (mv M r)) f r from M /\ f = TE).

Variable m : mem.
Variable av : loc.
Hypothesis Vav : visible av.

Definition outcome (r c from : loc) (M' : mem) : Prop :=
  mv M' c = of_number z /\
  (forall l, visible l -> l <> c -> l <> from -> mv M' l = mv m l) /\ same_objs m M'.

Definition okfrom (from : loc) := from = av \/ exists n, from = LAuto n.
Lemma okfrom_ne from l : okfrom from -> visible l -> l <> av -> l <> from.
Proof. intros [-> | [n ->]] V N; auto. intros ->. exact V. Qed.
Lemma okfrom_notmp from : okfrom from -> notmp from.
Proof. intros [-> | [n ->]]; auto with ops. Qed.

Lemma vis_wr_auto M n v : vis_same m M -> vis_same m (wr M (LAuto n) v).
Proof. intros H. eapply vis_trans; [exact H|apply vis_auto]. Qed.

Lemma not_vis_auto n : ~ visible (LAuto n).
Proof. intros []. Qed.

Lemma final_denotes from c M' : okfrom from -> mv M' c = of_number z ->
  (forall l, visible l -> l <> c -> l <> from -> mv M' l = mv m l) -> same_objs m M' ->
  mv m c = of_number x ->
  forall l j r, reaches m av l j r -> visible l -> l <> av ->
  cell_of m r (mv m r) c -> (forall l0 s, mv m r = VMem l0 s -> l0 <> av) ->
  denotes M' (mv M' l) z.
Proof.
  intros Hf E1 E2 (O1&O2&O3) Ec. induction 1 as [l Hl|l l' j r E V N H IH]; intros Vl Nl Hc Hm.
  - assert (Nf: l <> from) by (now apply okfrom_ne).
    remember (mv m l) as v eqn:Ev. destruct Hc as [x0|l0 s id n0 Vl0 Hl1 Ho Hs|id s n0 Ho Hs].
    + rewrite E1. constructor; auto.
    + assert (l <> LElem id s) by (intros ->; rewrite Ec in Ev; destruct x; discriminate).
      rewrite E2 by auto. rewrite <- Ev.
      assert (l0 <> LElem id s) by (intros ->; rewrite Ec in Hl1; destruct x; discriminate).
      assert (l0 <> from) by (apply okfrom_ne; auto; eapply Hm; eauto).
      eapply D_elem; eauto; [rewrite E2; auto|now rewrite O1].
    + assert (l <> LElem id s) by (intros ->; rewrite Ec in Ev; destruct x; discriminate).
      rewrite E2 by auto. rewrite <- Ev.
      eapply D_hash; eauto; [now rewrite O1|]. rewrite E1. constructor; auto.
  - assert (Nf: l <> from) by (now apply okfrom_ne).
    assert (l <> c) by (intros ->; rewrite Ec in E; destruct x; discriminate).
    rewrite E2 by auto. rewrite E. constructor; auto.
Qed.

Lemma assign_main c : mv m c = of_number x -> visible c -> c <> av ->
  forall j to r, reaches m av to j r -> visible to -> to <> av ->
  cell_of m r (mv m r) c -> (forall l0 s, mv m r = VMem l0 s -> l0 <> av) ->
  forall k vf w, vbehind m vf k w -> denotes m w y -> (w = of_number y \/ is_member w = true) ->
  (is_member (mv m r) = true -> w = of_number y /\ (k <= j)%nat) ->
  ((k <= j)%nat \/ (k = S j /\ w = of_number y /\ safe)) ->
  exists K, forall n M from, (K <= n)%nat -> vis_same m M -> mv M from = vf -> okfrom from -> from <> c ->
    exists M', A n (type_of (mv m to)) (type_of vf) to from M = Ok M' /\ mv M' c = of_number z /\
      (forall l, visible l -> l <> c -> l <> from -> mv M' l = mv m l) /\ same_objs m M' /\
      ((0 < j)%nat \/ is_member (mv m r) = true \/ is_member w = true -> denotes M' (mv M' from) z).
Proof.
  intros Ec Vc Nc. induction j as [|j IH]; intros to r HR Vt Nt Hc Hm k vf w HB HD HW Hmem Hcond.
  - inversion HR as [l Hl|]; subst. clear HR.
    remember (mv m r) as v eqn:Ev.
    destruct Hc as [x0|l0 s id n0 Vl0 Hl1 Ho Hs|id s n0 Ho Hs].
    + assert (Ex: of_number x0 = of_number x) by congruence. rewrite Ex in *. clear Ex x0.
      destruct Hcond as [Hk|(Hk&Hw&Hs)].
      * assert (k = 0)%nat by lia. subst k. inversion HB as [v0 Hv0|]; subst v0 vf.
        destruct HW as [-> | HW].
        -- exists 1%nat. intros n M from Hn HV Ef Hf Nf. destruct n as [|n]; [lia|].
           destruct (H_leaf n r from M) as (M'&E1&E2&E3&E4); [rewrite (proj1 HV); auto|auto|].
           exists M'. split; [exact E1|]. split; [exact E2|]. split.
           { intros l Vl N1 N2. rewrite E3 by auto. now apply HV. }
           split. { destruct E4 as (P1&P2&P3), HV as (Q0&Q1&Q2&Q3). repeat split; congruence. }
           intros [H|[H|H]]; [lia|destruct x; discriminate|destruct y; discriminate].
        -- destruct (single_ok pbits obj_hash (fun _ _ => nil) m w y HD) as [k1 K1].
           exists (S (S k1)). intros n M from Hn HV Ef Hf Nf. destruct n as [|n]; [lia|].
           destruct (K1 n M from) as (m1&F1&F2&F3); [lia|auto|auto|].
           destruct n as [|n]; [lia|].
           assert (HV1: vis_same m m1) by (eapply vis_trans; [exact HV|now apply tmp_vis]).
           destruct (H_leaf n r LTemp1 m1) as (M'&E1&E2&E3&E4); [rewrite (proj1 HV1); auto|auto|].
           exists (wr M' from (mv M' r)).
           split. { rewrite (member_type _ HW). rewrite (H_ne _ _ _ _ m1); [|rewrite (proj1 HV); auto|now rewrite Ef|exact F1|rewrite (proj1 HV1); auto].
                    rewrite F2, E1. reflexivity. }
           split. { rewrite wr_other by auto. exact E2. }
           split. { intros l Vl N1 N2. rewrite wr_other by auto. rewrite E3; [now apply HV1|auto|]. intros ->; exact Vl. }
           split. { destruct E4 as (P1&P2&P3), HV1 as (Q0&Q1&Q2&Q3). repeat split; cbn; congruence. }
           intros _. rewrite wr_same, E2. now constructor.
      * subst k w. inversion HB as [|q k0 w0 Vq HB']; subst. inversion HB' as [v0 Hv0 X1 X2 X3|]; subst.
        exists 2%nat. intros n M from Hn HV Ef Hf Nf. destruct n as [|[|n]]; try lia.
        destruct (H_nr Hs n r from q M) as (M'&E1&E2&E3&E4); auto;
          [rewrite (proj1 HV); auto|rewrite (proj1 HV); auto|].
        exists M'. split; [exact E1|]. split; [exact E2|]. split.
        { intros l Vl N1 N2. rewrite E3 by auto. now apply HV. }
        split. { destruct E4 as (P1&P2&P3), HV as (Q0&Q1&Q2&Q3). repeat split; congruence. }
        intros [H|[H|H]]; [lia|destruct x; discriminate|]. replace (mv m q) with (of_number y) in H by congruence. destruct y; discriminate.
    + destruct Hmem as [-> Hk]; [reflexivity|]. assert (k = 0)%nat by lia. subst k. inversion HB as [v0 Hv0|]; subst v0 vf.
      assert (HDt: denotes m (VMem l0 s) x) by (eapply D_elem; eauto).
      destruct (single_ok pbits obj_hash (fun _ _ => nil) m _ x HDt) as [k1 K1].
      exists (S (S (S k1))). intros n M from Hn HV Ef Hf Nf. destruct n as [|n]; [lia|].
      destruct (K1 n M r) as (m1&F1&F2&F3); [lia|auto|rewrite (proj1 HV); auto|].
      destruct n as [|[|n]]; try lia.
      assert (HV1: vis_same m m1) by (eapply vis_trans; [exact HV|now apply tmp_vis]).
      destruct (H_leaf (S n) LTemp1 from m1) as (M2&E1&E2&E3&E4); [auto| |].
      { rewrite (proj1 F3); [exact Ef|now apply okfrom_notmp]. }
      assert (Hv2: forall l, visible l -> mv M2 l = mv m l \/ l = av).
      { intros l Vl. destruct (loc_eq_dec l from) as [-> | N]; [right; destruct Hf as [-> | [i ->]]; [auto|destruct Vl]|].
        left. rewrite E3; [now apply HV1|intros ->; exact Vl|auto]. }
      assert (Ho2: same_objs m M2) by (destruct E4 as (P1&P2&P3), HV1 as (Q0&Q1&Q2&Q3); repeat split; congruence).
      destruct (to_ex_elem pbits x z m av M M2 r (LElem id s) HV Vt) with (n := n) as (M3&G1&G2&G3&G4&G5); auto.
      { now rewrite <- Ev. } { rewrite <- Ev. econstructor; eauto. } { rewrite <- Ev. exact Hm. }
      exists (wr M3 from (mv M3 LTemp1)).
      split. { change (type_of (VMem l0 s)) with TE. rewrite (H_en _ _ _ _ m1); [|rewrite (proj1 HV), <- Ev; auto|exact Ef|exact F1|rewrite (proj1 F3); [exact Ef|now apply okfrom_notmp]].
               rewrite F2. rewrite E1. cbn [bind]. rewrite G1. reflexivity. }
      split. { rewrite wr_other by auto. exact G2. }
      split. { intros l Vl N1 N2. rewrite wr_other by auto. rewrite G4 by (auto; intros ->; exact Vl).
               rewrite E3; [now apply HV1|intros ->; exact Vl|auto]. }
      split. { destruct G5 as (P1&P2&P3). repeat split; cbn; congruence. }
      intros _. rewrite wr_same, G3. now constructor.
    + destruct Hmem as [-> Hk]; [reflexivity|]. assert (k = 0)%nat by lia. subst k. inversion HB as [v0 Hv0|]; subst v0 vf.
      assert (HDt: denotes m (VHMem id s) x) by (eapply D_hash; eauto; rewrite Ec; now constructor).
      destruct (single_ok pbits obj_hash (fun _ _ => nil) m _ x HDt) as [k1 K1].
      exists (S (S (S k1))). intros n M from Hn HV Ef Hf Nf. destruct n as [|n]; [lia|].
      destruct (K1 n M r) as (m1&F1&F2&F3); [lia|auto|rewrite (proj1 HV); auto|].
      destruct n as [|[|n]]; try lia.
      assert (HV1: vis_same m m1) by (eapply vis_trans; [exact HV|now apply tmp_vis]).
      destruct (H_leaf (S n) LTemp1 from m1) as (M2&E1&E2&E3&E4); [auto| |].
      { rewrite (proj1 F3); [exact Ef|now apply okfrom_notmp]. }
      assert (Hv2: forall l, visible l -> mv M2 l = mv m l \/ l = av).
      { intros l Vl. destruct (loc_eq_dec l from) as [-> | N]; [right; destruct Hf as [-> | [i ->]]; [auto|destruct Vl]|].
        left. rewrite E3; [now apply HV1|intros ->; exact Vl|auto]. }
      assert (Ho2: same_objs m M2) by (destruct E4 as (P1&P2&P3), HV1 as (Q0&Q1&Q2&Q3); repeat split; congruence).
      destruct (to_ex_elem pbits x z m av M M2 r (LElem id s) HV Vt) with (n := n) as (M3&G1&G2&G3&G4&G5); auto.
      { now rewrite <- Ev. } { rewrite <- Ev. econstructor; eauto. } { rewrite <- Ev. exact Hm. }
      exists (wr M3 from (mv M3 LTemp1)).
      split. { change (type_of (VHMem id s)) with TE. rewrite (H_en _ _ _ _ m1); [|rewrite (proj1 HV), <- Ev; auto|exact Ef|exact F1|rewrite (proj1 F3); [exact Ef|now apply okfrom_notmp]].
               rewrite F2. rewrite E1. cbn [bind]. rewrite G1. reflexivity. }
      split. { rewrite wr_other by auto. exact G2. }
      split. { intros l Vl N1 N2. rewrite wr_other by auto. rewrite G4 by (auto; intros ->; exact Vl).
               rewrite E3; [now apply HV1|intros ->; exact Vl|auto]. }
      split. { destruct G5 as (P1&P2&P3). repeat split; cbn; congruence. }
      intros _. rewrite wr_same, G3. now constructor.
  - inversion HR as [|l l' j' r' E V N HR']; subst.
    destruct k as [|k].
    + inversion HB as [v0 Hv0|]; subst v0 vf.
      destruct (IH l' r HR' V N Hc Hm 0%nat w w) as [K HK]; auto; [intros Hm'; destruct (Hmem Hm'); split; auto; lia|left; lia|].
      exists (S K). intros n M from Hn HV Ef Hf Nf. destruct n as [|n]; [lia|].
      destruct (HK n M from) as (M1&E1&E2&E3&E4&E5); auto; [lia|].
      assert (Nl: l' <> from) by now apply okfrom_ne.
      assert (El: mv M l' = mv m l') by (now apply (proj1 HV)).
      rewrite E. change (type_of (VRef l')) with TR.
      destruct (H_rn n to from l' M (type_of w)) as [X|(X&X2)].
      { rewrite (proj1 HV); auto. }
      { destruct HW as [-> | HW]; [right; reflexivity|left; split; [now apply member_type|now rewrite Ef]]. }
      * exists (wr M1 from (mv M1 l')). split. { rewrite X, El, E1. reflexivity. }
        split. { now rewrite wr_other by auto. }
        split. { intros l Vl N1 N2. rewrite wr_other by auto. auto. }
        split. { destruct E4 as (P1&P2&P3). repeat split; cbn; congruence. }
        intros _.
        assert (F: denotes (wr M1 from (mv M1 l')) (mv (wr M1 from (mv M1 l')) l') z).
        { apply (final_denotes from c) with (j := j) (r := r); auto.
          all: try (now rewrite wr_other by auto).
          intros l Vl N1 N2. rewrite wr_other by auto. auto. }
        rewrite wr_same. rewrite wr_other in F by auto. exact F.
      * exists M1. split. { rewrite X, El. exact E1. } split; [exact E2|]. split; [exact E3|]. split; [exact E4|].
        intros _. apply E5. right; right. destruct HW as [-> | HW]; [destruct y; discriminate|exact HW].
    + inversion HB as [|q k0 w0 Vq HB']; subst.
      destruct (IH l' r HR' V N Hc Hm k (mv m q) w) as [K HK]; auto.
      { intros Hm'. destruct (Hmem Hm'). split; auto; lia. }
      { destruct Hcond as [Hk|(Hk&Hw&Hs)]; [left; lia|right; repeat split; auto; lia]. }
      exists (S K). intros n M from Hn HV Ef Hf Nf. destruct n as [|n]; [lia|].
      set (m1 := wr M (LAuto 0) (mv M q)).
      assert (HV1: vis_same m m1) by (now apply vis_wr_auto).
      destruct (HK n m1 (LAuto 0)) as (M1&E1&E2&E3&E4&E5); auto; [lia| | | |].
      { unfold m1. rewrite wr_same. now apply (proj1 HV). }
      { right; eauto. }
      { intros <-. exact Vc. }
      assert (Nl: l' <> from) by now apply okfrom_ne.
      rewrite E. change (type_of (VRef l')) with TR. change (type_of (VRef q)) with TR.
      exists (wr M1 from (mv M1 l')).
      split. { rewrite (H_rr n to from l' q M); [|rewrite (proj1 HV); auto|auto]. cbv zeta. fold m1.
               rewrite (proj1 HV1 l' V). replace (mv m1 (LAuto 0)) with (mv m q); [rewrite E1; reflexivity|].
               unfold m1. rewrite wr_same. symmetry. now apply (proj1 HV). }
      assert (E3': forall l, visible l -> l <> c -> l <> from -> mv (wr M1 from (mv M1 l')) l = mv m l).
      { intros l Vl N1 N2. rewrite wr_other by auto. apply E3; auto. intros ->; exact Vl. }
      split. { now rewrite wr_other by auto. }
      split; [exact E3'|].
      split. { destruct E4 as (P1&P2&P3). repeat split; cbn; congruence. }
      intros _.
      assert (F: denotes (wr M1 from (mv M1 l')) (mv (wr M1 from (mv M1 l')) l') z).
      { apply (final_denotes from c) with (j := j) (r := r); auto.
        now rewrite wr_other by auto. }
      rewrite wr_same. rewrite wr_other in F by auto. exact F.
Qed.
End Assign.

Lemma s32_shiftr n : is_s32 n <-> Z.shiftr n 31 = 0 \/ Z.shiftr n 31 = -1.
Proof. rewrite Z.shiftr_div_pow2 by lia. change (2 ^ 31) with 2147483648. unfold is_s32. lia. Qed.
Lemma spec_int_range b x y z : is_s32 x -> is_s32 y -> spec_int b x y = Some z -> is_s32 z.
Proof.
  intros Hx Hy H. destruct b; cbn [spec_int] in H.
  - injection H as <-. apply s32_range.
  - injection H as <-. apply s32_range.
  - injection H as <-. apply s32_range.
  - destruct (Z.eqb_spec y 0); [injection H as <-; unfold is_s32; lia|].
    destruct ((x =? -2147483648) && (y =? -1)) eqn:E; [discriminate|]. injection H as <-. apply quot_s32; auto; lia.
  - destruct (Z.eqb_spec y 0); [discriminate|].
    destruct ((x =? -2147483648) && (y =? -1)) eqn:E; [discriminate|]. injection H as <-.
    assert (P: 0 < Z.abs y) by lia.
    pose proof (Z.rem_bound_abs x y n) as B. unfold is_s32 in *. generalize dependent (Z.rem x y). intros q Hq. lia.
  - injection H as <-. apply s32_shiftr in Hx, Hy. apply s32_shiftr. rewrite Z.shiftr_land.
    destruct Hx as [-> | ->], Hy as [-> | ->]; cbn; auto.
  - injection H as <-. apply s32_shiftr in Hx, Hy. apply s32_shiftr. rewrite Z.shiftr_lor.
    destruct Hx as [-> | ->], Hy as [-> | ->]; cbn; auto.
  - injection H as <-. apply s32_shiftr in Hx, Hy. apply s32_shiftr. rewrite Z.shiftr_lxor.
    destruct Hx as [-> | ->], Hy as [-> | ->]; cbn; auto.
  - destruct ((0 <=? y) && (y <? 32)); [|discriminate]. injection H as <-. apply s32_range.
  - destruct ((0 <=? y) && (y <? 32)) eqn:E; [|discriminate]. injection H as <-.
    assert (P: 0 < 2 ^ y) by (apply Z.pow_pos_nonneg; lia). unfold is_s32 in *.
    split; [apply Z.div_le_lower_bound; nia|].
    assert (x / 2 ^ y < 2147483648); [apply Z.div_lt_upper_bound; nia|lia].
Qed.
Lemma spec_bin_ok b x y z : number_ok x -> number_ok y -> spec_bin b x y = Some z -> number_ok z.
Proof.
  intros Hx Hy H. destruct x as [x|x], y as [y|y]; cbn [spec_bin] in H.
  - destruct (spec_int b x y) eqn:E; [|discriminate]. injection H as <-. exact (spec_int_range b x y _ Hx Hy E).
  - destruct b; cbn in H; try discriminate; try (injection H as <-; exact I). destruct (negb (f32_true y)); injection H as <-; exact I.
  - destruct b; cbn in H; try discriminate; try (injection H as <-; exact I). destruct (y =? 0); injection H as <-; exact I.
  - destruct b; cbn in H; try discriminate; try (injection H as <-; exact I). destruct (negb (f32_true y)); injection H as <-; exact I.
Qed.
Lemma denotes_ok m v x : denotes m v x -> number_ok x.
Proof. induction 1; auto; cbn; unfold is_s32, is_byte in *; lia. Qed.

(* a value followed through k references is a number or a container element *)
Definition plain (m : mem) (v : value) (k : nat) (w : value) (y : number) : Prop :=
  vbehind m v k w /\ denotes m w y /\ (w = of_number y \/ is_member w = true).

Section Inst.
Variables (pbits : value -> Z) (obj_hash : mem -> value -> Z) (as_string : mem -> value -> list Z) (trap : bool).

(* the three tables satisfy the hypotheses of the generic argument *)
Section ArithAssign.
Variables (cat : bool) (o : arith) (x y z : number).
Hypothesis Hleaf : leaf trap o (type_of (of_number x)) (type_of (of_number y)) (bits pbits (of_number x)) (bits pbits (of_number y)) = Some (of_number z).
Notation A := (arith_assign pbits obj_hash as_string trap cat o).

Definition aa_safe := is_NI x = true \/ is_NI y = false.

Lemma aa_leaf n to from M : mv M to = of_number x -> mv M from = of_number y ->
  exists M', A (S n) (type_of (of_number x)) (type_of (of_number y)) to from M = Ok M' /\ mv M' to = of_number z /\
    (forall l, l <> to -> (l <> from \/ aa_safe) -> mv M' l = mv M l) /\ same_objs M M'.
Proof.
  intros Et Ef.
  exists (wr (match x, y with NF _, NI _ => wr M from (VFlt (bits pbits (of_number y))) | _, _ => M end) to (of_number z)).
  split.
  { assert (G: arith_assign pbits obj_hash as_string trap cat o (S n) (type_of (of_number x)) (type_of (of_number y)) to from M
             = assign_leaf pbits trap o (type_of (of_number x)) (type_of (of_number y)) to from M).
    { destruct x, y; reflexivity. }
    rewrite G. unfold assign_leaf, rdi. rewrite Et, Ef, Hleaf. cbn [of_opt bind]. destruct x, y; reflexivity. }
  split; [apply wr_same|]. split.
  - intros l N1 N2. rewrite wr_other by auto. unfold aa_safe in N2. destruct x, y; try reflexivity. cbn in N2.
    rewrite wr_other; [reflexivity|]. destruct N2 as [N2|[N2|N2]]; congruence.
  - destruct x, y; repeat split.
Qed.

Lemma aa_cc M to from : char_array M (mv M to) = None -> char_array M (mv M from) = None ->
  (if cat then concat_check as_string M to from to else None) = None.
Proof. intros H1 H2. destruct cat; [|reflexivity]. unfold concat_check. now rewrite H1, H2. Qed.

Lemma aa_main m av c : visible av -> number_ok x -> number_ok z -> mv m c = of_number x -> visible c -> c <> av ->
  forall j to r, reaches m av to j r -> visible to -> to <> av ->
  cell_of m r (mv m r) c -> (forall l0 s, mv m r = VMem l0 s -> l0 <> av) ->
  forall k w, plain m (mv m av) k w y ->
  (is_member (mv m r) = true -> w = of_number y /\ (k <= j)%nat) ->
  ((k <= j)%nat \/ (k = S j /\ w = of_number y /\ aa_safe)) ->
  exists K, forall n, (K <= n)%nat ->
    exists M', A n (type_of (mv m to)) (type_of (mv m av)) to av m = Ok M' /\ mv M' c = of_number z /\
      unchanged_except [c; av] m M' /\
      ((0 < j)%nat \/ is_member (mv m r) = true \/ is_member w = true -> denotes M' (mv M' av) z).
Proof.
  intros Vav Hx Hz Ec Vc Nc j to r HR Vt Nt Hc Hm k w (HB&HD&HW) Hmem Hcond.
  edestruct (assign_main pbits obj_hash A x y z Hx Hz) with (safe := aa_safe) (m := m) (av := av) (c := c) (j := j) (to := to) (r := r) (k := k) (vf := mv m av) (w := w) as [K HK]; eauto.
  - intros n to0 from0 M0 E1 E2. destruct (aa_leaf n to0 from0 M0 E1 E2) as (M'&F1&F2&F3&F4). exists M'. repeat split; auto; apply F4.
  - intros Hs n to0 from0 q M0 V0 Vq E1 E2 E3.
    destruct (aa_leaf n to0 q M0 E1 E3) as (M'&F1&F2&F3&F4).
    exists (wr M' from0 (mv M' to0)). remember (S n) as N.
    assert (to0 <> from0) by (intros ->; rewrite E2 in E1; destruct x; discriminate).
    split. { rewrite <- F1 || idtac. destruct x; cbn [of_number type_of arith_assign] in *; rewrite E2, E3, F1; reflexivity. }
    split. { now rewrite wr_other by auto. }
    split. { intros l Vl N1 N2. rewrite wr_other by auto. apply F3; auto. }
    destruct F4 as (P1&P2&P3); repeat split; cbn; congruence.
  - intros n to0 from0 M0 m1 E1 E2 E3 E4.
    assert (CC: (if cat then concat_check as_string M0 to0 from0 to0 else None) = None).
    { apply aa_cc; [rewrite E1; apply char_array_number|now apply char_array_member]. }
    destruct x; cbn [of_number type_of arith_assign] in *; rewrite CC, E3; reflexivity.
  - intros n to0 from0 M0 m1 E1 E2 E3 E4.
    assert (CC: (if cat then concat_check as_string M0 to0 from0 to0 else None) = None).
    { apply aa_cc; [now apply char_array_member|rewrite E2; apply char_array_number]. }
    destruct y; cbn [of_number type_of arith_assign] in *; rewrite CC, E3; reflexivity.
  - intros n to0 from0 r0 q M0 E1 E2. cbn [arith_assign]. rewrite E1, E2. reflexivity.
  - intros n to0 from0 r0 M0 f E1 E2. left. cbn [arith_assign]. rewrite E1. destruct f; try reflexivity.
    destruct E2 as [[E2 _]|E2]; [discriminate|destruct y; discriminate].
  - exists K. intros n Hn. destruct (HK n m av Hn) as (M'&F1&F2&F3&F4&F5); auto using vis_refl.
    { left; reflexivity. }
    exists M'. split; [exact F1|]. split; [exact F2|]. split; [|exact F5].
    split; [|exact F4]. intros l Vl N. apply F3; auto; intros ->; apply N; cbn; auto.
Qed.
End ArithAssign.

Section LogicAssign.
Variables (op : Z -> Z -> option Z) (a b d : Z).
Hypothesis Hleaf : op (u32 a) (u32 b) = Some (u32 d).
Notation A := (logic_assign pbits obj_hash op).
Let x := NI a. Let y := NI b. Let z := NI d.

Lemma la_leaf n to from M : mv M to = of_number x -> mv M from = of_number y ->
  exists M', A (S n) TI TI to from M = Ok M' /\ mv M' to = of_number z /\
    (forall l, l <> to -> mv M' l = mv M l) /\ same_objs M M'.
Proof.
  intros Et Ef. exists (wr M to (of_number z)). split.
  { cbn [logic_assign]. unfold rdi. rewrite Et, Ef. cbn [bits x y of_number]. rewrite Hleaf. reflexivity. }
  split; [apply wr_same|]. split; [|repeat split]. intros. now rewrite wr_other.
Qed.

Lemma la_main m av c : visible av -> number_ok x -> number_ok z -> mv m c = of_number x -> visible c -> c <> av ->
  forall j to r, reaches m av to j r -> visible to -> to <> av ->
  cell_of m r (mv m r) c -> (forall l0 s, mv m r = VMem l0 s -> l0 <> av) ->
  forall k w, plain m (mv m av) k w y ->
  (is_member (mv m r) = true -> w = of_number y /\ (k <= j)%nat) ->
  ((k <= j)%nat \/ (k = S j /\ w = of_number y /\ True)) ->
  exists K, forall n, (K <= n)%nat ->
    exists M', A n (type_of (mv m to)) (type_of (mv m av)) to av m = Ok M' /\ mv M' c = of_number z /\
      unchanged_except [c; av] m M' /\
      ((0 < j)%nat \/ is_member (mv m r) = true \/ is_member w = true -> denotes M' (mv M' av) z).
Proof.
  intros Vav Hx Hz Ec Vc Nc j to r HR Vt Nt Hc Hm k w (HB&HD&HW) Hmem Hcond.
  edestruct (assign_main pbits obj_hash A x y z Hx Hz) with (safe := True) (m := m) (av := av) (c := c) (j := j) (to := to) (r := r) (k := k) (vf := mv m av) (w := w) as [K HK]; eauto.
  - intros n to0 from0 M0 E1 E2. destruct (la_leaf n to0 from0 M0 E1 E2) as (M'&F1&F2&F3&F4). exists M'. repeat split; auto; apply F4.
  - intros Hs n to0 from0 q M0 V0 Vq E1 E2 E3.
    set (m1 := wr M0 (LAuto 0) (mv M0 q)).
    assert (Na: to0 <> LAuto 0) by (intros ->; exact V0).
    destruct (la_leaf n to0 (LAuto 0) m1) as (M'&F1&F2&F3&F4).
    { unfold m1. now rewrite wr_other. } { unfold m1. now rewrite wr_same. }
    exists (wr M' from0 (mv M' to0)). remember (S n) as N.
    assert (to0 <> from0) by (intros ->; rewrite E2 in E1; discriminate).
    split. { cbn [of_number type_of x logic_assign] in *. rewrite E2. cbv zeta. fold m1.
             replace (mv m1 (LAuto 0)) with (of_number y) by (unfold m1; now rewrite wr_same). cbn [y of_number type_of].
             rewrite F1. reflexivity. }
    split. { now rewrite wr_other by auto. }
    split. { intros l Vl N1 N2. rewrite wr_other by auto. rewrite F3 by auto. unfold m1. rewrite wr_other; auto. intros ->; exact Vl. }
    destruct F4 as (P1&P2&P3); repeat split; cbn; [rewrite P1|rewrite P2|rewrite P3]; reflexivity.
  - intros n to0 from0 M0 m1 E1 E2 E3 E4. cbn [x of_number type_of logic_assign]. now rewrite E3.
  - intros n to0 from0 M0 m1 E1 E2 E3 E4. cbn [y of_number type_of logic_assign]. now rewrite E3.
  - intros n to0 from0 r0 q M0 E1 E2. cbn [logic_assign]. rewrite E1, E2. reflexivity.
  - intros n to0 from0 r0 M0 f E1 E2. cbn [logic_assign]. rewrite E1. destruct f; auto.
    + destruct E2 as [[E2 _]|E2]; discriminate.
    + destruct E2 as [[E2 _]|E2]; discriminate.
  - exists K. intros n Hn. destruct (HK n m av Hn) as (M'&F1&F2&F3&F4&F5); auto using vis_refl.
    { left; reflexivity. }
    exists M'. split; [exact F1|]. split; [exact F2|]. split; [|exact F5].
    split; [|exact F4]. intros l Vl N. apply F3; auto; intros ->; apply N; cbn; auto.
Qed.
End LogicAssign.

Section CAssign.
Variables (kp : callpair) (x y z : number).
Hypothesis Hleaf : c_leaf kp (type_of (of_number x)) (type_of (of_number y)) (bits pbits (of_number x)) (bits pbits (of_number y)) = Some (of_number z).
Notation A := (c_assign pbits obj_hash as_string kp).

Lemma ca_leaf n to from M : mv M to = of_number x -> mv M from = of_number y ->
  exists M', A (S n) (type_of (of_number x)) (type_of (of_number y)) to from M = Ok M' /\ mv M' to = of_number z /\
    (forall l, l <> to -> mv M' l = mv M l) /\ same_objs M M'.
Proof.
  intros Et Ef. exists (wr M to (of_number z)). split.
  { transitivity (v <- of_opt (c_leaf kp (type_of (of_number x)) (type_of (of_number y)) (rdi pbits M to) (rdi pbits M from)) ;; Ok (wr M to v)).
    { destruct x, y; reflexivity. }
    unfold rdi. rewrite Et, Ef, Hleaf. reflexivity. }
  split; [apply wr_same|]. split; [|repeat split]. intros. now rewrite wr_other.
Qed.
Lemma ca_cc M to from : char_array M (mv M to) = None -> char_array M (mv M from) = None ->
  concat_check as_string M to from to = None.
Proof. intros H1 H2. unfold concat_check. now rewrite H1, H2. Qed.

Lemma ca_main m av c : visible av -> number_ok x -> number_ok z -> mv m c = of_number x -> visible c -> c <> av ->
  forall j to r, reaches m av to j r -> visible to -> to <> av ->
  cell_of m r (mv m r) c -> (forall l0 s, mv m r = VMem l0 s -> l0 <> av) ->
  forall k w, plain m (mv m av) k w y ->
  (is_member (mv m r) = true -> w = of_number y /\ (k <= j)%nat) ->
  ((k <= j)%nat \/ (k = S j /\ w = of_number y /\ True)) ->
  exists K, forall n, (K <= n)%nat ->
    exists M', A n (type_of (mv m to)) (type_of (mv m av)) to av m = Ok M' /\ mv M' c = of_number z /\
      unchanged_except [c; av] m M' /\
      ((0 < j)%nat \/ is_member (mv m r) = true \/ is_member w = true -> denotes M' (mv M' av) z).
Proof.
  intros Vav Hx Hz Ec Vc Nc j to r HR Vt Nt Hc Hm k w (HB&HD&HW) Hmem Hcond.
  edestruct (assign_main pbits obj_hash A x y z Hx Hz) with (safe := True) (m := m) (av := av) (c := c) (j := j) (to := to) (r := r) (k := k) (vf := mv m av) (w := w) as [K HK]; eauto.
  - intros n to0 from0 M0 E1 E2. destruct (ca_leaf n to0 from0 M0 E1 E2) as (M'&F1&F2&F3&F4). exists M'. repeat split; auto; apply F4.
  - intros Hs n to0 from0 q M0 V0 Vq E1 E2 E3.
    destruct (ca_leaf n to0 q M0 E1 E3) as (M'&F1&F2&F3&F4).
    exists (wr M' from0 (mv M' to0)). remember (S n) as N.
    assert (to0 <> from0) by (intros ->; rewrite E2 in E1; destruct x; discriminate).
    split. { destruct x; cbn [of_number type_of c_assign] in *; rewrite E2, E3, F1; reflexivity. }
    split. { now rewrite wr_other by auto. }
    split. { intros l Vl N1 N2. rewrite wr_other by auto. apply F3; auto. }
    destruct F4 as (P1&P2&P3); repeat split; cbn; congruence.
  - intros n to0 from0 M0 m1 E1 E2 E3 E4.
    assert (CC: concat_check as_string M0 to0 from0 to0 = None).
    { apply ca_cc; [rewrite E1; apply char_array_number|now apply char_array_member]. }
    destruct x; cbn [of_number type_of c_assign] in *; rewrite CC, E3; cbn [bind]; rewrite E4; reflexivity.
  - intros n to0 from0 M0 m1 E1 E2 E3 E4.
    assert (CC: concat_check as_string M0 to0 from0 to0 = None).
    { apply ca_cc; [now apply char_array_member|rewrite E2; apply char_array_number]. }
    destruct y; cbn [of_number type_of c_assign] in *; rewrite CC, E3; cbn [bind]; rewrite E4; reflexivity.
  - intros n to0 from0 r0 q M0 E1 E2. cbn [c_assign]. rewrite E1, E2. reflexivity.
  - intros n to0 from0 r0 M0 f E1 E2. cbn [c_assign]. rewrite E1. destruct f; auto.
    destruct E2 as [[E2 _]|E2]; [discriminate|destruct y; discriminate].
  - exists K. intros n Hn. destruct (HK n m av Hn) as (M'&F1&F2&F3&F4&F5); auto using vis_refl.
    { left; reflexivity. }
    exists M'. split; [exact F1|]. split; [exact F2|]. split; [|exact F5].
    split; [|exact F4]. intros l Vl N. apply F3; auto; intros ->; apply N; cbn; auto.
Qed.
End CAssign.
End Inst.
