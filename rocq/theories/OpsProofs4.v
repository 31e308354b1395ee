(* Increment/decrement, plain assignment. *)
From Verif Require Import Base BaseLemmas HashModel FloatModel FloatProofs OpsModel OpsSpec OpsProofs OpsProofs2 OpsProofs3.
Ltac Zify.zify_post_hook ::= Z.div_mod_to_equations.

Section Unary.
Variables (pbits : value -> Z) (obj_hash : mem -> value -> Z).
Variables (d : Z) (x z : number).
Hypothesis Hx : number_ok x.
Hypothesis Hi : incr d (of_number x) = Some (of_number z).
Variable m : mem.

Lemma elem_denotes r c : cell_of m r (mv m r) c -> mv m c = of_number x -> denotes m (mv m r) x.
Proof.
  intros H E. remember (mv m r) as v. destruct H.
  - replace (of_number x0) with (of_number x) by congruence. now constructor.
  - eapply D_elem; eauto.
  - eapply D_hash; eauto. rewrite E. now constructor.
Qed.

Lemma not_temp2 l : visible l -> l <> LTemp2.
Proof. intros V ->. exact V. Qed.

Lemma store_elem M M2 r c : vis_same m M -> visible r -> is_member (mv m r) = true -> cell_of m r (mv m r) c ->
  mv m c = of_number x -> visible c -> (forall l, visible l -> mv M2 l = mv m l) -> same_objs m M2 ->
  mv M2 LTemp1 = of_number z -> forall n, exists M3, wr_valueToEx pbits (S (S n)) r LTemp1 M2 = Ok M3 /\
    mv M3 c = of_number z /\ (forall l, visible l -> l <> c -> mv M3 l = mv m l) /\ same_objs m M3.
Proof.
  intros HV Vr Mm Hc Ec Vc HM HO E1 n.
  destruct (to_ex_elem pbits x z m LTemp2 M M2 r c) with (n := n) as (M3&G1&G2&G3&G4&G5); auto using not_temp2.
  { intros l s E. rewrite E in Hc. inversion Hc as [x0 Q|l1 s1 id1 n1 V1|]; subst; [destruct x0; discriminate|]. now apply not_temp2. }
  exists M3. repeat split; auto; try apply G5. intros l Vl N. rewrite G4; auto using not_temp2.
Qed.

(* through at most one reference *)
Lemma pre_main l j r c : reaches m l l j r -> (j <= 1)%nat -> visible l -> cell_of m r (mv m r) c -> mv m c = of_number x -> visible c ->
  (j = 0%nat -> is_member (mv m l) = true) -> (c <> l) ->
  exists K, forall n, (K <= n)%nat -> exists M', unary_pre pbits obj_hash d n (type_of (mv m l)) l m = Ok M' /\
    mv M' c = of_number z /\ (forall q, visible q -> q <> c -> q <> l -> mv M' q = mv m q) /\ same_objs m M' /\
    (is_member (mv m r) = false -> mv M' l = of_number z).
Proof.
  intros HR Hj Vl Hc Ec Vc H0 Ncl.
  assert (Vr: visible r). { inversion HR as [|l0 l1 j1 r1 E1 V1 N1 HR']; subst; auto. inversion HR'; subst; auto. lia. }
  (* what happens at r itself *)
  assert (B: exists K, forall n, (K <= n)%nat -> exists M', unary_pre pbits obj_hash d n (type_of (mv m r)) r m = Ok M' /\
    mv M' c = of_number z /\ (forall q, visible q -> q <> c -> mv M' q = mv m q) /\ same_objs m M').
  { destruct (is_member (mv m r)) eqn:Mr.
    - destruct (single_ok pbits obj_hash (fun _ _ => nil) m _ x (elem_denotes r c Hc Ec)) as [k1 K1].
      exists (S (S (S k1))). intros n Hn. destruct n as [|n]; [lia|].
      destruct (K1 n m r) as (m1&F1&F2&F3); [lia|apply vis_refl|auto|].
      destruct n as [|[|n]]; try lia.
      set (M2 := wr m1 LTemp1 (of_number z)).
      destruct (store_elem m M2 r c) with (n := n) as (M3&G1&G2&G3&G4); auto using vis_refl.
      { intros q Vq. unfold M2. rewrite wr_other by (intros ->; exact Vq). apply (proj1 F3); auto with ops. }
      { destruct F3 as (P0&P1&P2&P3). unfold M2; repeat split; cbn; auto. }
      exists M3. split; [|auto]. rewrite (member_type _ Mr). remember (S (S n)) as N eqn:HN. cbn [unary_pre]. rewrite F1. cbn [bind].
      rewrite F2. replace (unary_pre pbits obj_hash d N (type_of (of_number x)) LTemp1 m1) with (Ok M2); [exact G1|].
      unfold M2. rewrite HN. destruct x; cbn [unary_pre type_of of_number] in *; rewrite F2; cbn [of_number]; rewrite Hi; reflexivity.
    - assert (c = r /\ mv m r = of_number x) as [-> Er].
      { remember (mv m r) as v. destruct Hc; try discriminate. split; auto. congruence. }
      exists 1%nat. intros n Hn. destruct n as [|n]; [lia|]. exists (wr m r (of_number z)).
      split. { rewrite Er. destruct x; cbn [unary_pre type_of of_number] in *; rewrite Er; cbn [of_number]; rewrite Hi; reflexivity. }
      split; [apply wr_same|]. split; [|repeat split]. intros q Vq N. now rewrite wr_other. }
  inversion HR as [l0 Hl0|l0 l' j0 r0 E V N HR']; subst.
  - destruct B as [K B]. exists K. intros n Hn. destruct (B n Hn) as (M'&E1&E2&E3&E4). exists M'. repeat split; auto; try apply E4.
    intros X. rewrite H0 in X by reflexivity. discriminate.
  - inversion HR' as [l0 Hl0|]; subst; [|lia]. destruct B as [K B]. exists (S K). intros n Hn. destruct n as [|n]; [lia|].
    destruct (B n ltac:(lia)) as (M'&E1&E2&E3&E4).
    exists (wr M' l (mv M' r)). split. { rewrite E. cbn [type_of unary_pre]. rewrite E, E1. reflexivity. }
    split. { now rewrite wr_other. }
    split. { intros q Vq N1 N2. rewrite wr_other by auto. auto. }
    split. { destruct E4 as (P1&P2&P3). repeat split; auto. }
    intros X. rewrite wr_same. remember (mv m r) as v. destruct Hc; try discriminate. exact E2.
Qed.

Lemma post_main stack : visible stack -> forall j l r c, reaches m stack l j r -> visible l -> cell_of m r (mv m r) c -> mv m c = of_number x -> visible c ->
  c <> stack ->
  exists K, forall n, (K <= n)%nat -> exists M', unary_post pbits obj_hash d n (type_of (mv m l)) l stack m = Ok M' /\
    mv M' c = of_number z /\ mv M' stack = of_number x /\ (forall q, visible q -> q <> c -> q <> stack -> mv M' q = mv m q) /\ same_objs m M'.
Proof.
  intros Vs j l r c HR. induction HR as [l Hl|l l' j r E V N HR IH]; intros Vl Hc Ec Vc Ncs.
  - destruct (is_member (mv m l)) eqn:Mr.
    + destruct (single_ok pbits obj_hash (fun _ _ => nil) m _ x (elem_denotes l c Hc Ec)) as [k1 K1].
      exists (S (S (S k1))). intros n Hn. destruct n as [|n]; [lia|].
      destruct (K1 n m l) as (m1&F1&F2&F3); [lia|apply vis_refl|auto|].
      destruct n as [|[|n]]; try lia.
      set (M2 := wr (wr m1 LTemp1 (of_number z)) (LAuto 0) (of_number x)).
      destruct (to_ex_elem pbits x z m LTemp2 m M2 l c) with (n := n) as (M3&G1&G2&G3&G4&G5); auto using vis_refl, not_temp2.
      { intros q Vq. left. unfold M2. rewrite !wr_other by (intros ->; exact Vq). apply (proj1 F3); auto with ops. }
      { destruct F3 as (P0&P1&P2&P3). unfold M2; repeat split; cbn; auto. }
      { intros q s Eq. rewrite Eq in Hc. inversion Hc as [x0 Q|l1 s1 id1 n1 V1|]; subst; [destruct x0; discriminate|]. now apply not_temp2. }
      exists (wr M3 stack (of_number x)).
      split. { rewrite (member_type _ Mr). remember (S (S n)) as N eqn:HN. cbn [unary_post]. rewrite F1. cbn [bind]. rewrite F2.
        replace (unary_post pbits obj_hash d N (type_of (of_number x)) LTemp1 (LAuto 0) m1) with (Ok M2).
        - cbn [bind]. rewrite G1. cbn [bind]. rewrite G4; [|congruence|intros <-; exact Vc]. unfold M2. now rewrite wr_same.
        - unfold M2. rewrite HN. destruct x; cbn [unary_post type_of of_number] in *; rewrite F2; cbn [of_number]; rewrite Hi; reflexivity. }
      split. { now rewrite wr_other. }
      split; [apply wr_same|].
      split. { intros q Vq N1 N2. rewrite wr_other by auto. rewrite G4 by (auto using not_temp2). unfold M2.
               rewrite !wr_other by (intros ->; exact Vq). apply (proj1 F3); auto with ops. }
      destruct G5 as (P1&P2&P3). repeat split; auto.
    + assert (c = l /\ mv m l = of_number x) as [-> Er].
      { remember (mv m l) as v. destruct Hc; try discriminate. split; auto. congruence. }
      exists 1%nat. intros n Hn. destruct n as [|n]; [lia|]. exists (wr (wr m l (of_number z)) stack (of_number x)).
      split. { rewrite Er. destruct x; cbn [unary_post type_of of_number] in *; rewrite Er; cbn [of_number]; rewrite Hi; reflexivity. }
      split. { rewrite wr_other by auto. apply wr_same. }
      split; [apply wr_same|]. split; [|repeat split]. intros q Vq N1 N2. rewrite wr_other by auto. now rewrite wr_other.
  - destruct IH as [K IH]; auto. exists (S K). intros n Hn. destruct n as [|n]; [lia|].
    destruct (IH n ltac:(lia)) as (M'&E1&E2). exists M'. split; [|exact E2]. rewrite E. cbn [type_of unary_post]. rewrite E. exact E1.
Qed.

End Unary.

(* ---- x = e ---- *)
(* where `=` stores: the variable itself (whatever it held), or the element a member stands for *)


Section PlainAssign.
Variable pbits : value -> Z.
Variable obj_hash : mem -> value -> Z.
Variables (m : mem) (y : number).

Definition stored (c : loc) (M' : mem) : Prop :=
  mv M' c = of_number y /\ (forall l, visible l -> l <> c -> mv M' l = mv m l) /\ same_objs m M'.

Lemma stored_wr m1 c : t2_same m m1 -> stored c (wr m1 c (of_number y)).
Proof.
  intros (A&B&C&D). split; [apply wr_same|]. split; [|repeat split; cbn; auto].
  intros l Vl N. rewrite wr_other by auto. apply A. now apply not_temp2.
Qed.

Lemma assign_base to from w c : visible to -> visible from -> mv m from = w -> denotes m w y ->
  (w = of_number y \/ is_member w = true) -> store_cell m to (mv m to) c -> type_of (mv m to) <> TR ->
  exists K, forall n, (K <= n)%nat -> exists M', wr_assign pbits n (type_of (mv m to)) (type_of w) to from m = Ok M' /\ stored c M'.
Proof.
  intros Vt Vf Ef HD HW Hc Nt.
  destruct (deref_ok pbits obj_hash (fun _ _ => nil) m w y HD) as [k K].
  assert (Tw: type_of w <> TR) by (destruct HW as [-> | HW]; [destruct y; discriminate|rewrite (member_type _ HW); discriminate]).
  remember (mv m to) as v eqn:Ev. destruct Hc as [v Hv Hv2|l s id n0 Vl El Eo Hs|id s n0 Eo Hs Ht He].
  - exists (S (S k)). intros n Hn. destruct n as [|n]; [lia|].
    destruct (K n m from) as (d&m1&E1&E2&E3&E4); [lia|apply vis_refl|auto|].
    destruct v; cbn [type_of] in *; try congruence; try discriminate;
    (destruct HW as [-> | HW];
     [ destruct n as [|n]; [lia|]; rewrite (deref_number _ _ _ _ _ Ef) in E1; injection E1 as <- <-;
       exists (wr m to (of_number y)); (split; [|apply stored_wr, t2_refl]);
       remember (S n) as N eqn:HN; destruct y; cbn [of_number type_of wr_assign] in *; rewrite ?Ef, ?HN; cbn [wr_assign deref]; rewrite ?Ef; cbn [bind]; rewrite ?Ef, <- ?Ev; reflexivity
     | rewrite (member_type _ HW); exists (wr m1 to (of_number y)); (split; [|now apply stored_wr]); cbn [wr_assign]; rewrite E1; cbn [bind]; rewrite ?(proj1 E4 to) by (now apply not_temp2); rewrite <- ?Ev, ?E2; reflexivity]).
  - exists (S (S k)). intros n Hn. destruct n as [|n]; [lia|].
    destruct (K n m from) as (d&m1&E1&E2&E3&E4); [lia|apply vis_refl|auto|].
    destruct n as [|n]; [lia|].
    assert (Et1: mv m1 to = VMem l s) by (rewrite (proj1 E4 to) by (now apply not_temp2); auto).
    assert (El1: mv m1 l = VArr id) by (rewrite (proj1 E4 l) by (now apply not_temp2); auto).
    set (m2 := wr m1 LTemp2 (VInt (rdi pbits m1 LTemp2))).
    assert (T2: t2_same m m2) by (eapply t2_trans; [exact E4|apply t2_wr]).
    exists (wr m2 (LElem id s) (of_number y)). split; [|now apply stored_wr].
    transitivity (' (d0, m1') <- deref pbits (S n) from m ;;
      if is_member (mv m1' to) then value_to_ex pbits (wr_assign pbits (S n)) (S n) to d0 m1' else Ok (wr m1' to (mv m1' d0))).
    { destruct w; try (cbn in Tw; congruence); reflexivity. }
    rewrite E1. cbn [bind]. rewrite Et1. cbn [is_member]. unfold value_to_ex. rewrite Et1, El1.
    rewrite (deref_number _ _ _ _ _ E2). cbn [bind]. rewrite E2. cbn [deref]. rewrite Et1. cbv zeta. fold m2.
    rewrite (proj1 (t2_wr m1 (VInt (rdi pbits m1 LTemp2)))) by (now apply not_temp2). rewrite El1.
    destruct E4 as (P0&P1&P2&P3). rewrite P1, Eo. destruct (Nat.ltb_spec s n0); [reflexivity|lia].
  - exists (S (S (S k))). intros n Hn. destruct n as [|n]; [lia|].
    destruct (K n m from) as (d&m1&E1&E2&E3&E4); [lia|apply vis_refl|auto|].
    destruct n as [|[|n]]; try lia.
    assert (Et1: mv m1 to = VHMem id s) by (rewrite (proj1 E4 to) by (now apply not_temp2); auto).
    set (m2 := wr m1 LTemp2 (VInt (rdi pbits m1 LTemp2))).
    assert (T2: t2_same m m2) by (eapply t2_trans; [exact E4|apply t2_wr]).
    exists (wr m2 (LElem id s) (of_number y)). split; [|now apply stored_wr].
    transitivity (' (d0, m1') <- deref pbits (S (S n)) from m ;;
      if is_member (mv m1' to) then value_to_ex pbits (wr_assign pbits (S (S n))) (S (S n)) to d0 m1' else Ok (wr m1' to (mv m1' d0))).
    { destruct w; try (cbn in Tw; congruence); reflexivity. }
    rewrite E1. cbn [bind]. rewrite Et1. cbn [is_member]. unfold value_to_ex. rewrite Et1.
    rewrite (deref_number _ _ _ _ _ E2). cbn [bind]. rewrite E2. remember (S n) as N eqn:HN. cbn [deref]. rewrite Et1. cbv zeta. fold m2.
    replace (mo m1) with (mo m) by (symmetry; apply E4). rewrite Eo. destruct (Nat.ltb_spec s n0); [|lia].
    replace (deref pbits N (LElem id s) m2) with (@Ok (loc * mem) (LElem id s, m2)); [reflexivity|].
    rewrite HN. cbn [deref]. rewrite (proj1 T2) by congruence. destruct (mv m (LElem id s)); try reflexivity; cbn in *; congruence.
Qed.

Lemma assign_chain N : forall to j r k from w c, (j + k <= N)%nat -> reaches m LTemp2 to j r -> vbehind m (mv m from) k w ->
  visible to -> visible from -> denotes m w y -> (w = of_number y \/ is_member w = true) -> store_cell m r (mv m r) c ->
  exists K, forall n, (K <= n)%nat -> exists M', wr_assign pbits n (type_of (mv m to)) (type_of (mv m from)) to from m = Ok M' /\ stored c M'.
Proof.
  induction N as [|N IH]; intros to j r k from w c HN HR HB Vt Vf HD HW Hc.
  - inversion HR; [|lia]. inversion HB; [|lia]. subst. eapply assign_base; eauto.
  - inversion HR as [l Hl|l l' j' r' E V _ HR']; subst.
    + inversion HB as [v0 Hv0|q k' w' Vq HB' Ek]; subst; [eapply assign_base; eauto|].
      destruct (IH r 0%nat r k' q w c) as [K HK]; auto; [lia|].
      exists (S K). intros n Hn. destruct n as [|n]; [lia|]. destruct (HK n ltac:(lia)) as (M'&E1&E2).
      exists M'. split; [|exact E2]. destruct (type_of (mv m r)) eqn:T; try congruence;
      cbn [type_of wr_assign]; match goal with H : VRef q = mv m from |- _ => rewrite <- H end; exact E1.
    + inversion HB as [v0 Hv0 X|q k' w' Vq HB' Ek]; subst.
      * destruct (IH l' j' r 0%nat from (mv m from) c) as [K HK]; auto; [lia|].
        exists (S K). intros n Hn. destruct n as [|n]; [lia|]. destruct (HK n ltac:(lia)) as (M'&E1&E2).
        exists M'. split; [|exact E2]. rewrite E. cbn [type_of wr_assign]. rewrite E.
        destruct (type_of (mv m from)) eqn:T; try congruence; exact E1.
      * destruct (IH l' j' r k' q w c) as [K HK]; auto; [lia|].
        exists (S K). intros n Hn. destruct n as [|n]; [lia|]. destruct (HK n ltac:(lia)) as (M'&E1&E2).
        exists M'. split; [|exact E2]. rewrite E. cbn [type_of wr_assign]. rewrite E.
        match goal with H : VRef q = mv m from |- _ => rewrite <- H end. exact E1.
Qed.
End PlainAssign.
