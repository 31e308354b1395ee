(* Proofs about the dispatch tables. *)
From Verif Require Import Base BaseLemmas HashModel FloatModel OpsModel OpsSpec.
Ltac Zify.zify_post_hook ::= Z.div_mod_to_equations.

Lemma wr_same m l v : mv (wr m l v) l = v.
Proof. unfold wr; cbn. destruct (loc_eq_dec l l); congruence. Qed.
Lemma wr_other m l v x : x <> l -> mv (wr m l v) x = mv m x.
Proof. intros; unfold wr; cbn. destruct (loc_eq_dec x l); congruence. Qed.

Definition notmp (l : loc) := l <> LTemp1 /\ l <> LTemp2.
(* m' differs from m in the static scratch values only *)
Definition tmp_same (m m' : mem) : Prop :=
  (forall l, notmp l -> mv m' l = mv m l) /\ mo m' = mo m /\ mraw m' = mraw m /\ mnext m' = mnext m.
Lemma tmp_same_refl m : tmp_same m m.
Proof. repeat split. Qed.
Lemma tmp_same_trans a b c : tmp_same a b -> tmp_same b c -> tmp_same a c.
Proof.
  intros (A1&A2&A3&A4) (B1&B2&B3&B4). repeat split; try congruence.
  intros l Hl. rewrite B1, A1; auto.
Qed.
Lemma tmp_same_wr2 m v : tmp_same m (wr m LTemp2 v).
Proof. repeat split. intros l [H1 H2]. now rewrite wr_other. Qed.
Lemma tmp_same_wr1 m v : tmp_same m (wr m LTemp1 v).
Proof. repeat split. intros l [H1 H2]. now rewrite wr_other. Qed.
Lemma visible_notmp l : visible l -> notmp l.
Proof. destruct l; cbn; try tauto; split; congruence. Qed.
Lemma auto_notmp n : notmp (LAuto n).
Proof. split; congruence. Qed.
Lemma elem_notmp i n : notmp (LElem i n).
Proof. split; congruence. Qed.
#[export] Hint Resolve visible_notmp auto_notmp elem_notmp tmp_same_refl : ops.

Lemma type_of_number x : type_of (of_number x) = if is_NI x then TI else TF.
Proof. destruct x; reflexivity. Qed.

Lemma u8_byte c : is_byte c -> u8 c = u32 c.
Proof. unfold is_byte, u8, u32. lia. Qed.

Definition vis_same (m m' : mem) : Prop :=
  (forall l, visible l -> mv m' l = mv m l) /\ mo m' = mo m /\ mraw m' = mraw m /\ mnext m' = mnext m.
Lemma tmp_vis m m' : tmp_same m m' -> vis_same m m'.
Proof. intros (A&B&C&D). repeat split; auto. intros; apply A; auto with ops. Qed.
Lemma vis_auto m n v : vis_same m (wr m (LAuto n) v).
Proof. repeat split. intros l Hv. rewrite wr_other; auto. destruct l; cbn in Hv; try tauto; congruence. Qed.
Lemma vis_trans a b c : vis_same a b -> vis_same b c -> vis_same a c.
Proof.
  intros (A1&A2&A3&A4) (B1&B2&B3&B4). repeat split; try congruence.
  intros l Hl. rewrite B1, A1; auto.
Qed.
Lemma vis_refl m : vis_same m m.
Proof. repeat split. Qed.
Section P.
Variables (pbits : value -> Z) (obj_hash : mem -> value -> Z) (as_string : mem -> value -> list Z) (trap : bool).

Lemma deref_number fuel l m x :
  mv m l = of_number x -> deref pbits (S fuel) l m = Ok (l, m).
Proof. intros H. cbn. rewrite H. destruct x; reflexivity. Qed.

Definition t2_same (m m' : mem) : Prop :=
  (forall l, l <> LTemp2 -> mv m' l = mv m l) /\ mo m' = mo m /\ mraw m' = mraw m /\ mnext m' = mnext m.
Lemma t2_tmp m m' : t2_same m m' -> tmp_same m m'.
Proof. intros (A&B&C&D). repeat split; auto. intros l [H1 H2]; auto. Qed.
Lemma t2_wr m v : t2_same m (wr m LTemp2 v).
Proof. repeat split. intros. now rewrite wr_other. Qed.
Lemma t2_trans a b c : t2_same a b -> t2_same b c -> t2_same a c.
Proof.
  intros (A1&A2&A3&A4) (B1&B2&B3&B4). repeat split; try congruence.
  intros l Hl. rewrite B1, A1; auto.
Qed.
Lemma t2_refl m : t2_same m m.
Proof. repeat split. Qed.

(* what dereferencing an operand that denotes a number does *)
Lemma deref_ok m v x : denotes m v x ->
  exists k, forall fuel m0 l, (k <= fuel)%nat -> vis_same m m0 -> mv m0 l = v ->
    exists d m1, deref pbits fuel l m0 = Ok (d, m1) /\ mv m1 d = of_number x /\
      (d = l \/ d = LTemp2 \/ visible d) /\ t2_same m0 m1.
Proof.
  induction 1 as [x Hok|l x Hv Hd IH|r s id n x Hv Hr Ho Hs He Hok|r s id bs nc c Hv Hr Ho Hs Hc
                 |r s b n Hv Hr Hs Hc|id s n x Ho Hs Hd IH].
  - exists 1%nat. intros fuel m0 l Hf HT E. destruct fuel; [lia|].
    exists l, m0. rewrite (deref_number _ _ _ _ E). auto using t2_refl.
  - destruct IH as [k IH]. exists (S k). intros fuel m0 l0 Hf HT E.
    destruct fuel as [|n]; [lia|].
    destruct (IH n m0 l) as (d&m1&E1&E2&E3&E4); [lia|assumption| |].
    { apply (proj1 HT); first [exact I | assumption]. }
    exists d, m1. split; [cbn; rewrite E; exact E1|]. split; [exact E2|]. split; [|exact E4].
    destruct E3 as [-> | E3]; auto.
  - exists 1%nat. intros fuel m0 l Hf HT E. destruct fuel as [|k]; [lia|].
    destruct HT as (T1&T2&T3&T4).
    exists (LElem id s), (wr m0 LTemp2 (VInt (rdi pbits m0 LTemp2))).
    split.
    { cbn [deref]. rewrite E. cbv zeta. rewrite wr_other by (apply visible_notmp; exact Hv).
      rewrite T1 by (exact I || assumption). rewrite Hr. rewrite T2, Ho.
      destruct (Nat.ltb_spec s n); [reflexivity|lia]. }
    split. { rewrite wr_other by congruence. rewrite T1 by (exact I || assumption). exact He. }
    split. { right; right; exact I. }
    apply t2_wr.
  - exists 1%nat. intros fuel m0 l Hf HT E. destruct fuel as [|k]; [lia|].
    destruct HT as (T1&T2&T3&T4).
    eexists LTemp2, _.
    split.
    { cbn [deref]. rewrite E. cbv zeta. rewrite wr_other by (apply visible_notmp; exact Hv).
      rewrite T1 by (exact I || assumption). rewrite Hr. rewrite T2, Ho, Hs. reflexivity. }
    split. { rewrite wr_same. cbn. f_equal. now apply u8_byte. }
    split. { auto. }
    eapply t2_trans; apply t2_wr.
  - exists 1%nat. intros fuel m0 l Hf HT E. destruct fuel as [|k]; [lia|].
    destruct HT as (T1&T2&T3&T4).
    eexists LTemp2, _.
    split.
    { cbn [deref]. rewrite E. cbv zeta. rewrite wr_other by (apply visible_notmp; exact Hv).
      rewrite T1 by (exact I || assumption). rewrite Hr. reflexivity. }
    split. { rewrite wr_same. cbn [of_number]. destruct (Nat.ltb_spec s n); [|lia]. f_equal. rewrite T3. now apply u8_byte. }
    split. { auto. }
    eapply t2_trans; apply t2_wr.
  - destruct IH as [k IH]. exists (S k). intros fuel m0 l0 Hf HT E.
    destruct fuel as [|f]; [lia|].
    destruct (IH f (wr m0 LTemp2 (VInt (rdi pbits m0 LTemp2))) (LElem id s)) as (d&m1&E1&E2&E3&E4); [lia| | |].
    { eapply vis_trans; [exact HT|apply tmp_vis, tmp_same_wr2]. }
    { rewrite wr_other by congruence. apply (proj1 HT); first [exact I | assumption]. }
    exists d, m1. split.
    { cbn [deref]. rewrite E. cbv zeta. destruct HT as (T1&T2&T3&T4). rewrite T2, Ho.
      destruct (Nat.ltb_spec s n); [exact E1|lia]. }
    split; [exact E2|]. split.
    { destruct E3 as [-> | E3]; [right; right; exact I|auto]. }
    eapply t2_trans; [apply t2_wr|exact E4].
Qed.

Lemma single_ok m v x : denotes m v x ->
  exists k, forall fuel m0 l, (k <= fuel)%nat -> vis_same m m0 -> mv m0 l = v ->
    exists m1, single_value pbits obj_hash fuel l m0 = Ok m1 /\ mv m1 LTemp1 = of_number x /\ tmp_same m0 m1.
Proof.
  intros Hd. destruct (deref_ok m v x Hd) as [k Hk]. exists k. intros fuel m0 l Hf HT E.
  destruct (Hk fuel m0 l Hf HT E) as (d&m1&E1&E2&E3&E4).
  exists (wr m1 LTemp1 (mv m1 d)). unfold single_value. rewrite E1. cbn [bind].
  rewrite wr_same, E2. split.
  { destruct x; reflexivity. }
  split; [reflexivity|].
  eapply tmp_same_trans; [apply t2_tmp, E4|rewrite <- E2; apply tmp_same_wr1].
Qed.

Definition numeric_result (m m' : mem) (target : loc) (z : value) : Prop :=
  mv m' target = z /\ unchanged_except [target] m m'.

Lemma numeric_result_intro m m1 target z :
  tmp_same m m1 -> numeric_result m (wr m1 target z) target z.
Proof.
  intros (A&B&C&D). split; [apply wr_same|]. split; [|cbn; auto].
  intros l Hv Hn. rewrite wr_other by (intros ->; apply Hn; left; reflexivity).
  apply A; auto with ops.
Qed.
Lemma tmp_auto m m1 n v : tmp_same m m1 -> forall l, visible l -> mv (wr m1 (LAuto n) v) l = mv m l.
Proof. intros H l Hv. rewrite wr_other by (destruct l; cbn in Hv; try tauto; congruence). apply H; auto with ops. Qed.
Lemma numeric_result_vis m m1 target z :
  vis_same m m1 -> numeric_result m (wr m1 target z) target z.
Proof.
  intros (A&B&C&D). split; [apply wr_same|]. split; [|cbn; auto].
  intros l Hv Hn. rewrite wr_other by (intros ->; apply Hn; left; reflexivity).
  apply A; auto.
Qed.

(* denotes is insensitive to scratch storage *)
Lemma denotes_vis m m1 v x : vis_same m m1 -> denotes m v x -> denotes m1 v x.
Proof.
  intros (A&B&C&D). induction 1.
  - now constructor.
  - constructor; auto. now rewrite A.
  - econstructor; eauto; try rewrite A; try rewrite B; eauto. exact I.
  - eapply D_char; eauto; try rewrite A; try rewrite B; eauto.
  - replace (mraw m b s) with (mraw m1 b s) by (rewrite C; reflexivity).
    eapply D_raw; eauto; try rewrite A; eauto. now rewrite C.
  - econstructor; eauto; try rewrite B; eauto. rewrite A; auto. exact I.
Qed.

(* ---- a generic argument for a two-operand table ---- *)
(* a table function T (fuel t f to from m) that follows references and resolves members into
   numbers by scalar leaf results *)
Section Table2.
Variable R : Type.
Variable T : nat -> vtype -> vtype -> loc -> loc -> mem -> res R.
Variables (x y : number).
Variable good : mem -> R -> Prop.
(* the leaf: both operands are numbers *)
Variable m : mem.
Variable PL : Prop.
Hypothesis leaf_ok : PL -> forall n to from m1, vis_same m m1 ->
  mv m1 to = of_number x -> mv m1 from = of_number y ->
  exists r, T (S n) (type_of (of_number x)) (type_of (of_number y)) to from m1 = Ok r /\ good m r.
Hypothesis ref_l : forall n f to from r, mv m to = VRef r -> f <> TR -> (f = TE \/ f = type_of (of_number y)) ->
  T (S n) TR f to from m = T n (type_of (mv m r)) f r from m.
Hypothesis ref_lr : forall n to from r q, mv m to = VRef r -> mv m from = VRef q ->
  T (S n) TR TR to from m = T n (type_of (mv m r)) (type_of (mv m q)) r q m.
Hypothesis ref_r : forall n t to from q, mv m from = VRef q -> t <> TR -> t <> TE -> t = type_of (of_number x) ->
  T (S n) t TR to from m = T n t (type_of (mv m q)) to q m.
(* resolving members *)
Hypothesis ex_num : forall v, denotes m v x -> is_member v = true -> exists k, forall n to from, (k <= n)%nat ->
  mv m to = v -> visible from -> visible to -> mv m from = of_number y ->
  exists r, T n TE (type_of (of_number y)) to from m = Ok r /\ good m r.
Hypothesis num_ex : PL -> forall v, denotes m v y -> is_member v = true -> exists k, forall n to from, (k <= n)%nat ->
  mv m from = v -> visible to -> visible from -> mv m to = of_number x ->
  exists r, T n (type_of (of_number x)) TE to from m = Ok r /\ good m r.
Hypothesis ex_ex : forall v w, denotes m v x -> denotes m w y -> is_member v = true -> is_member w = true ->
  exists k, forall n to from, (k <= n)%nat ->
  mv m to = v -> mv m from = w -> visible to -> visible from ->
  exists r, T n TE TE to from m = Ok r /\ good m r.

Definition tbl_ok (vl vr : value) : Prop :=
  exists k, forall n to from, (k <= n)%nat -> visible to -> visible from -> mv m to = vl -> mv m from = vr ->
    exists r, T n (type_of vl) (type_of vr) to from m = Ok r /\ good m r.

Lemma member_type v : is_member v = true -> type_of v = TE.
Proof. destruct v; cbn; congruence. Qed.

Definition ex_ref_ok : Prop := forall n to from q, mv m from = VRef q -> is_member (mv m to) = true ->
  visible to -> T (S n) TE TR to from m = T n TE (type_of (mv m q)) to q m.

(* [behind] with every variable on the way visible *)
Inductive vbehind : value -> nat -> value -> Prop :=
| VB_here v : type_of v <> TR -> vbehind v 0 v
| VB_ref l k w : visible l -> vbehind (mv m l) k w -> vbehind (VRef l) (S k) w.

Lemma base wl wr : (is_member wl = false -> PL) -> denotes m wl x -> denotes m wr y ->
  (wl = of_number x \/ is_member wl = true) -> (wr = of_number y \/ is_member wr = true) -> tbl_ok wl wr.
Proof.
  intros HP Dl Dr [-> | Wl] [-> | Wr].
  - exists 1%nat. intros n to from Hn Vt Vf Et Ef. destruct n; [lia|]. apply leaf_ok; auto using vis_refl. apply HP; destruct x; reflexivity.
  - destruct (num_ex ltac:(apply HP; destruct x; reflexivity) wr Dr Wr) as [k Hk]. exists k. intros. rewrite (member_type _ Wr). auto.
  - destruct (ex_num wl Dl Wl) as [k Hk]. exists k. intros. rewrite (member_type _ Wl). auto.
  - destruct (ex_ex wl wr Dl Dr Wl Wr) as [k Hk]. exists k. intros.
    rewrite (member_type _ Wr), (member_type _ Wl). auto.
Qed.

(* a denotation is a number, a reference or a member *)
Lemma denotes_cases v z : denotes m v z ->
  v = of_number z \/ is_member v = true \/ exists l, v = VRef l /\ visible l /\ denotes m (mv m l) z.
Proof.
  destruct 1; cbn [is_member]; auto. right; right. eauto.
Qed.

Lemma denotes_chain v z : denotes m v z ->
  exists k w, vbehind v k w /\ denotes m w z /\ (w = of_number z \/ is_member w = true).
Proof.
  induction 1 as [x0 Hok|l x0 Hv Hd IH|r s id n x0 Hv Hr Ho Hs He Hok|r s id bs nc c Hv Hr Ho Hs Hc
                 |r s b n Hv Hr Hs Hc|id s n x0 Ho Hs Hd IH].
  - exists 0%nat, (of_number x0). repeat split; auto; [constructor; destruct x0; cbn; congruence|constructor; auto].
  - destruct IH as (k&w&A&B&C). exists (S k), w. repeat split; auto. constructor; auto.
  - exists 0%nat, (VMem r s). repeat split; [constructor; cbn; congruence|econstructor; eauto|auto].
  - exists 0%nat, (VMem r s). repeat split; [constructor; cbn; congruence|eapply D_char; eauto|auto].
  - exists 0%nat, (VMem r s). repeat split; [constructor; cbn; congruence|eapply D_raw; eauto|auto].
  - exists 0%nat, (VHMem id s). repeat split; [constructor; cbn; congruence|econstructor; eauto|auto].
Qed.

Lemma table2_chain wl wr : (is_member wl = false -> PL) ->
  denotes m wl x -> denotes m wr y ->
  (wl = of_number x \/ is_member wl = true) -> (wr = of_number y \/ is_member wr = true) ->
  forall N j k vl vr, (j + k <= N)%nat -> vbehind vl j wl -> vbehind vr k wr ->
  ((is_member wl = true /\ (j < k)%nat) -> ex_ref_ok) ->
  tbl_ok vl vr.
Proof.
  intros HP Dl Dr Wl Wr. induction N as [|N IH]; intros j k vl vr HN Hl Hr Hbad.
  - inversion Hl; [|lia]. inversion Hr; [|lia]. subst. apply base; auto.
  - inversion Hl as [v1 T1|l1 j1 w1 V1 B1]; subst.
    + inversion Hr as [v2 T2|l2 k2 w2 V2 B2]; subst; [apply base; auto|].
      destruct (IH 0%nat k2 wl (mv m l2)) as [K HK]; [lia|assumption|assumption| |].
      { intros [A B]; apply Hbad; split; [auto|lia]. }
      exists (S K). intros n to from Hn Vt Vf Et Ef. destruct n as [|n]; [lia|].
      destruct Wl as [-> | Wl].
      * rewrite (ref_r n _ to from l2 Ef); [|destruct x; cbn; congruence|destruct x; cbn; congruence|reflexivity].
        apply HK; auto; lia.
      * change (type_of (VRef l2)) with TR. rewrite (member_type _ Wl).
        rewrite (Hbad ltac:(split; [auto|lia]) n to from l2 Ef); [|now rewrite Et|assumption].
        rewrite <- (member_type _ Wl). apply HK; auto; lia.
    + inversion Hr as [v2 T2|l2 k2 w2 V2 B2]; subst.
      * destruct (IH j1 0%nat (mv m l1) wr) as [K HK]; [lia|assumption|assumption|intros; lia|].
        exists (S K). intros n to from Hn Vt Vf Et Ef. destruct n as [|n]; [lia|].
        change (type_of (VRef l1)) with TR. rewrite (ref_l n _ to from l1 Et T2) by (destruct Wr as [-> | Wr]; [right; reflexivity|left; now apply member_type]).
        apply HK; auto; lia.
      * destruct (IH j1 k2 (mv m l1) (mv m l2)) as [K HK]; [lia|assumption|assumption| |].
        { intros [A B]; apply Hbad; split; [auto|lia]. }
        exists (S K). intros n to from Hn Vt Vf Et Ef. destruct n as [|n]; [lia|].
        change (type_of (VRef l1)) with TR. change (type_of (VRef l2)) with TR.
        rewrite (ref_lr n to from l1 l2 Et Ef). apply HK; auto; lia.
Qed.
End Table2.

Definition ofn := of_number.
Lemma bits_number x : bits pbits (of_number x) = match x with NI n => u32 n | NF b => b end.
Proof. destruct x; reflexivity. Qed.

Lemma concat_none m to from target :
  (mv m to = of_number (NI 0) -> True) ->
  char_array m (mv m to) = None -> char_array m (mv m from) = None -> concat_check as_string m to from target = None.
Proof. intros _ A B. unfold concat_check. now rewrite A, B. Qed.
Lemma char_array_number m x : char_array m (of_number x) = None.
Proof. destruct x; reflexivity. Qed.
Lemma char_array_member m v : is_member v = true -> char_array m v = None.
Proof. destruct v; cbn; congruence. Qed.

Ltac two_leaf n := destruct n as [|n]; [lia|].

Section Arith.
Variables (o : arith) (x y : number) (z : value) (m : mem) (target : loc).
Hypothesis Hleaf : leaf trap o (type_of (of_number x)) (type_of (of_number y)) (bits pbits (of_number x)) (bits pbits (of_number y)) = Some z.

Lemma arith_leaf n to from m1 : vis_same m m1 -> mv m1 to = of_number x -> mv m1 from = of_number y ->
  exists r, arith_binary pbits obj_hash trap o (S n) (type_of (of_number x)) (type_of (of_number y)) to from target m1 = Ok r /\ numeric_result m r target z.
Proof.
  intros V Et Ef. exists (wr m1 target z). split; [|now apply numeric_result_vis].
  cbn [arith_binary]. unfold rdi. rewrite Et, Ef, Hleaf. destruct x, y; reflexivity.
Qed.

Lemma arith_table vl vr : denotes m vl x -> denotes m vr y ->
  exists k, forall n to from, (k <= n)%nat -> visible to -> visible from -> mv m to = vl -> mv m from = vr ->
    exists r, arith_binary pbits obj_hash trap o n (type_of vl) (type_of vr) to from target m = Ok r /\ numeric_result m r target z.
Proof.
  intros Dl Dr.
  destruct (denotes_chain m _ _ Dl) as (j&wl&Bl&Dl'&Wl).
  destruct (denotes_chain m _ _ Dr) as (k&wr'&Br&Dr'&Wr).
  refine (table2_chain mem (fun n t f to from m => arith_binary pbits obj_hash trap o n t f to from target m)
    x y (fun m r => numeric_result m r target z) m True _ _ _ _ _ _ _ wl wr' (fun _ => I) Dl' Dr' Wl Wr (j + k) j k vl vr (le_n _) Bl Br _).
  - intros _. intros. apply arith_leaf; auto.
  - intros n f to from r E Hf Hf2. cbn [arith_binary]. rewrite E. destruct f; congruence.
  - intros n to from r q E E2. cbn [arith_binary]. now rewrite E, E2.
  - intros n t to from q E H1 H2 H3. destruct t; try congruence; cbn [arith_binary]; now rewrite E.
  - intros v Dv Mv. destruct (single_ok m v x Dv) as [k0 K]. exists (S (S k0)).
    intros n to from Hn Et Vf Vt Ef. two_leaf n.
    destruct (K n m to) as (m1&E1&E2&E3); [lia|apply vis_refl|auto|].
    destruct n as [|n]; [lia|].
    destruct (arith_leaf n LTemp1 from m1) as (r&Er&Gr); [now apply tmp_vis|auto| |].
    { rewrite (proj1 E3); auto with ops. }
    exists r. split; [|exact Gr].
    rewrite <- Er, <- E2. destruct y; cbn [of_number type_of]; simpl arith_binary at 1; rewrite E1; reflexivity.
  - intros Hw v Dv Mv. destruct (single_ok m v y Dv) as [k0 K]. exists (S (S k0)).
    intros n to from Hn Ef Vt Vf Et. two_leaf n.
    destruct (K n m from) as (m1&E1&E2&E3); [lia|apply vis_refl|auto|].
    destruct n as [|n]; [lia|].
    destruct (arith_leaf n to LTemp1 m1) as (r&Er&Gr); [now apply tmp_vis| |auto|].
    { rewrite (proj1 E3); auto with ops. }
    exists r. split; [|exact Gr].
    rewrite <- Er, <- E2. destruct x; cbn [of_number type_of]; simpl arith_binary at 1; rewrite E1; reflexivity.
  - intros v w Dv Dw Mv Mw. destruct (single_ok m v x Dv) as [k1 K1]. destruct (single_ok m w y Dw) as [k2 K2].
    exists (S (S (k1 + k2))). intros n to from Hn Et Ef Vt Vf. two_leaf n.
    destruct (K1 n m to) as (m1&E1&E2&E3); [lia|apply vis_refl|auto|].
    set (m1' := wr m1 (LAuto 0) (mv m1 LTemp1)).
    assert (V1: vis_same m m1') by (eapply vis_trans; [apply tmp_vis, E3|apply vis_auto]).
    destruct (K2 n m1' from) as (m2&F1&F2&F3); [lia|exact V1| |].
    { rewrite (proj1 V1); auto. }
    destruct n as [|n]; [lia|].
    assert (A2: mv m2 (LAuto 0) = of_number x).
    { rewrite (proj1 F3) by auto with ops. unfold m1'. now rewrite wr_same. }
    destruct (arith_leaf n (LAuto 0) LTemp1 m2) as (r&Er&Gr); auto.
    { eapply vis_trans; [exact V1|now apply tmp_vis]. }
    exists r. split; [|exact Gr].
    rewrite <- Er, <- A2, <- F2. simpl arith_binary at 1. rewrite E1. cbn [bind]. fold m1'. rewrite F1. reflexivity.
  - intros _ n to from q E Hm Vt. cbn [arith_binary]. now rewrite E.
Qed.
End Arith.
Section Add.
Variables (x y z : number) (m : mem) (target : loc).
Hypothesis Hleaf : leaf trap add_op (type_of (of_number x)) (type_of (of_number y)) (bits pbits (of_number x)) (bits pbits (of_number y)) = Some (of_number z).

Lemma add_leaf n to from m1 : vis_same m m1 -> mv m1 to = of_number x -> mv m1 from = of_number y ->
  exists r, add_binary pbits obj_hash as_string trap (S n) (type_of (of_number x)) (type_of (of_number y)) to from target m1 = Ok r /\ numeric_result m r target (of_number z).
Proof.
  intros V Et Ef. exists (wr m1 target (of_number z)). split; [|now apply numeric_result_vis].
  cbn [add_binary]. unfold rdi. rewrite Et, Ef, Hleaf. destruct x, y; reflexivity.
Qed.

Lemma add_table vl vr : denotes m vl x -> denotes m vr y ->
  exists k, forall n to from, (k <= n)%nat -> visible to -> visible from -> mv m to = vl -> mv m from = vr ->
    exists r, add_binary pbits obj_hash as_string trap n (type_of vl) (type_of vr) to from target m = Ok r /\ numeric_result m r target (of_number z).
Proof.
  intros Dl Dr.
  destruct (denotes_chain m _ _ Dl) as (j&wl&Bl&Dl'&Wl).
  destruct (denotes_chain m _ _ Dr) as (k&wr'&Br&Dr'&Wr).
  refine (table2_chain mem (fun n t f to from m => add_binary pbits obj_hash as_string trap n t f to from target m)
    x y (fun m r => numeric_result m r target (of_number z)) m True _ _ _ _ _ _ _ wl wr' (fun _ => I) Dl' Dr' Wl Wr (j + k) j k vl vr (le_n _) Bl Br _).
  - intros _. intros. apply add_leaf; auto.
  - intros n f to from r E Hf Hf2. cbn [add_binary]. rewrite E. destruct f; congruence.
  - intros n to from r q E E2. cbn [add_binary]. now rewrite E, E2.
  - intros n t to from q E H1 H2 H3. destruct t; try congruence; cbn [add_binary]; now rewrite E.
  - intros v Dv Mv. destruct (single_ok m v x Dv) as [k0 K]. exists (S (S k0)).
    intros n to from Hn Et Vf Vt Ef. two_leaf n.
    destruct (K n m to) as (m1&E1&E2&E3); [lia|apply vis_refl|auto|].
    destruct n as [|n]; [lia|].
    destruct (add_leaf n LTemp1 from m1) as (r&Er&Gr); [now apply tmp_vis|auto| |].
    { rewrite (proj1 E3); auto with ops. }
    exists r. split; [|exact Gr].
    rewrite <- Er, <- E2. pose proof (char_array_member m v Mv) as C1. destruct y; cbn [of_number type_of] in *; simpl add_binary at 1; unfold concat_check; rewrite ?Et, ?Ef, ?C1; cbn [char_array]; rewrite E1; reflexivity.
  - intros Hw v Dv Mv. destruct (single_ok m v y Dv) as [k0 K]. exists (S (S k0)).
    intros n to from Hn Ef Vt Vf Et. two_leaf n.
    destruct (K n m from) as (m1&E1&E2&E3); [lia|apply vis_refl|auto|].
    destruct n as [|n]; [lia|].
    destruct (add_leaf n to LTemp1 m1) as (r&Er&Gr); [now apply tmp_vis| |auto|].
    { rewrite (proj1 E3); auto with ops. }
    exists r. split; [|exact Gr].
    rewrite <- Er, <- E2. pose proof (char_array_member m v Mv) as C1. destruct x; cbn [of_number type_of] in *; simpl add_binary at 1; unfold concat_check; rewrite ?Et, ?Ef, ?C1; cbn [char_array]; rewrite E1; reflexivity.
  - intros v w Dv Dw Mv Mw. destruct (deref_ok m v x Dv) as [k1 K1]. destruct (deref_ok m w y Dw) as [k2 K2].
    exists (S (S (k1 + k2))). intros n to from Hn Et Ef Vt Vf. two_leaf n.
    destruct (K1 n m to) as (d1&m1&E1&E2&_&E3); [lia|apply vis_refl|auto|].
    set (m1' := wr m1 (LAuto 0) (mv m1 d1)).
    assert (V1: vis_same m m1') by (eapply vis_trans; [apply tmp_vis, t2_tmp, E3|apply vis_auto]).
    destruct (K2 n m1' from) as (d2&m2&F1&F2&_&F3); [lia|exact V1| |].
    { rewrite (proj1 V1); auto. }
    destruct n as [|n]; [lia|].
    assert (A2: mv m2 (LAuto 0) = of_number x).
    { rewrite (proj1 F3) by congruence. unfold m1'. now rewrite wr_same. }
    destruct (add_leaf n (LAuto 0) d2 m2) as (r&Er&Gr); auto.
    { eapply vis_trans; [exact V1|now apply tmp_vis, t2_tmp]. }
    exists r. split; [|exact Gr].
    remember (S n) as N eqn:EN. cbn [add_binary]. rewrite Et, Mv. cbn [orb]. rewrite E1. cbn [bind]. fold m1'. rewrite F1. cbn [bind]. rewrite A2, F2. exact Er.
  - intros _ n to from q E Hm Vt. cbn [add_binary]. now rewrite E.
Qed.
End Add.

Section CBin.
Variables (kp : callpair) (x y z : number) (m : mem) (target : loc).
Hypothesis Hleaf : c_leaf kp (type_of (of_number x)) (type_of (of_number y)) (bits pbits (of_number x)) (bits pbits (of_number y)) = Some (of_number z).

Lemma cbin_leaf n to from m1 : vis_same m m1 -> mv m1 to = of_number x -> mv m1 from = of_number y ->
  exists r, c_binary pbits obj_hash as_string kp (S n) (type_of (of_number x)) (type_of (of_number y)) to from target m1 = Ok r /\ numeric_result m r target (of_number z).
Proof.
  intros V Et Ef. exists (wr m1 target (of_number z)). split; [|now apply numeric_result_vis].
  cbn [c_binary]. unfold rdi. rewrite Et, Ef, Hleaf. destruct x, y; reflexivity.
Qed.

Lemma cbin_table vl vr : denotes m vl x -> denotes m vr y ->
  exists k, forall n to from, (k <= n)%nat -> visible to -> visible from -> mv m to = vl -> mv m from = vr ->
    exists r, c_binary pbits obj_hash as_string kp n (type_of vl) (type_of vr) to from target m = Ok r /\ numeric_result m r target (of_number z).
Proof.
  intros Dl Dr.
  destruct (denotes_chain m _ _ Dl) as (j&wl&Bl&Dl'&Wl).
  destruct (denotes_chain m _ _ Dr) as (k&wr'&Br&Dr'&Wr).
  refine (table2_chain mem (fun n t f to from m => c_binary pbits obj_hash as_string kp n t f to from target m)
    x y (fun m r => numeric_result m r target (of_number z)) m True _ _ _ _ _ _ _ wl wr' (fun _ => I) Dl' Dr' Wl Wr (j + k) j k vl vr (le_n _) Bl Br _).
  - intros _. intros. apply cbin_leaf; auto.
  - intros n f to from r E Hf Hf2. cbn [c_binary]. rewrite E. destruct f; congruence.
  - intros n to from r q E E2. cbn [c_binary]. now rewrite E, E2.
  - intros n t to from q E H1 H2 H3. destruct t; try congruence; cbn [c_binary]; now rewrite E.
  - intros v Dv Mv. destruct (single_ok m v x Dv) as [k0 K]. exists (S (S k0)).
    intros n to from Hn Et Vf Vt Ef. two_leaf n.
    destruct (K n m to) as (m1&E1&E2&E3); [lia|apply vis_refl|auto|].
    destruct n as [|n]; [lia|].
    destruct (cbin_leaf n LTemp1 from m1) as (r&Er&Gr); [now apply tmp_vis|auto| |].
    { rewrite (proj1 E3); auto with ops. }
    exists r. split; [|exact Gr].
    pose proof (char_array_member m v Mv) as C1.
    assert (CC: (if k_add kp then concat_check as_string m to from target else None) = None).
    { destruct (k_add kp); [|reflexivity]. unfold concat_check. rewrite Et, Ef, ?C1, ?char_array_number. reflexivity. }
    assert (TF1: type_of (mv m1 from) = type_of (of_number y)) by (rewrite (proj1 E3), Ef; auto with ops).
    remember (S n) as N eqn:EN. rewrite <- Er. destruct y; cbn [of_number type_of] in *; cbn [c_binary]; rewrite CC, E1; cbn [bind]; rewrite TF1, E2; reflexivity.
  - intros Hw v Dv Mv. destruct (single_ok m v y Dv) as [k0 K]. exists (S (S k0)).
    intros n to from Hn Ef Vt Vf Et. two_leaf n.
    destruct (K n m from) as (m1&E1&E2&E3); [lia|apply vis_refl|auto|].
    destruct n as [|n]; [lia|].
    destruct (cbin_leaf n to LTemp1 m1) as (r&Er&Gr); [now apply tmp_vis| |auto|].
    { rewrite (proj1 E3); auto with ops. }
    exists r. split; [|exact Gr].
    pose proof (char_array_member m v Mv) as C1.
    assert (CC: (if k_add kp then concat_check as_string m to from target else None) = None).
    { destruct (k_add kp); [|reflexivity]. unfold concat_check. rewrite Et, Ef, ?C1, ?char_array_number. reflexivity. }
    assert (TF1: type_of (mv m1 to) = type_of (of_number x)) by (rewrite (proj1 E3), Et; auto with ops).
    remember (S n) as N eqn:EN. rewrite <- Er. destruct x; cbn [of_number type_of] in *; cbn [c_binary]; rewrite CC, E1; cbn [bind]; rewrite TF1, E2; reflexivity.
  - intros v w Dv Dw Mv Mw. destruct (deref_ok m v x Dv) as [k1 K1]. destruct (deref_ok m w y Dw) as [k2 K2].
    exists (S (S (k1 + k2))). intros n to from Hn Et Ef Vt Vf. two_leaf n.
    destruct (K1 n m to) as (d1&m1&E1&E2&_&E3); [lia|apply vis_refl|auto|].
    set (m1' := wr m1 (LAuto 0) (mv m1 d1)).
    assert (V1: vis_same m m1') by (eapply vis_trans; [apply tmp_vis, t2_tmp, E3|apply vis_auto]).
    destruct (K2 n m1' from) as (d2&m2&F1&F2&_&F3); [lia|exact V1| |].
    { rewrite (proj1 V1); auto. }
    destruct n as [|n]; [lia|].
    assert (A2: mv m2 (LAuto 0) = of_number x).
    { rewrite (proj1 F3) by congruence. unfold m1'. now rewrite wr_same. }
    destruct (cbin_leaf n (LAuto 0) d2 m2) as (r&Er&Gr); auto.
    { eapply vis_trans; [exact V1|now apply tmp_vis, t2_tmp]. }
    exists r. split; [|exact Gr].
    remember (S n) as N eqn:EN. cbn [c_binary]. rewrite Et, Mv. cbn [orb]. rewrite E1. cbn [bind]. fold m1'. rewrite F1. cbn [bind]. rewrite A2, F2. exact Er.
  - intros _ n to from q E Hm Vt. cbn [c_binary]. now rewrite E.
Qed.
End CBin.

Lemma vbehind_behind m v k w : vbehind m v k w -> behind m v k w.
Proof. induction 1; constructor; auto. Qed.
Section IntBin.
Variables (op : Z -> Z -> option Z) (a b c : Z) (m : mem) (target : loc).
Let x := NI a. Let y := NI b. Let z := NI c.
Hypothesis Hleaf : op (u32 a) (u32 b) = Some (u32 c).

Lemma int_leaf n to from m1 : vis_same m m1 -> mv m1 to = of_number x -> mv m1 from = of_number y ->
  exists r, int_binary pbits obj_hash op (S n) (type_of (of_number x)) (type_of (of_number y)) to from target m1 = Ok r /\ numeric_result m r target (of_number z).
Proof.
  intros V Et Ef. exists (wr m1 target (of_number z)). split; [|now apply numeric_result_vis].
  cbn [int_binary]. unfold rdi. rewrite Et, Ef. cbn [bits x y of_number]. rewrite Hleaf. reflexivity.
Qed.

Lemma int_table vl vr : denotes m vl x -> denotes m vr y -> ~ element_op_variable m vl vr ->
  exists k, forall n to from, (k <= n)%nat -> visible to -> visible from -> mv m to = vl -> mv m from = vr ->
    exists r, int_binary pbits obj_hash op n (type_of vl) (type_of vr) to from target m = Ok r /\ numeric_result m r target (of_number z).
Proof.
  intros Dl Dr Hbad.
  destruct (denotes_chain m _ _ Dl) as (j&wl&Bl&Dl'&Wl).
  destruct (denotes_chain m _ _ Dr) as (k&wr'&Br&Dr'&Wr).
  refine (table2_chain mem (fun n t f to from m => int_binary pbits obj_hash op n t f to from target m)
    x y (fun m r => numeric_result m r target (of_number z)) m True _ _ _ _ _ _ _ wl wr' (fun _ => I) Dl' Dr' Wl Wr (j + k) j k vl vr (le_n _) Bl Br _).
  - intros _. intros. apply int_leaf; auto.
  - intros n f to from r E Hf Hf2. cbn [int_binary]. rewrite E. destruct Hf2 as [-> | ->]; reflexivity.
  - intros n to from r q E E2. cbn [int_binary]. now rewrite E, E2.
  - intros n t to from q E H1 H2 H3. subst t; cbn [int_binary]; cbn [of_number x type_of]; now rewrite E.
  - intros v Dv Mv. destruct (single_ok m v x Dv) as [k0 K]. exists (S (S k0)).
    intros n to from Hn Et Vf Vt Ef. two_leaf n.
    destruct (K n m to) as (m1&E1&E2&E3); [lia|apply vis_refl|auto|].
    destruct n as [|n]; [lia|].
    destruct (int_leaf n LTemp1 from m1) as (r&Er&Gr); [now apply tmp_vis|auto| |].
    { rewrite (proj1 E3); auto with ops. }
    exists r. split; [|exact Gr].
    rewrite <- Er, <- E2. cbn [y of_number type_of]; simpl int_binary at 1; rewrite E1; reflexivity.
  - intros Hw v Dv Mv. destruct (single_ok m v y Dv) as [k0 K]. exists (S (S k0)).
    intros n to from Hn Ef Vt Vf Et. two_leaf n.
    destruct (K n m from) as (m1&E1&E2&E3); [lia|apply vis_refl|auto|].
    destruct n as [|n]; [lia|].
    destruct (int_leaf n to LTemp1 m1) as (r&Er&Gr); [now apply tmp_vis| |auto|].
    { rewrite (proj1 E3); auto with ops. }
    exists r. split; [|exact Gr].
    rewrite <- Er, <- E2. cbn [x of_number type_of]; simpl int_binary at 1; rewrite E1; reflexivity.
  - intros v w Dv Dw Mv Mw. destruct (single_ok m v x Dv) as [k1 K1]. destruct (single_ok m w y Dw) as [k2 K2].
    exists (S (S (k1 + k2))). intros n to from Hn Et Ef Vt Vf. two_leaf n.
    destruct (K1 n m to) as (m1&E1&E2&E3); [lia|apply vis_refl|auto|].
    set (m1' := wr m1 (LAuto 0) (mv m1 LTemp1)).
    assert (V1: vis_same m m1') by (eapply vis_trans; [apply tmp_vis, E3|apply vis_auto]).
    destruct (K2 n m1' from) as (m2&F1&F2&F3); [lia|exact V1| |].
    { rewrite (proj1 V1); auto. }
    destruct n as [|n]; [lia|].
    assert (A2: mv m2 (LAuto 0) = of_number x).
    { rewrite (proj1 F3) by auto with ops. unfold m1'. now rewrite wr_same. }
    destruct (int_leaf n (LAuto 0) LTemp1 m2) as (r&Er&Gr); auto.
    { eapply vis_trans; [exact V1|now apply tmp_vis]. }
    exists r. split; [|exact Gr].
    rewrite <- Er, <- A2, <- F2. simpl int_binary at 1. rewrite E1. cbn [bind]. fold m1'. rewrite F1. reflexivity.
  - intros [Mw Lt]. exfalso. apply Hbad. exists j, k, wl, wr'. repeat split; auto using vbehind_behind.
Qed.
End IntBin.

Lemma behind_fun m v k w : behind m v k w -> forall k' w', behind m v k' w' -> w = w'.
Proof. induction 1; intros k' w' H'; inversion H'; subst; auto; cbn in *; try congruence. eauto. Qed.

Section Cmp.
Variables (o : cmp) (x y : number) (m : mem).
Definition bres := match x, y with NI a, NI b => c_ii o (u32 a) (u32 b) | NI a, NF b => c_if o (u32 a) b | NF a, NI b => c_fi o a (u32 b) | NF a, NF b => c_ff o a b end.
Definition no_retag := c_retag o = false \/ is_NI x = false \/ is_NI y = true.

Lemma cmp_leaf n to from m1 : vis_same m m1 -> mv m1 to = of_number x -> mv m1 from = of_number y ->
  exists r, compare pbits obj_hash o (S n) (type_of (of_number x)) (type_of (of_number y)) to from m1 = Ok r /\ (fst r = bres /\ (no_retag \/ ~ visible to -> vis_same m (snd r))).
Proof.
  intros V Et Ef.
  assert (Q: no_retag \/ (exists a b, x = NI a /\ y = NF b /\ c_retag o = true)).
  { unfold no_retag. destruct x, y, (c_retag o); cbn; eauto 8. }
  destruct Q as [Q|(a&b&Ex&Ey&Er)].
  - exists (bres, m1). split; [|auto].
    cbn [compare]. unfold rdi, bres, no_retag in *. rewrite Et, Ef. destruct x as [a|a], y as [b|b]; cbn in *; try reflexivity.
    destruct Q as [-> | [H|H]]; try discriminate. rewrite ?Et, ?Ef. reflexivity.
  - assert (N: to <> from) by (intros ->; rewrite Et in Ef; destruct x, y; discriminate).
    exists (bres, wr m1 to (VFlt (rdi pbits m1 to))). split; [|split; [reflexivity|]].
    + rewrite Ex, Ey in *. cbn [compare of_number type_of]. unfold bres. rewrite Er. unfold rdi. rewrite wr_same, wr_other by auto.
      rewrite Et, Ef, Ex, Ey. reflexivity.
    + intros [H|H]. { unfold no_retag in H. rewrite Ex, Ey, Er in H. cbn in H. intuition discriminate. }
      eapply vis_trans; [exact V|]. repeat split. intros l Hl. cbn [snd]. rewrite wr_other; congruence.
Qed.

Lemma cmp_tbl vl vr : denotes m vl x -> denotes m vr y ->
  exists k, forall n to from, (k <= n)%nat -> visible to -> visible from -> mv m to = vl -> mv m from = vr ->
    exists r, compare pbits obj_hash o n (type_of vl) (type_of vr) to from m = Ok r /\ (fst r = bres /\ (no_retag \/ (exists k w, behind m vl k w /\ is_member w = true) -> vis_same m (snd r))).
Proof.
  intros Dl Dr.
  destruct (denotes_chain m _ _ Dl) as (j&wl&Bl&Dl'&Wl).
  destruct (denotes_chain m _ _ Dr) as (k&wr'&Br&Dr'&Wr).
  refine (table2_chain (bool * mem) (fun n t f to from m => compare pbits obj_hash o n t f to from m)
    x y (fun m (r : bool * mem) => (fst r = bres /\ (no_retag \/ (exists k w, behind m vl k w /\ is_member w = true) -> vis_same m (snd r)))) m
    (is_member wl = false) _ _ _ _ _ _ _ wl wr' (fun H => H) Dl' Dr' Wl Wr (j + k) j k vl vr (le_n _) Bl Br _).
  - intros Hw n to from m1 V Et Ef. destruct (cmp_leaf n to from m1 V Et Ef) as (r&Er&G1&G2).
    exists r. split; [exact Er|]. split; [exact G1|]. intros [Q|(k2&w2&B2&M2)]; [auto|].
    rewrite (behind_fun m vl k2 w2 B2 j wl) in M2 by now apply vbehind_behind. congruence.
  - intros n f to from r E Hf Hf2. cbn [compare]. rewrite E. destruct f; congruence.
  - intros n to from r q E E2. cbn [compare]. now rewrite E, E2.
  - intros n t to from q E H1 H2 H3. destruct t; try congruence; cbn [compare]; now rewrite E.
  - intros v Dv Mv. destruct (single_ok m v x Dv) as [k0 K]. exists (S (S k0)).
    intros n to from Hn Et Vf Vt Ef. two_leaf n.
    destruct (K n m to) as (m1&E1&E2&E3); [lia|apply vis_refl|auto|].
    destruct n as [|n]; [lia|].
    destruct (cmp_leaf n LTemp1 from m1) as (r&Er&G1&G2); [now apply tmp_vis|auto| |].
    { rewrite (proj1 E3); auto with ops. }
    exists r. split; [|split; [exact G1|intros _; apply G2; right; cbn; tauto]].
    rewrite <- Er, <- E2. destruct y; cbn [of_number type_of]; simpl compare at 1; rewrite E1; reflexivity.
  - intros Hw v Dv Mv. destruct (single_ok m v y Dv) as [k0 K]. exists (S (S k0)).
    intros n to from Hn Ef Vt Vf Et. two_leaf n.
    destruct (K n m from) as (m1&E1&E2&E3); [lia|apply vis_refl|auto|].
    destruct n as [|n]; [lia|].
    destruct (cmp_leaf n to LTemp1 m1) as (r&Er&G1&G2); [now apply tmp_vis| |auto|].
    { rewrite (proj1 E3); auto with ops. }
    exists r. split; [|split; [exact G1|intros [Q|(k2&w2&B2&M2)]; [auto|
    rewrite (behind_fun m vl k2 w2 B2 j wl) in M2 by (now apply vbehind_behind); congruence]]].
    rewrite <- Er, <- E2. destruct x; cbn [of_number type_of]; simpl compare at 1; rewrite E1; reflexivity.
  - intros v w Dv Dw Mv Mw. destruct (single_ok m v x Dv) as [k1 K1]. destruct (single_ok m w y Dw) as [k2 K2].
    exists (S (S (k1 + k2))). intros n to from Hn Et Ef Vt Vf. two_leaf n.
    destruct (K1 n m to) as (m1&E1&E2&E3); [lia|apply vis_refl|auto|].
    set (m1' := wr m1 (LAuto 0) (mv m1 LTemp1)).
    assert (V1: vis_same m m1') by (eapply vis_trans; [apply tmp_vis, E3|apply vis_auto]).
    destruct (K2 n m1' from) as (m2&F1&F2&F3); [lia|exact V1| |].
    { rewrite (proj1 V1); auto. }
    destruct n as [|n]; [lia|].
    assert (A2: mv m2 (LAuto 0) = of_number x).
    { rewrite (proj1 F3) by auto with ops. unfold m1'. now rewrite wr_same. }
    destruct (cmp_leaf n (LAuto 0) LTemp1 m2) as (r&Er&G1&G2); auto.
    { eapply vis_trans; [exact V1|now apply tmp_vis]. }
    exists r. split; [|split; [exact G1|intros _; apply G2; right; cbn; tauto]].
    rewrite <- Er, <- A2, <- F2. simpl compare at 1. rewrite E1. cbn [bind]. fold m1'. rewrite F1. reflexivity.
  - intros _ n to from q E Hm Vt. cbn [compare]. now rewrite E.
Qed.
End Cmp.

Section CCmp.
Variables (ic fc : Z -> Z -> bool) (x y : number) (m : mem).
Definition cbres := match x, y with NI a, NI b => ic (u32 a) (u32 b) | NI a, NF b => fc (f32_of_int (s32 (u32 a))) b | NF a, NI b => fc a (f32_of_int (s32 (u32 b))) | NF a, NF b => fc a b end.

Lemma ccmp_leaf n to from m1 : vis_same m m1 -> mv m1 to = of_number x -> mv m1 from = of_number y ->
  exists r, c_compare pbits obj_hash ic fc (S n) (type_of (of_number x)) (type_of (of_number y)) to from m1 = Ok r /\ (fst r = cbres /\ vis_same m (snd r)).
Proof.
  intros V Et Ef. exists (cbres, m1). split; [|auto].
  cbn [c_compare]. unfold rdi, cbres. rewrite Et, Ef. destruct x as [a|a], y as [b|b]; reflexivity.
Qed.

Lemma ccmp_table vl vr : denotes m vl x -> denotes m vr y ->
  exists k, forall n to from, (k <= n)%nat -> visible to -> visible from -> mv m to = vl -> mv m from = vr ->
    exists r, c_compare pbits obj_hash ic fc n (type_of vl) (type_of vr) to from m = Ok r /\ (fst r = cbres /\ vis_same m (snd r)).
Proof.
  intros Dl Dr.
  destruct (denotes_chain m _ _ Dl) as (j&wl&Bl&Dl'&Wl).
  destruct (denotes_chain m _ _ Dr) as (k&wr'&Br&Dr'&Wr).
  refine (table2_chain (bool * mem) (fun n t f to from m => c_compare pbits obj_hash ic fc n t f to from m)
    x y (fun m (r : bool * mem) => (fst r = cbres /\ vis_same m (snd r))) m True _ _ _ _ _ _ _ wl wr' (fun _ => I) Dl' Dr' Wl Wr (j + k) j k vl vr (le_n _) Bl Br _).
  - intros _. intros. apply ccmp_leaf; auto.
  - intros n f to from r E Hf Hf2. cbn [c_compare]. rewrite E. destruct f; congruence.
  - intros n to from r q E E2. cbn [c_compare]. now rewrite E, E2.
  - intros n t to from q E H1 H2 H3. destruct t; try congruence; cbn [c_compare]; now rewrite E.
  - intros v Dv Mv. destruct (single_ok m v x Dv) as [k0 K]. exists (S (S k0)).
    intros n to from Hn Et Vf Vt Ef. two_leaf n.
    destruct (K n m to) as (m1&E1&E2&E3); [lia|apply vis_refl|auto|].
    destruct n as [|n]; [lia|].
    destruct (ccmp_leaf n LTemp1 from m1) as (r&Er&Gr); [now apply tmp_vis|auto| |].
    { rewrite (proj1 E3); auto with ops. }
    exists r. split; [|exact Gr].
    rewrite <- Er, <- E2. destruct y; cbn [of_number type_of]; simpl c_compare at 1; rewrite E1; reflexivity.
  - intros Hw v Dv Mv. destruct (single_ok m v y Dv) as [k0 K]. exists (S (S k0)).
    intros n to from Hn Ef Vt Vf Et. two_leaf n.
    destruct (K n m from) as (m1&E1&E2&E3); [lia|apply vis_refl|auto|].
    destruct n as [|n]; [lia|].
    destruct (ccmp_leaf n to LTemp1 m1) as (r&Er&Gr); [now apply tmp_vis| |auto|].
    { rewrite (proj1 E3); auto with ops. }
    exists r. split; [|exact Gr].
    rewrite <- Er, <- E2. destruct x; cbn [of_number type_of]; simpl c_compare at 1; rewrite E1; reflexivity.
  - intros v w Dv Dw Mv Mw. destruct (single_ok m v x Dv) as [k1 K1]. destruct (single_ok m w y Dw) as [k2 K2].
    exists (S (S (k1 + k2))). intros n to from Hn Et Ef Vt Vf. two_leaf n.
    destruct (K1 n m to) as (m1&E1&E2&E3); [lia|apply vis_refl|auto|].
    set (m1' := wr m1 (LAuto 0) (mv m1 LTemp1)).
    assert (V1: vis_same m m1') by (eapply vis_trans; [apply tmp_vis, E3|apply vis_auto]).
    destruct (K2 n m1' from) as (m2&F1&F2&F3); [lia|exact V1| |].
    { rewrite (proj1 V1); auto. }
    destruct n as [|n]; [lia|].
    assert (A2: mv m2 (LAuto 0) = of_number x).
    { rewrite (proj1 F3) by auto with ops. unfold m1'. now rewrite wr_same. }
    destruct (ccmp_leaf n (LAuto 0) LTemp1 m2) as (r&Er&Gr); auto.
    { eapply vis_trans; [exact V1|now apply tmp_vis]. }
    exists r. split; [|exact Gr].
    rewrite <- Er, <- A2, <- F2. simpl c_compare at 1. rewrite E1. cbn [bind]. fold m1'. rewrite F1. reflexivity.
  - intros _ n to from q E Hm Vt. cbn [c_compare]. now rewrite E.
Qed.
End CCmp.

End P.
