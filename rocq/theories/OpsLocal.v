(* The operators look only at their operands and what these refer to: on two memories that differ
   only in the free part of the stack they do the same. *)
From Verif Require Import Base OpsModel VmModel VmSpec.

Lemma agree_refl sp m : agree sp m m.
Proof. constructor; auto. Qed.
Lemma agree_sym sp m m' : agree sp m m' -> agree sp m' m.
Proof. intros [A B C D]. constructor; intros; symmetry; auto. Qed.
Lemma agree_trans sp a b c : agree sp a b -> agree sp b c -> agree sp a c.
Proof.
  intros [A1 B1 C1 D1] [A2 B2 C2 D2].
  constructor; intros; [rewrite A1, A2| rewrite B1, B2 | rewrite C1, C2 | rewrite D1, D2]; auto.
Qed.
Lemma live_mono sp sp' l : (sp <= sp')%nat -> live sp l -> live sp' l.
Proof. destruct l; cbn; lia. Qed.
Lemma val_ok_mono sp sp' v : (sp <= sp')%nat -> val_ok sp v -> val_ok sp' v.
Proof. destruct v; cbn; eauto using live_mono. Qed.
Lemma agree_mono sp sp' m m' : (sp <= sp')%nat -> agree sp' m m' -> agree sp m m'.
Proof. intros L [A B C D]. constructor; auto. intros l H. apply A. eapply live_mono; eauto. Qed.
Lemma closed_agree sp m m' : agree sp m m' -> closed sp m -> closed sp m'.
Proof. intros [A _ _ _] C l H. rewrite <- A; auto. Qed.

Lemma wr_eq m l v : mv (wr m l v) l = v.
Proof. cbn. destruct (loc_eq_dec l l); congruence. Qed.
Lemma wr_ne m l v x : x <> l -> mv (wr m l v) x = mv m x.
Proof. cbn. destruct (loc_eq_dec x l); congruence. Qed.
Lemma agree_wr sp m m' l v : agree sp m m' -> agree sp (wr m l v) (wr m' l v).
Proof. intros [A B C D]. constructor; cbn; auto. intros x H. destruct (loc_eq_dec x l); auto. Qed.
(* a write to the free part *)
Lemma agree_wr_dead sp m m' l v : ~ live sp l -> agree sp m m' -> agree sp (wr m l v) m'.
Proof.
  intros N [A B C D]. constructor; cbn; auto. intros x H. destruct (loc_eq_dec x l); [subst; tauto|auto].
Qed.
Lemma closed_wr sp m l v : closed sp m -> val_ok sp v -> closed sp (wr m l v).
Proof. intros C V x H. cbn. destruct (loc_eq_dec x l); auto. Qed.
Lemma closed_wr_dead sp m l v : ~ live sp l -> closed sp m -> closed sp (wr m l v).
Proof. intros N C x H. cbn. destruct (loc_eq_dec x l); [subst; tauto|auto]. Qed.

Lemma live_dec sp l : live sp l \/ ~ live sp l.
Proof. destruct l; cbn; auto. destruct (Nat.lt_ge_cases n sp); [auto | right; lia]. Qed.

Lemma bind_rel {A A' B B'} (R : A -> A' -> Prop) (S : B -> B' -> Prop) x x' f f' :
  res_rel R x x' -> (forall a a', R a a' -> res_rel S (f a) (f' a')) -> res_rel S (bind x f) (bind x' f').
Proof. intros H K. destruct H; cbn; auto; constructor. Qed.

Lemma live_temp1 sp : live sp LTemp1. Proof. exact I. Qed.
Lemma live_temp2 sp : live sp LTemp2. Proof. exact I. Qed.
Lemma live_auto sp n : live sp (LAuto n). Proof. exact I. Qed.
Lemma live_elem sp i n : live sp (LElem i n). Proof. exact I. Qed.
Lemma live_global sp n : live sp (LGlobal n). Proof. exact I. Qed.
#[export] Hint Resolve live_temp1 live_temp2 live_auto live_elem live_global : live.

(* agreement on the live part, the free part of each memory being that of z, z' *)
Definition rmz (z z' : mem) (sp : nat) (m m' : mem) : Prop :=
  agree sp m m' /\ closed sp m /\ forall x, ~ live sp x -> mv m x = mv z x /\ mv m' x = mv z' x.

Section Local.
Variable pbits : value -> Z.
Variable obj_hash : mem -> value -> Z.
Variable as_string : mem -> value -> list Z.
Variable trap : bool.
Variable z z' : mem.
Notation rm := (rmz z z').

Definition rlm (sp : nat) (x x' : loc * mem) : Prop := fst x = fst x' /\ live sp (fst x) /\ rm sp (snd x) (snd x').
Definition rzm {A} (sp : nat) (x x' : A * mem) : Prop := fst x = fst x' /\ rm sp (snd x) (snd x').

Lemma rm_wr sp m m' l v : rm sp m m' -> live sp l -> val_ok sp v -> rm sp (wr m l v) (wr m' l v).
Proof.
  intros [A [C D]] L V. split; [now apply agree_wr | split; [now apply closed_wr|]].
  intros x N. rewrite !wr_ne by (intros ->; auto). auto.
Qed.
Lemma rm_mv sp m m' l : rm sp m m' -> live sp l -> mv m' l = mv m l.
Proof. intros [A _] H. symmetry. now apply (ag_mv _ _ _ A). Qed.
Lemma rm_val sp m m' l : rm sp m m' -> live sp l -> val_ok sp (mv m l).
Proof. intros [_ [C _]] H. auto. Qed.
Lemma rm_mo sp m m' i : rm sp m m' -> mo m' i = mo m i.
Proof. intros [A _]. symmetry. apply (ag_mo _ _ _ A). Qed.
Lemma rm_raw sp m m' b k : rm sp m m' -> mraw m' b k = mraw m b k.
Proof. intros [A _]. symmetry. apply (ag_raw _ _ _ A). Qed.
Lemma rm_next sp m m' : rm sp m m' -> mnext m' = mnext m.
Proof. intros [A _]. symmetry. apply (ag_next _ _ _ A). Qed.
Lemma rm_wr_obj sp m m' i o : rm sp m m' -> rm sp (wr_obj m i o) (wr_obj m' i o).
Proof.
  intros [[A B C D] E]. split; [constructor; cbn; auto|exact E].
  intros j. destruct (Nat.eq_dec j i); auto.
Qed.
Lemma rm_wr_raw sp m m' b k x : rm sp m m' -> rm sp (wr_raw m b k x) (wr_raw m' b k x).
Proof.
  intros [[A B C D] E]. split; [constructor; cbn; auto|exact E].
  intros b' k'. destruct (Nat.eq_dec b' b); [destruct (Nat.eq_dec k' k)|]; auto.
Qed.
Hint Resolve rm_wr rm_wr_obj rm_wr_raw rm_val : live.

(* rewrite every read of the second memory into a read of the first *)
Ltac sync :=
  repeat match goal with
  | H : rmz z z' ?sp ?m ?m' |- context[mv ?m' ?l] => rewrite (rm_mv sp m m' l H) by (auto with live)
  | H : rmz z z' ?sp ?m ?m' |- context[mo ?m' ?i] => rewrite (rm_mo sp m m' i H)
  | H : rmz z z' ?sp ?m ?m' |- context[mraw ?m' ?b ?k] => rewrite (rm_raw sp m m' b k H)
  | H : rmz z z' ?sp ?m ?m' |- context[mnext ?m'] => rewrite (rm_next sp m m' H)
  end.

Lemma rdi_sync sp m m' l : rm sp m m' -> live sp l -> rdi pbits m' l = rdi pbits m l.
Proof. intros. unfold rdi. now rewrite (rm_mv sp m m'). Qed.

Lemma deref_local sp : forall fuel l m m', live sp l -> rm sp m m' ->
  res_rel (rlm sp) (deref pbits fuel l m) (deref pbits fuel l m').
Proof.
  induction fuel; intros l m m' L H; cbn [deref]; [constructor|].
  sync. pose proof (rm_val _ _ _ l H L) as V. destruct (mv m l) eqn:E; cbn in V.
  all: try (constructor; split; [|split]; cbn; auto; fail).
  - now apply IHfuel.
  - set (w := VInt (rdi pbits m' LTemp2)). set (w0 := VInt (rdi pbits m LTemp2)).
    assert (w = w0) as -> by (unfold w, w0; f_equal; eapply rdi_sync; eauto with live).
    assert (H1 : rm sp (wr m LTemp2 w0) (wr m' LTemp2 w0)) by (apply rm_wr; [auto|auto with live|exact I]).
    rewrite (rm_mv _ _ _ l0 H1) by auto. sync.
    destruct (mv (wr m LTemp2 w0) l0); try (constructor; fail).
    + sync. destruct (mo m id) as [[n|bs nc|n|]|]; try (constructor; fail).
      * destruct (s <? n)%nat; constructor; split; cbn; auto with live.
      * destruct (nth_error bs s); constructor; split; cbn [fst snd]; auto with live.
        split; [exact I|]. apply rm_wr; [auto|auto with live|exact I].
    + sync. constructor. split; [reflexivity|split; [exact I|]]. apply rm_wr; [auto|auto with live|exact I].
  - set (w := VInt (rdi pbits m' LTemp2)). set (w0 := VInt (rdi pbits m LTemp2)).
    assert (w = w0) as -> by (unfold w, w0; f_equal; eapply rdi_sync; eauto with live).
    assert (H1 : rm sp (wr m LTemp2 w0) (wr m' LTemp2 w0)) by (apply rm_wr; [auto|auto with live|exact I]).
    sync. destruct (mo m id) as [[]|]; try (constructor; fail).
    destruct (s <? n)%nat; [|constructor]. apply IHfuel; auto with live.
Qed.

Hypothesis OH : local_fn obj_hash.
Hypothesis AS : local_fn as_string.

Lemma obj_hash_sync sp m m' v : rm sp m m' -> val_ok sp v -> obj_hash m' v = obj_hash m v.
Proof. intros [A [C _]] V. symmetry. eapply OH; eauto. Qed.
Lemma as_string_sync sp m m' v : rm sp m m' -> val_ok sp v -> as_string m' v = as_string m v.
Proof. intros [A [C _]] V. symmetry. eapply AS; eauto. Qed.

Lemma get_hash_local sp : forall fuel l m m', live sp l -> rm sp m m' ->
  res_rel (rzm sp) (get_hash pbits obj_hash fuel l m) (get_hash pbits obj_hash fuel l m').
Proof.
  induction fuel; intros l m m' L H; cbn [get_hash]; [constructor|].
  sync. pose proof (rm_val _ _ _ l H L) as V. destruct (mv m l) eqn:E; cbn in V.
  all: try (constructor; split; cbn; auto; symmetry; eapply obj_hash_sync; eauto; fail).
  - now apply IHfuel.
  - eapply bind_rel; [apply deref_local; eauto|]. intros [d m1] [d' m1'] [P [Q R]]. cbn in P, Q, R. subst d'. now apply IHfuel.
  - eapply bind_rel; [apply deref_local; eauto|]. intros [d m1] [d' m1'] [P [Q R]]. cbn in P, Q, R. subst d'. now apply IHfuel.
  - sync. destruct (mo m id) as [[]|]; constructor; split; cbn; auto; symmetry; eapply obj_hash_sync; eauto.
Qed.

Lemma single_value_local sp fuel l m m' : live sp l -> rm sp m m' ->
  res_rel (rm sp) (single_value pbits obj_hash fuel l m) (single_value pbits obj_hash fuel l m').
Proof.
  intros L H. unfold single_value.
  eapply bind_rel; [apply deref_local; eauto|]. intros [d m1] [d' m1'] [P [Q R]]. cbn in P, Q, R. subst d'.
  cbv zeta. sync.
  assert (R2 : rm sp (wr m1 LTemp1 (mv m1 d)) (wr m1' LTemp1 (mv m1 d))) by (apply rm_wr; eauto with live).
  rewrite !wr_eq.
  destruct (type_of (mv m1 d)); try (constructor; auto).
  all: eapply bind_rel; [apply get_hash_local; eauto with live|];
    intros [h m2] [h' m2'] [P R3]; cbn in P, R3; subst h'; constructor; apply rm_wr; [auto|auto with live|exact I].
Qed.

Lemma grow_array_local sp m m' id n : rm sp m m' -> rm sp (grow_array m id n) (grow_array m' id n).
Proof.
  intros H. unfold grow_array. sync. destruct (mo m id) as [[]|]; auto with live.
  apply rm_wr_obj. destruct H as [[A B C D] [E F]]. split; [constructor; cbn; auto|split].
  - intros x Hx. destruct x; auto.
    repeat match goal with |- context[if ?c then _ else _] => destruct c end; auto.
  - intros x Hx. cbn. pose proof (E x Hx) as Q. destruct x; auto.
    repeat match goal with |- context[if ?c then _ else _] => destruct c end; auto; exact I.
  - intros x N. destruct x; cbn in N |- *; try tauto. apply F. exact N.
Qed.

Lemma value_to_ex_local sp assign fuel ex v m m' :
  (forall t f to from m m', live sp to -> live sp from -> rm sp m m' ->
     res_rel (rm sp) (assign t f to from m) (assign t f to from m')) ->
  live sp ex -> live sp v -> rm sp m m' ->
  res_rel (rm sp) (value_to_ex pbits assign fuel ex v m) (value_to_ex pbits assign fuel ex v m').
Proof.
  intros HA L1 L2 H. unfold value_to_ex. cbv zeta.
  assert (T : res_rel (rm sp)
    (' (dv, m1) <- deref pbits fuel v m ;; ' (de, m2) <- deref pbits fuel ex m1 ;; Ok (wr m2 de (mv m1 dv)))
    (' (dv, m1) <- deref pbits fuel v m' ;; ' (de, m2) <- deref pbits fuel ex m1 ;; Ok (wr m2 de (mv m1 dv)))).
  { eapply bind_rel; [apply deref_local; eauto|]. intros [d m1] [d' m1'] [P [Q R]]. cbn in P, Q, R. subst d'.
    eapply bind_rel; [apply deref_local; eauto|]. intros [e m2] [e' m2'] [P' [Q' R']]. cbn in P', Q', R'. subst e'.
    sync. constructor. apply rm_wr; eauto with live. }
  sync. pose proof (rm_val _ _ _ ex H L1) as V. destruct (mv m ex) eqn:E; auto; cbn in V.
  - sync. destruct (mv m l); auto. destruct (s <? n)%nat; [|constructor].
    constructor. rewrite (rdi_sync sp m m' v); auto with live.
  - sync. destruct (mo m id) as [[n|bs nc| |]|]; try constructor.
    + set (m1 := if (n =? 0)%nat then grow_array m id 1 else m).
      set (m1' := if (n =? 0)%nat then grow_array m' id 1 else m').
      assert (R : rm sp m1 m1') by (unfold m1, m1'; destruct (n =? 0)%nat; auto using grow_array_local).
      rewrite (rm_mv sp m1 m1' v R L2), (rm_mv sp m1 m1' (LElem id 0) R) by auto with live.
      apply HA; auto with live.
    + rewrite (rdi_sync sp m m' v) by auto. apply rm_wr_obj. auto.
Qed.

Lemma wr_assign_local sp : forall fuel t f to from m m', live sp to -> live sp from -> rm sp m m' ->
  res_rel (rm sp) (wr_assign pbits fuel t f to from m) (wr_assign pbits fuel t f to from m').
Proof.
  induction fuel; intros t f to from m m' L1 L2 H; cbn [wr_assign]; [constructor|].
  pose proof (rm_val _ _ _ to H L1) as V1. pose proof (rm_val _ _ _ from H L2) as V2.
  destruct t, f; sync; try (constructor; apply rm_wr; auto; fail).
  all: try (destruct (mv m to) eqn:E1; cbn in V1; try constructor; fail).
  all: try (destruct (mv m from) eqn:E2; cbn in V2; try constructor; sync; auto; fail).
  all: try (destruct (mv m to) eqn:E1; cbn in V1; try constructor; sync; auto; fail).
  all: try (destruct (mv m to) eqn:E1; cbn in V1; try constructor; destruct (mv m from) eqn:E2; cbn in V2; try constructor; sync; auto; fail).
  all: eapply bind_rel; [apply deref_local; eauto|]; intros [d m1] [d' m1'] [P [Q R]]; cbn in P, Q, R; subst d'; sync.
  all: try (constructor; apply rm_wr; eauto with live; fail).
  all: destruct (is_member (mv m1 to)); [|constructor; apply rm_wr; eauto with live].
  all: apply value_to_ex_local; auto.
Qed.

Lemma valueToEx_local sp fuel ex v m m' : live sp ex -> live sp v -> rm sp m m' ->
  res_rel (rm sp) (wr_valueToEx pbits fuel ex v m) (wr_valueToEx pbits fuel ex v m').
Proof. intros. unfold wr_valueToEx. apply value_to_ex_local; auto. intros. now apply wr_assign_local. Qed.

(* the target of an operator, which may be free: written on both sides with the same value, or
   untouched on both *)
Definition rt (sp : nat) (target : loc) (m m' : mem) : Prop :=
  agree sp m m' /\ closed sp m /\
  (forall x, ~ live sp x -> x <> target -> mv m x = mv z x /\ mv m' x = mv z' x) /\
  (~ live sp target ->
   (mv m target = mv m' target /\ val_ok sp (mv m target)) \/
   (mv m target = mv z target /\ mv m' target = mv z' target)).

Lemma rt_rm sp target m m' : rm sp m m' -> rt sp target m m'.
Proof. intros [A [B C]]. repeat split; auto; try (apply C; auto). apply A. apply A. apply A. apply A. Qed.
Lemma rm_rt sp target m m' : live sp target -> rt sp target m m' -> rm sp m m'.
Proof.
  intros L [A [B [C _]]]. split; [auto|split; [auto|]]. intros x N. apply C; auto. intros ->. auto.
Qed.
Lemma rt_wr sp target m m' v : rm sp m m' -> val_ok sp v -> rt sp target (wr m target v) (wr m' target v).
Proof.
  intros [A [B C]] V. split; [now apply agree_wr|split; [now apply closed_wr|split]].
  - intros x N Q. rewrite !wr_ne by auto. auto.
  - intros N. left. rewrite !wr_eq. auto.
Qed.
Lemma new_string_local sp m m' bs t : rm sp m m' -> rt sp t (new_string m bs t) (new_string m' bs t).
Proof.
  intros H. unfold new_string. cbv zeta. sync. apply rt_wr; [|exact I].
  destruct H as [[A B C D] [E F]]. split; [constructor; cbn; auto|split; [exact E|exact F]].
  intros i. destruct (Nat.eq_dec i (mnext m)); auto.
Qed.
Lemma char_array_sync sp m m' v : rm sp m m' -> char_array m' v = char_array m v.
Proof. intros H. unfold char_array. destruct v; auto. now rewrite (rm_mo sp m m' id H). Qed.
Lemma concat_local sp m m' to from target : live sp to -> live sp from -> rm sp m m' ->
  match concat_check as_string m to from target, concat_check as_string m' to from target with
  | Some a, Some b => rt sp target a b
  | None, None => True
  | _, _ => False
  end.
Proof.
  intros L1 L2 H. unfold concat_check. sync.
  rewrite !(char_array_sync sp m m') by auto.
  rewrite !(as_string_sync sp m m') by eauto with live.
  pose proof (fun bs => new_string_local sp m m' bs target H) as NS.
  destruct (char_array m (mv m to)) as [[tb [|]]|]; [|apply NS|].
  all: destruct (char_array m (mv m from)) as [[fb [|]]|]; auto.
Qed.
Lemma leaf_ok o t f a b v : leaf trap o t f a b = Some v -> forall sp, val_ok sp v.
Proof.
  unfold leaf. intros E sp. destruct t, f, trap; repeat destruct (_ && _); inversion E; subst; cbn; auto;
  destruct (a_ii o a b); inversion E; exact I.
Qed.

(* one step of an operator's proof *)
Ltac sv := eapply bind_rel; [apply single_value_local; eauto with live|];
  let m1 := fresh "m" in let m1' := fresh "m'" in let R := fresh "R" in intros m1 m1' R; sync.
Ltac dr := eapply bind_rel; [apply deref_local; eauto with live|];
  let d := fresh "d" in let d' := fresh "d'" in let m1 := fresh "m" in let m1' := fresh "m'" in
  let P := fresh in let Q := fresh "Q" in let R := fresh "R" in
  intros [d m1] [d' m1'] [P [Q R]]; cbn [fst snd] in P, Q, R; subst d'; sync.
Ltac vr := match goal with
  | H : rmz z z' ?sp ?m ?m' |- context[match mv ?m ?l with _ => _ end] =>
    let V := fresh "V" in let E := fresh "E" in
    assert (V : val_ok sp (mv m l)) by (eapply rm_val; eauto with live);
    destruct (mv m l) eqn:E; cbn [val_ok] in V; try (constructor; fail); sync
  end.
Ltac auto1 m l m' k := assert (R0 : rmz z z' _ (wr m (LAuto k) (mv m l)) (wr m' (LAuto k) (mv m l)))
   by (apply rm_wr; eauto with live).

Lemma arith_binary_local sp target o : forall fuel t f to from m m',
  live sp to -> live sp from -> rm sp m m' ->
  res_rel (rt sp target) (arith_binary pbits obj_hash trap o fuel t f to from target m)
    (arith_binary pbits obj_hash trap o fuel t f to from target m').
Proof.
  induction fuel; intros t f to from m m' L1 L2 H; cbn [arith_binary]; [constructor|].
  assert (LF : forall t f, res_rel (rt sp target)
     (v <- of_opt (leaf trap o t f (rdi pbits m to) (rdi pbits m from)) ;; Ok (wr m target v))
     (v <- of_opt (leaf trap o t f (rdi pbits m' to) (rdi pbits m' from)) ;; Ok (wr m' target v))).
  { intros t0 f0. rewrite !(rdi_sync sp m m') by auto.
    destruct (leaf trap o t0 f0 (rdi pbits m to) (rdi pbits m from)) eqn:E; cbn; constructor.
    apply rt_wr; eauto using leaf_ok. }
  destruct t, f; sync; try apply LF; cbv zeta.
  all: try (vr; try vr; apply IHfuel; auto with live; fail).
  all: try (sv; apply IHfuel; auto with live; fail).
  sv.
  assert (R0 : rm sp (wr m0 (LAuto 0) (mv m0 LTemp1)) (wr m'0 (LAuto 0) (mv m0 LTemp1))) by (apply rm_wr; eauto with live).
  sv. apply IHfuel; auto with live.
Qed.

Lemma add_binary_local sp target : forall fuel t f to from m m',
  live sp to -> live sp from -> rm sp m m' ->
  res_rel (rt sp target) (add_binary pbits obj_hash as_string trap fuel t f to from target m)
    (add_binary pbits obj_hash as_string trap fuel t f to from target m').
Proof.
  induction fuel; intros t f to from m m' L1 L2 H; cbn [add_binary]; [constructor|].
  assert (LF : forall t f, res_rel (rt sp target)
     (v <- of_opt (leaf trap add_op t f (rdi pbits m to) (rdi pbits m from)) ;; Ok (wr m target v))
     (v <- of_opt (leaf trap add_op t f (rdi pbits m' to) (rdi pbits m' from)) ;; Ok (wr m' target v))).
  { intros t0 f0. rewrite !(rdi_sync sp m m') by auto.
    destruct (leaf trap add_op t0 f0 (rdi pbits m to) (rdi pbits m from)) eqn:E; cbn [of_opt bind]; constructor.
    apply rt_wr; eauto using leaf_ok. }
  pose proof (concat_local sp m m' to from target L1 L2 H) as CC.
  destruct t, f; sync; try apply LF; cbv zeta.
  all: try (vr; try vr; apply IHfuel; auto with live; fail).
  all: try (sv; apply IHfuel; auto with live; fail).
  1, 2: destruct (concat_check as_string m to from target), (concat_check as_string m' to from target); try tauto;
    [constructor; auto | sv; apply IHfuel; auto with live].
  destruct (is_member (mv m to) || is_member (mv m from)).
  - dr.
    assert (R0 : rm sp (wr m0 (LAuto 0) (mv m0 d)) (wr m'0 (LAuto 0) (mv m0 d))) by (apply rm_wr; eauto with live).
    dr. apply IHfuel; auto with live.
  - destruct (concat_check as_string m to from target), (concat_check as_string m' to from target); try tauto; constructor; auto using rt_rm.
Qed.

Lemma int_binary_local sp target op : forall fuel t f to from m m',
  live sp to -> live sp from -> rm sp m m' ->
  res_rel (rt sp target) (int_binary pbits obj_hash op fuel t f to from target m)
    (int_binary pbits obj_hash op fuel t f to from target m').
Proof.
  induction fuel; intros t f to from m m' L1 L2 H; cbn [int_binary]; [constructor|].
  destruct t, f; sync; cbv zeta.
  all: try (constructor; now apply rt_rm).
  all: try (vr; try vr; apply IHfuel; auto with live; fail).
  all: try (sv; apply IHfuel; auto with live; fail).
  - rewrite !(rdi_sync sp m m') by auto. destruct (op _ _); cbn; constructor. apply rt_wr; [auto|exact I].
  - sv.
    assert (R0 : rm sp (wr m0 (LAuto 0) (mv m0 LTemp1)) (wr m'0 (LAuto 0) (mv m0 LTemp1))) by (apply rm_wr; eauto with live).
    sv. apply IHfuel; auto with live.
Qed.

Lemma compare_local sp o : forall fuel t f to from m m',
  live sp to -> live sp from -> rm sp m m' ->
  res_rel (rzm sp) (compare pbits obj_hash o fuel t f to from m)
    (compare pbits obj_hash o fuel t f to from m').
Proof.
  induction fuel; intros t f to from m m' L1 L2 H; cbn [compare]; [constructor|].
  destruct t, f; sync; cbv zeta.
  all: try (vr; try vr; apply IHfuel; auto with live; fail).
  all: try (sv; apply IHfuel; auto with live; fail).
  all: try (constructor; split; cbn [fst snd]; auto; rewrite !(rdi_sync sp m m') by auto; reflexivity).
  - assert (R : rm sp (if c_retag o then wr m to (VFlt (rdi pbits m to)) else m)
                 (if c_retag o then wr m' to (VFlt (rdi pbits m' to)) else m')).
    { rewrite !(rdi_sync sp m m') by auto. destruct (c_retag o); auto. apply rm_wr; [auto|auto|exact I]. }
    constructor; split; cbn [fst snd]; auto. rewrite !(rdi_sync sp _ _ _ R) by auto. reflexivity.
  - sv.
    assert (R0 : rm sp (wr m0 (LAuto 0) (mv m0 LTemp1)) (wr m'0 (LAuto 0) (mv m0 LTemp1))) by (apply rm_wr; eauto with live).
    sv. apply IHfuel; auto with live.
Qed.

Ltac ve := eapply bind_rel; [apply valueToEx_local; eauto with live|];
  let m1 := fresh "m" in let m1' := fresh "m'" in let R := fresh "R" in intros m1 m1' R; sync.
Ltac ih IH := eapply bind_rel; [apply IH; eauto with live|];
  let m1 := fresh "m" in let m1' := fresh "m'" in let R := fresh "R" in intros m1 m1' R; sync.
Ltac fin := constructor; apply rm_wr; eauto with live.

Lemma logic_assign_local sp op : forall fuel t f to from m m',
  live sp to -> live sp from -> rm sp m m' ->
  res_rel (rm sp) (logic_assign pbits obj_hash op fuel t f to from m)
    (logic_assign pbits obj_hash op fuel t f to from m').
Proof.
  induction fuel; intros t f to from m m' L1 L2 H; cbn [logic_assign]; [constructor|].
  destruct t, f; sync; cbv zeta.
  all: try (constructor; assumption).
  all: try (vr; try vr; apply IHfuel; auto with live; fail).
  all: try (vr; ih IHfuel; fin; fail).
  - rewrite !(rdi_sync sp m m') by auto. destruct (op _ _); cbn [of_opt bind]; constructor.
    apply rm_wr; auto. assert (V : val_ok sp (mv m to)) by eauto with live. destruct (mv m to); exact V || exact I.
  - sv. ih IHfuel. fin.
  - vr. vr. assert (R0 : rm sp (wr m (LAuto 0) (mv m l0)) (wr m' (LAuto 0) (mv m l0))) by (apply rm_wr; eauto with live).
    sync. ih IHfuel. fin.
  - sv. ih IHfuel. ve. fin.
  - sv. ih IHfuel. dr. fin.
Qed.

Lemma assign_leaf_local sp o t f to from m m' : live sp to -> live sp from -> rm sp m m' ->
  res_rel (rm sp) (assign_leaf pbits trap o t f to from m) (assign_leaf pbits trap o t f to from m').
Proof.
  intros L1 L2 H. unfold assign_leaf. cbv zeta. rewrite !(rdi_sync sp m m') by auto.
  destruct (leaf trap o t f (rdi pbits m to) (rdi pbits m from)) eqn:E; cbn [of_opt bind]; constructor.
  apply rm_wr; eauto using leaf_ok.
  destruct t; auto. destruct f; auto. apply rm_wr; auto. exact I.
Qed.

Lemma arith_assign_local sp cat o : forall fuel t f to from m m',
  live sp to -> live sp from -> rm sp m m' ->
  res_rel (rm sp) (arith_assign pbits obj_hash as_string trap cat o fuel t f to from m)
    (arith_assign pbits obj_hash as_string trap cat o fuel t f to from m').
Proof.
  induction fuel; intros t f to from m m' L1 L2 H; cbn [arith_assign]; [constructor|].
  cbv zeta.
  assert (CC : match (if cat then concat_check as_string m to from to else None), (if cat then concat_check as_string m' to from to else None) with
    | Some a, Some b => rm sp a b | None, None => True | _, _ => False end).
  { destruct cat; [|exact I]. pose proof (concat_local sp m m' to from to L1 L2 H) as C.
    destruct (concat_check as_string m to from to), (concat_check as_string m' to from to); auto. exact (rm_rt sp to _ _ L1 C). }
  set (cc := if cat then concat_check as_string m to from to else None) in *.
  set (cc' := if cat then concat_check as_string m' to from to else None) in *. clearbody cc cc'.
  destruct t, f; sync.
  all: try (apply assign_leaf_local; auto; fail).
  all: try (vr; try vr; apply IHfuel; auto with live; fail).
  all: try (vr; ih IHfuel; fin; fail).
  all: try (destruct cc, cc'; try tauto; [constructor; auto|]; sv; ih IHfuel; try ve; fin; fail).
  - vr. vr. assert (R0 : rm sp (wr m (LAuto 0) (mv m l0)) (wr m' (LAuto 0) (mv m l0))) by (apply rm_wr; eauto with live).
    sync. ih IHfuel. fin.
  - destruct cat; [destruct (is_member (mv m from))|].
    + dr. ih IHfuel. dr. fin.
    + destruct cc, cc'; try tauto; constructor; auto.
    + sv. ih IHfuel. dr. fin.
Qed.

Lemma incr_ok d v w sp : incr d v = Some w -> val_ok sp w.
Proof. destruct v; cbn; try discriminate; [destruct (checked _)|]; intros E; inversion E; exact I. Qed.

Lemma unary_pre_local sp d : forall fuel t l m m', live sp l -> rm sp m m' ->
  res_rel (rm sp) (unary_pre pbits obj_hash d fuel t l m) (unary_pre pbits obj_hash d fuel t l m').
Proof.
  induction fuel; intros t l m m' L H; cbn [unary_pre]; [constructor|].
  assert (LF : res_rel (rm sp) (v <- of_opt (incr d (mv m l)) ;; Ok (wr m l v)) (v <- of_opt (incr d (mv m l)) ;; Ok (wr m' l v))).
  { destruct (incr d (mv m l)) eqn:E; cbn [of_opt bind]; constructor. eapply rm_wr; eauto. eapply incr_ok; eauto. }
  destruct t; sync; auto.
  - vr. ih IHfuel. fin.
  - sv. ih IHfuel. apply valueToEx_local; auto with live.
Qed.
Lemma unary_post_local sp d : forall fuel t l stack m m', live sp l -> live sp stack -> rm sp m m' ->
  res_rel (rm sp) (unary_post pbits obj_hash d fuel t l stack m) (unary_post pbits obj_hash d fuel t l stack m').
Proof.
  induction fuel; intros t l stack m m' L L' H; cbn [unary_post]; [constructor|].
  assert (LF : res_rel (rm sp) (v <- of_opt (incr d (mv m l)) ;; Ok (wr (wr m l v) stack (mv m l)))
     (v <- of_opt (incr d (mv m l)) ;; Ok (wr (wr m' l v) stack (mv m l)))).
  { destruct (incr d (mv m l)) eqn:E; cbn [of_opt bind]; constructor.
    apply rm_wr; eauto with live. apply rm_wr; eauto. eapply incr_ok; eauto. }
  destruct t; sync; auto.
  - vr. apply IHfuel; auto.
  - sv. ih IHfuel. ve. fin.
Qed.
Lemma logical_not_local sp : forall fuel t l m m', live sp l -> rm sp m m' ->
  res_rel (rzm sp) (logical_not pbits obj_hash fuel t l m) (logical_not pbits obj_hash fuel t l m').
Proof.
  induction fuel; intros t l m m' L H; cbn [logical_not]; [constructor|].
  destruct t; sync; try (constructor; split; cbn [fst snd]; auto; now rewrite (rdi_sync sp m m')).
  - vr. apply IHfuel; auto.
  - sv. apply IHfuel; auto with live.
Qed.
Lemma negate_local sp target : forall fuel t l m m', live sp l -> rm sp m m' ->
  res_rel (rt sp target) (negate pbits obj_hash fuel t l target m) (negate pbits obj_hash fuel t l target m').
Proof.
  induction fuel; intros t l m m' L H; cbn [negate]; [constructor|].
  destruct t; sync; try (constructor; rewrite !(rdi_sync sp m m') by auto; apply rt_wr; [auto|exact I]).
  - vr. apply IHfuel; auto.
  - sv. apply IHfuel; auto with live.
Qed.
Lemma bitwise_not_local sp : forall fuel t l m m', live sp l -> rm sp m m' ->
  res_rel (rzm sp) (bitwise_not pbits obj_hash fuel t l m) (bitwise_not pbits obj_hash fuel t l m').
Proof.
  induction fuel; intros t l m m' L H; cbn [bitwise_not]; [constructor|].
  destruct t; sync; try (constructor; split; cbn [fst snd]; auto; now rewrite ?(rdi_sync sp m m')).
  - vr. apply IHfuel; auto.
  - sv. apply IHfuel; auto with live.
Qed.

End Local.
