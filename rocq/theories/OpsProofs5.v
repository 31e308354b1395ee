(* strings: equality and concatenation through any chain of references; unary operators *)
From Verif Require Import Base BaseLemmas HashModel FloatModel FloatProofs OpsModel OpsSpec OpsProofs OpsProofs2 OpsProofs3 OpsProofs4.
Ltac Zify.zify_post_hook ::= Z.div_mod_to_equations.

Lemma leads_vbehind m v k w : leads m v k w -> vbehind m v k w.
Proof. induction 1; constructor; auto. Qed.

Section Str.
Variables (pbits : value -> Z) (obj_hash : mem -> value -> Z) (as_string : mem -> value -> list Z) (trap : bool).

Lemma single_string m l id bs nc n : mv m l = VArr id -> mo m id = Some (OChar bs nc) -> (2 <= n)%nat ->
  exists m1, single_value pbits obj_hash n l m = Ok m1 /\ mv m1 LTemp1 = VInt (wr_hash bs 0) /\
    (forall q, q <> LTemp1 -> mv m1 q = mv m q) /\ same_objs m m1.
Proof.
  intros El Eo Hn. destruct n as [|[|n]]; try lia.
  unfold single_value. cbn [deref]. rewrite El. cbn [bind].
  rewrite wr_same, El. cbn [type_of get_hash]. rewrite wr_same. cbn [mo wr]. rewrite Eo. cbn [bind].
  eexists. split; [reflexivity|]. rewrite wr_same. split; [reflexivity|].
  split; [|repeat split]. intros q Hq. now rewrite !wr_other by auto.
Qed.

Lemma str_eq m i1 b1 n1 i2 b2 n2 (E1: mo m i1 = Some (OChar b1 n1)) (E2: mo m i2 = Some (OChar b2 n2)) :
  forall N j k l r, (j + k <= N)%nat -> leads m (mv m l) j (VArr i1) -> leads m (mv m r) k (VArr i2) ->
  visible l -> visible r ->
  forall n, (N + 4 <= n)%nat -> exists m',
    compare pbits obj_hash eq_op n (type_of (mv m l)) (type_of (mv m r)) l r m =
      Ok (s32 (wr_hash b1 0) =? s32 (wr_hash b2 0), m') /\ unchanged_except [] m m'.
Proof.
  induction N as [|N IH]; intros j k l r HN Ll Lr Vl Vr n Hn; destruct n as [|n]; try lia.
  - assert (j = 0%nat) by lia; assert (k = 0%nat) by lia; subst.
    inversion Ll as [v Hv Ha Hb Hc|]; subst. inversion Lr as [v' Hv' Ha' Hb' Hc'|]; subst.
    rewrite Hc, Hc'. cbn [type_of compare].
    destruct (single_string m l i1 b1 n1 n Hc E1 ltac:(lia)) as (m1&S1&V1&O1&(P1&P2&P3)). rewrite S1. cbn [bind].
    set (m1' := wr m1 (LAuto 0) (mv m1 LTemp1)).
    destruct (single_string m1' r i2 b2 n2 n) as (m2&S2&V2&O2&(Q1&Q2&Q3)); [unfold m1'; rewrite wr_other; [rewrite O1; [exact Hc'|]|]; intros ->; contradiction| unfold m1'; cbn; now rewrite P1|lia|].
    rewrite S2. cbn [bind]. rewrite V2, O2 by discriminate. unfold m1' at 1. rewrite wr_same, V1. cbn [type_of].
    destruct n as [|n]; [lia|]. cbn [compare eq_op c_ii]. unfold rdi. rewrite V2, O2 by discriminate. unfold m1' at 1.
    rewrite wr_same, V1. cbn [bits]. eexists. split; [reflexivity|].
    split; [|unfold m1' in *; cbn in *; intuition congruence].
    intros q Vq _. rewrite O2 by (intros ->; contradiction). unfold m1'. rewrite wr_other by (intros ->; contradiction).
    apply O1. intros ->; contradiction.
  - inversion Ll as [v Hv Ha Hb Hc|l1 j1 w1 Vl1 Ll1 Hl]; subst; inversion Lr as [v' Hv' Ha' Hb' Hc'|r1 k1 w2 Vr1 Lr1 Hr]; subst.
    + apply (IH 0%nat 0%nat l r); auto; lia.
    + rewrite Hc. cbn [type_of compare]. rewrite <- Hr.
      assert (T: TE = type_of (mv m l)) by now rewrite Hc. rewrite T.
      apply (IH 0%nat k1 l r1); auto; try lia.
    + rewrite Hc'. rewrite <- ?Hl. cbn [type_of compare]. rewrite <- Hl.
      assert (T: TE = type_of (mv m r)) by now rewrite Hc'. rewrite T.
      apply (IH j1 0%nat l1 r); auto; try lia.
    + rewrite <- ?Hl, <- ?Hr. cbn [type_of compare]. rewrite <- Hl, <- Hr.
      apply (IH j1 k1 l1 r1); auto; lia.
Qed.

(* s + t *)
Lemma str_add m i1 b1 i2 b2 t (E1: mo m i1 = Some (OChar b1 false)) (E2: mo m i2 = Some (OChar b2 false)) :
  forall N j k l r, (j + k <= N)%nat -> leads m (mv m l) j (VArr i1) -> leads m (mv m r) k (VArr i2) ->
  forall n, (N + 1 <= n)%nat ->
    add_binary pbits obj_hash as_string trap n (type_of (mv m l)) (type_of (mv m r)) l r t m =
      Ok (new_string m (b1 ++ b2) t).
Proof.
  induction N as [|N IH]; intros j k l r HN Ll Lr n Hn; destruct n as [|n]; try lia.
  - assert (j = 0%nat) by lia; assert (k = 0%nat) by lia; subst.
    inversion Ll as [v Hv Ha Hb Hc|]; subst. inversion Lr as [v' Hv' Ha' Hb' Hc'|]; subst.
    rewrite Hc, Hc'. cbn [type_of add_binary]. rewrite Hc, Hc'. cbn [is_member orb].
    unfold concat_check, char_array. rewrite Hc, Hc', E1, E2. reflexivity.
  - inversion Ll as [v Hv Ha Hb Hc|l1 j1 w1 Vl1 Ll1 Hl]; subst; inversion Lr as [v' Hv' Ha' Hb' Hc'|r1 k1 w2 Vr1 Lr1 Hr]; subst.
    + apply (IH 0%nat 0%nat l r); auto; lia.
    + rewrite Hc. cbn [type_of]. rewrite <- ?Hr. cbn [type_of add_binary]. rewrite <- Hr.
      assert (T: TE = type_of (mv m l)) by now rewrite Hc. rewrite T.
      apply (IH 0%nat k1 l r1); auto; try lia.
    + rewrite Hc'. cbn [type_of]. rewrite <- ?Hl. cbn [type_of add_binary]. rewrite <- Hl.
      assert (T: TE = type_of (mv m r)) by now rewrite Hc'. rewrite T.
      apply (IH j1 0%nat l1 r); auto; try lia.
    + rewrite <- ?Hl, <- ?Hr. cbn [type_of add_binary]. rewrite <- Hl, <- Hr.
      apply (IH j1 k1 l1 r1); auto; lia.
Qed.

(* !x, -x, ~x *)
Lemma unary_chain m v x : denotes m v x -> exists k, forall n l, (k <= n)%nat -> mv m l = v -> visible l ->
  (exists m', logical_not pbits obj_hash n (type_of v) l m = Ok (bits pbits (of_number x) =? 0, m') /\ unchanged_except [] m m') /\
  (exists m', bitwise_not pbits obj_hash n (type_of v) l m =
     Ok (match x with NI a => 4294967295 - u32 a | NF _ => 0 end, m') /\ unchanged_except [] m m') /\
  (forall t, exists m', negate pbits obj_hash n (type_of v) l t m = Ok m' /\
     mv m' t = of_number (match x with NI a => NI (s32 (- a)) | NF b => NF (f32_neg b) end) /\ unchanged_except [t] m m').
Proof.
  intros D. destruct (denotes_chain m v x D) as (k&w&B&Dw&Hw). revert D.
  assert (NEG: u32 (- u32 (match x with NI a => a | NF _ => 0 end)) = u32 (s32 (- match x with NI a => a | NF _ => 0 end))).
  { rewrite u32_s32. unfold u32. rewrite <- Zminus_0_l_reverse at 1 || idtac. 
    match goal with |- (- ((?a) mod ?b)) mod ?b = (- ?a) mod ?b => rewrite <- (Z.sub_0_l (a mod b)), Zminus_mod_idemp_r, Z.sub_0_l; reflexivity end. }
  induction B as [v Hv|l1 k w Vl1 B IH]; intros D.
  - destruct Hw as [-> | Hm].
    + exists 1%nat. intros n l Hn El Vl. destruct n as [|n]; [lia|].
      destruct x as [a|b]; cbn [of_number type_of logical_not bitwise_not negate bits] in *; unfold rdi; rewrite El; cbn [bits];
        (split; [eexists; split; [reflexivity|repeat split]|]);
        (split; [eexists; split; [reflexivity|repeat split]|]); intros t; eexists; (split; [reflexivity|]); rewrite wr_same;
        (split; [try rewrite NEG; reflexivity|]); (split; [intros q Vq Hq; rewrite wr_other; [reflexivity|intros ->; apply Hq; now left]|repeat split]).
    + destruct (single_ok pbits obj_hash (fun _ _ => nil) m v x Dw) as [k K]. exists (S (S k)).
      intros n l Hn El Vl. destruct n as [|n]; [lia|]. rewrite (member_type _ Hm).
      destruct (K n m l) as (m1&S1&V1&O1); [lia|apply vis_refl|auto|].
      destruct O1 as (O1&P1&P2&P3).
      assert (VS: forall q, visible q -> mv m1 q = mv m q) by (intros q Vq; apply O1, visible_notmp; auto).
      cbn [logical_not bitwise_not negate]. rewrite S1. cbn [bind]. rewrite V1. destruct n as [|n]; [lia|].
      destruct x as [a|b]; cbn [of_number type_of logical_not bitwise_not negate bits] in *; unfold rdi; rewrite V1; cbn [bits];
        (split; [eexists; split; [reflexivity|split; auto]|]);
        (split; [eexists; split; [reflexivity|split; auto]|]); intros t; eexists; (split; [reflexivity|]); rewrite wr_same;
        (split; [try rewrite NEG; reflexivity|]); (split; [intros q Vq Hq; rewrite wr_other; [auto|intros ->; apply Hq; now left]|repeat split; auto]).
  - inversion D as [z Hz Ez| ? ? Vq Dq| | | | ]; subst; [destruct x; discriminate|].
    destruct (IH Dw Hw Dq) as [k0 K]. exists (S k0). intros n l Hn El Vl. destruct n as [|n]; [lia|].
    cbn [type_of logical_not bitwise_not negate]. rewrite El. apply K; auto; lia.
Qed.
End Str.
