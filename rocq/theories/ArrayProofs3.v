From Verif Require Import Base BaseLemmas OpsModel ArrayModel ArraySpec ArrayProofs ArrayProofs2.
Ltac Zify.zify_post_hook ::= Z.div_mod_to_equations.

(* ---- element access ---- *)
Lemma pad_len l n : length (pad l n) = Nat.max (length l) n.
Proof. unfold pad. rewrite app_length, repeat_length. lia. Qed.
Lemma pad_short l n : (n <= length l)%nat -> pad l n = l.
Proof. intros. unfold pad. replace (n - length l)%nat with 0%nat by lia. apply app_nil_r. Qed.
Lemma nth_pad l n k : nth k (pad l n) (VInt 0) = nth k l (VInt 0).
Proof.
  unfold pad. destruct (Nat.lt_ge_cases k (length l)); [now rewrite app_nth1|].
  rewrite app_nth2 by lia. rewrite (nth_overflow l) by lia. destruct (Nat.lt_ge_cases (k - length l) (n - length l)).
  - now apply nth_repeat.
  - apply nth_overflow. rewrite repeat_length. lia.
Qed.
Lemma new_array_facts m x n : ~ scratch x -> (forall k, x <> LElem (mnext m) k) ->
  let m' := new_array m x n in let id := mnext m in
  holds m' x id n /\ contents m' id = repeat (VInt 0) n /\ mnext m' = S (mnext m) /\ mraw m' = mraw m /\
  (forall y, y <> x -> (forall k, y <> LElem id k) -> mv m' y = mv m y) /\ (forall j, j <> id -> mo m' j = mo m j).
Proof.
  intros S X. cbv zeta. assert (O: mo (new_array m x n) (mnext m) = Some (OVal n)) by (cbn; destruct (Nat.eq_dec (mnext m) (mnext m)); congruence).
  split.
  { split; auto. unfold new_array. apply wr_same. }
  split.
  { eapply contents_eq; [exact O|apply repeat_length|]. intros k K. rewrite nth_error_rep by auto. unfold velem, new_array.
    rewrite wr_other by (intros E; apply (X k); auto). cbn [mv wr_obj]. destruct (Nat.eq_dec (mnext m) (mnext m)); congruence. }
  split; [reflexivity|]. split; [reflexivity|]. split.
  - intros y Y K. unfold new_array. rewrite wr_other by auto. cbn [mv wr_obj]. destruct y as [| |i k| | |]; auto.
    destruct (Nat.eq_dec i (mnext m)) as [->|]; auto. now destruct (K k).
  - intros j J. cbn. destruct (Nat.eq_dec j (mnext m)); congruence.
Qed.

(* the object variable x has, or will have once it is indexed *)
Definition obj_of (m : mem) (x : loc) : nat := match mv m x with VArr id => id | _ => mnext m end.
(* what may change: scratch, x itself, the array *)
Definition xframe (m m' : mem) (x : loc) (id : nat) : Prop :=
  (forall y, ~ scratch y -> y <> x -> (forall k, y <> LElem id k) -> mv m' y = mv m y) /\
  (forall j, j <> id -> mo m' j = mo m j) /\ mraw m' = mraw m.
Lemma xframe_s m m' x id : sframe m m' id -> xframe m m' x id.
Proof. intros (A&B&C&D). split; auto. Qed.
Lemma xframe_trans a b c x id : xframe a b x id -> xframe b c x id -> xframe a c x id.
Proof. intros (A1&A2&A3) (B1&B2&B3). split; [|split]; intros; [rewrite B1|rewrite B2|rewrite B3]; auto. Qed.

Lemma variable_scratch m x : variable m x -> ~ scratch x /\ (forall k, x <> LElem (mnext m) k) /\ (forall id k, mv m x = VArr id -> x <> LElem id k) /\ (obj_of m x <= mnext m)%nat.
Proof.
  intros [V F]. unfold scratch. split.
  { destruct x; cbn in V; try tauto; lia. }
  split. { intros k ->. cbn in V. lia. }
  split. { intros id k E ->. cbn in V. tauto. }
  unfold obj_of. destruct (mv m x) eqn:E; auto. specialize (F _ eq_refl). lia.
Qed.
Lemma contents_temp m v id : contents (wr m LTemp2 v) id = contents m id.
Proof. apply contents_scratch. unfold scratch. auto. Qed.
Lemma member_deref pbits m x id n i f q : holds m x id n -> (i < n)%nat -> mv m q = VMem x i ->
  deref pbits (S f) q m = Ok (LElem id i, wr m LTemp2 (VInt (rdi pbits m LTemp2))).
Proof.
  intros H L E. cbn [deref]. rewrite E. assert (x <> LTemp2) by (intros ->; apply (h_var _ _ _ _ H); unfold scratch; auto).
  rewrite wr_other by auto. rewrite (h_val _ _ _ _ H). rewrite (h_obj _ _ _ _ H). replace (i <? n)%nat with true by lia. reflexivity.
Qed.
Section P.
Variable pbits : value -> Z.
Variable hash_index : loc -> loc -> loc -> mem -> res mem.
Variable new_table : loc -> mem -> mem.
Lemma index_gen m x l i s f : variable m x -> view m x = Some l -> member x (Z.of_nat i) = Ok (VMem x s) -> (s <= i)%nat -> Z.of_nat i < 134217727 -> exists m' n,
  op_index pbits hash_index new_table (S (S (S f))) (LStack 1) (LStack 0) (LStack 0) (args2 m x (VInt (Z.of_nat i))) = Ok m' /\
  mv m' (LStack 0) = VMem x s /\ holds m' x (obj_of m x) n /\ contents m' (obj_of m x) = pad l (S i) /\ (i < n)%nat /\
  xframe m m' x (obj_of m x) /\ (mnext m <= mnext m')%nat /\ (obj_of m x < mnext m')%nat.
Proof.
  intros V L MB SI B. destruct (variable_scratch m x V) as (NS&NF&NE&LE). set (m1 := args2 m x (VInt (Z.of_nat i))).
  assert (S0: scratch (LStack 0)) by (unfold scratch; auto). assert (S1: scratch (LStack 1)) by (unfold scratch; auto).
  assert (NX0: LStack 0 <> x) by (intros <-; auto). assert (NX1: LStack 1 <> x) by (intros <-; auto).
  assert (A0: mv m1 (LStack 0) = VRef x) by (unfold m1, args2; rewrite wr_other by discriminate; apply wr_same).
  assert (A1: mv m1 (LStack 1) = VInt (Z.of_nat i)) by (unfold m1, args2; apply wr_same).
  assert (AX: mv m1 x = mv m x) by (unfold m1, args2; rewrite !wr_other; auto).
  assert (FR: forall id, sframe m m1 id) by (intros; eapply sframe_trans; apply sframe_wr; auto).
  unfold op_index. rewrite A0, A1. cbn [type_of]. cbn [wr_index]. rewrite A0, AX.
  unfold view in L. unfold obj_of in *.
  assert (MK: forall m2, ~ (LStack 0 = x) -> elementToTarget (Z.of_nat i) (LStack 0) x m2 = Ok (wr m2 (LStack 0) (VMem x s))).
  { intros m2 N. unfold elementToTarget. destruct (loc_eq_dec (LStack 0) x); [contradiction|]. rewrite MB. reflexivity. }
  assert (NEW: l = [] -> mv m x <> VArr (mnext m) ->
    let m3 := wr (new_array m1 x (S i)) (LStack 0) (VMem x s) in exists m' n, Ok m3 = Ok m' /\ mv m' (LStack 0) = VMem x s /\ holds m' x (mnext m) n /\
    contents m' (mnext m) = pad l (S i) /\ (i < n)%nat /\ xframe m m' x (mnext m) /\ (mnext m <= mnext m')%nat /\ (mnext m < mnext m')%nat).
  { intros -> NV. cbv zeta. destruct (new_array_facts m1 x (S i) NS NF) as (H&C&MN&MR&E1&E2).
    change (mnext m1) with (mnext m) in *. eexists _, (S i). split; [reflexivity|]. split; [apply wr_same|]. split; [now apply holds_scratch|].
    split; [rewrite contents_scratch by auto; rewrite C; reflexivity|]. split; [lia|]. split.
    - apply xframe_trans with m1; [apply xframe_s, FR|]. split; [|split].
      + intros y Y1 Y2 Y3. rewrite wr_other by (intros ->; auto). apply E1; auto.
      + intros j J. apply E2. exact J.
      + exact MR.
    - split; [cbn; lia|]. change (mnext (wr (new_array m1 x (S i)) (LStack 0) (VMem x s))) with (S (mnext m)). lia. }
  destruct (mv m x) as [u|u|r|r s0|h s0|id|id|id|b n0|id|] eqn:EX; try discriminate.
  - injection L as <-. cbn [type_of]. cbn [wr_index]. unfold index_I_X, rdi. rewrite A1. cbn [bits].
    rewrite s32_id by (unfold is_s32; lia). replace (Z.of_nat i + 1 <? 0) with false by lia. rewrite MK by auto.
    replace (Z.to_nat (Z.of_nat i + 1)) with (S i) by lia. apply NEW; congruence.
  - injection L as <-. cbn [type_of]. cbn [wr_index]. unfold index_I_X, rdi. rewrite A1. cbn [bits].
    rewrite s32_id by (unfold is_s32; lia). replace (Z.of_nat i + 1 <? 0) with false by lia. rewrite MK by auto.
    replace (Z.to_nat (Z.of_nat i + 1)) with (S i) by lia. apply NEW; congruence.
  - cbn [type_of]. destruct (mo m id) as [[n|bs nc|n|n]|] eqn:EO; try discriminate. injection L as <-.
    cbn [wr_index]. unfold index_I_E. rewrite AX. rewrite plain_deref by (rewrite AX; exact I). cbn [bind]. rewrite AX.
    change (mo m1 id) with (mo m id). rewrite EO. unfold rdi. rewrite A1. cbn [bits].
    assert (H1: holds m1 x id n) by (split; auto).
    pose proof (contents_len m id n EO) as CL.
    assert (IDN: (id < mnext m)%nat). { destruct V as [_ F]. now apply F. }
    assert (CM: contents m1 id = contents m id) by (unfold m1, args2; rewrite !contents_scratch by auto; reflexivity).
    destruct (Z.of_nat n <=? Z.of_nat i) eqn:EC.
    + rewrite (grow_ok m1 id n) by (auto; lia). cbn [bind]. rewrite MK by auto.
      replace (Z.to_nat (Z.of_nat i + 1)) with (S i) by lia.
      destruct (grow_contents m1 id n (S i) EO ltac:(lia)) as (O2&C2&F2&_).
      eexists _, (S i). split; [reflexivity|]. split; [apply wr_same|].
      split; [apply holds_scratch; [|auto]; eapply holds_sframe; [exact H1|apply sframe_frame; exact F2|exact O2]|].
      split; [rewrite contents_scratch by auto; now rewrite C2, CM|]. split; [lia|]. split.
      * apply xframe_trans with m1; [apply xframe_s, FR|]. apply xframe_s. eapply sframe_trans; [apply sframe_frame; exact F2|]. now apply sframe_wr.
      * destruct F2 as (_&_&_&MN). change (mnext (wr (grow_array m1 id (S i)) (LStack 0) (VMem x s))) with (mnext (grow_array m1 id (S i))).
        rewrite MN. change (mnext m1) with (mnext m). lia.
    + rewrite MK by auto. eexists _, n. split; [reflexivity|]. split; [apply wr_same|]. split; [now apply holds_scratch|].
      split; [rewrite contents_scratch by auto; rewrite CM, pad_short by lia; reflexivity|]. split; [lia|]. split.
      * apply xframe_trans with m1; [apply xframe_s, FR|]. apply xframe_s. now apply sframe_wr.
      * cbn. lia.
Qed.

Lemma read_gen m x l i s f : variable m x -> view m x = Some l -> member x (Z.of_nat i) = Ok (VMem x s) -> (s <= i)%nat -> Z.of_nat i < 134217727 -> exists m',
  st_read pbits hash_index new_table (S (S (S f))) x (VInt (Z.of_nat i)) m = Ok (nth s l (VInt 0), m') /\
  view m' x = Some (pad l (S i)) /\ variable m' x /\ xframe m m' x (obj_of m x).
Proof.
  intros V L MB SI B. destruct (index_gen m x l i s f V L MB SI B) as (m1&n&E&E0&H&C&LT&F&MN&MN2).
  destruct (variable_scratch m x V) as (NS&NF&NE&LE).
  unfold st_read. change (wr (wr m (slot 0) (VRef x)) (slot 1) (VInt (Z.of_nat i))) with (args2 m x (VInt (Z.of_nat i))).
  unfold slot. rewrite E. cbn [bind]. rewrite (member_deref pbits m1 x (obj_of m x) n s) by (auto; lia). cbn [bind].
  assert (ST: scratch LTemp2) by (unfold scratch; auto).
  pose proof (holds_scratch _ _ _ _ LTemp2 (VInt (rdi pbits m1 LTemp2)) H ST) as H2.
  eexists. split; [|split; [|split]].
  - do 2 f_equal. rewrite wr_other by discriminate.
    pose proof (contents_nth m1 (obj_of m x) n s (h_obj _ _ _ _ H) ltac:(lia)) as N. rewrite C in N.
    apply nth_error_nth with (d := VInt 0) in N. rewrite nth_pad in N. rewrite N. reflexivity.
  - unfold view. rewrite (h_val _ _ _ _ H2), (h_obj _ _ _ _ H2). f_equal. rewrite contents_temp. exact C.
  - split.
    + destruct V as [V _]. destruct x as [| |j k| | |]; auto. destruct V as [V1 V2].
      split; [cbn; lia|]. rewrite (h_val _ _ _ _ H2). intros [= EJ]. apply (h_self _ _ _ _ H k). congruence.
    + intros id. rewrite (h_val _ _ _ _ H2). intros [= <-]. exact MN2.
  - eapply xframe_trans; [exact F|]. apply xframe_s. now apply sframe_wr.
Qed.
Lemma write_gen m x l i s v f : variable m x -> view m x = Some l -> member x (Z.of_nat i) = Ok (VMem x s) -> (s <= i)%nat -> Z.of_nat i < 134217727 -> plain v -> exists m',
  st_write pbits hash_index new_table (S (S (S f))) x (VInt (Z.of_nat i)) v m = Ok m' /\
  view m' x = Some (upd (pad l (S i)) s v) /\ variable m' x /\ xframe m m' x (obj_of m x).
Proof.
  intros V L MB SI B P. destruct (index_gen m x l i s f V L MB SI B) as (m1&n&E&E0&H&C&LT&F&MN&MN2).
  destruct (variable_scratch m x V) as (NS&NF&NE&LE).
  unfold st_write. change (wr (wr m (slot 0) (VRef x)) (slot 1) (VInt (Z.of_nat i))) with (args2 m x (VInt (Z.of_nat i))).
  unfold slot. rewrite E. cbn [bind]. assert (ST: scratch LTemp2) by (unfold scratch; auto). assert (S1: scratch (LStack 1)) by (unfold scratch; auto).
  set (m2 := wr m1 (LStack 1) v). assert (E2: mv m2 (LStack 0) = VMem x s) by (unfold m2; rewrite wr_other by discriminate; exact E0).
  rewrite E2. cbn [type_of]. assert (H2: holds m2 x (obj_of m x) n) by now apply holds_scratch.
  assert (P2: mv m2 (LStack 1) = v) by apply wr_same.
  assert (R: wr_assign pbits (S (S (S f))) TE (type_of v) (LStack 0) (LStack 1) m2
     = Ok (wr (wr m2 LTemp2 (VInt (rdi pbits m2 LTemp2))) (LElem (obj_of m x) s) v)).
  { cbn [wr_assign]. assert (T: type_of v <> TR) by (destruct v; cbn in *; try discriminate; contradiction).
    rewrite plain_deref by (rewrite P2; exact P). cbn [bind]. rewrite E2. cbn [is_member].
    unfold value_to_ex. rewrite E2. rewrite (h_val _ _ _ _ H2).
    rewrite plain_deref by (rewrite P2; exact P). cbn [bind]. rewrite P2. rewrite (member_deref pbits m2 x (obj_of m x) n s) by (auto; lia). cbn [bind].
    destruct (type_of v); auto; congruence. }
  rewrite R. set (m3 := wr m2 LTemp2 (VInt (rdi pbits m2 LTemp2))).
  assert (H3: holds m3 x (obj_of m x) n) by now apply holds_scratch.
  assert (SF: sframe m1 (wr m3 (LElem (obj_of m x) s) v) (obj_of m x)).
  { eapply sframe_trans; [apply (sframe_wr m1 (LStack 1) v); exact S1|]. eapply sframe_trans; [apply (sframe_wr m2 LTemp2); exact ST|]. apply sframe_frame, frame_elem. }
  assert (H4: holds (wr m3 (LElem (obj_of m x) s) v) x (obj_of m x) n) by (eapply holds_sframe; [exact H|exact SF|exact (h_obj _ _ _ _ H3)]).
  eexists. split; [reflexivity|]. split; [|split].
  - unfold view. rewrite (h_val _ _ _ _ H4), (h_obj _ _ _ _ H4). f_equal.
    rewrite (contents_write m3 (obj_of m x) n s v (h_obj _ _ _ _ H3)). unfold m3, m2. rewrite !contents_scratch by auto. now rewrite C.
  - split.
    + destruct V as [V _]. destruct x as [| |j k| | |]; auto. destruct V as [V1 V2].
      split; [cbn; lia|]. rewrite (h_val _ _ _ _ H4). intros [= EJ]. apply (h_self _ _ _ _ H k). congruence.
    + intros id. rewrite (h_val _ _ _ _ H4). intros [= <-]. exact MN2.
  - eapply xframe_trans; [exact F|]. now apply xframe_s.
Qed.
Lemma read_ok m x l i f : variable m x -> view m x = Some l -> Z.of_nat i < 2097152 -> exists m',
  st_read pbits hash_index new_table (S (S (S f))) x (VInt (Z.of_nat i)) m = Ok (nth i l (VInt 0), m') /\
  view m' x = Some (pad l (S i)) /\ variable m' x /\ xframe m m' x (obj_of m x).
Proof. intros V L B. apply read_gen; auto; try lia. rewrite member_ok by lia. now rewrite Nat2Z.id. Qed.
Lemma write_ok m x l i v f : variable m x -> view m x = Some l -> Z.of_nat i < 2097152 -> plain v -> exists m',
  st_write pbits hash_index new_table (S (S (S f))) x (VInt (Z.of_nat i)) v m = Ok m' /\
  view m' x = Some (upd (pad l (S i)) i v) /\ variable m' x /\ xframe m m' x (obj_of m x).
Proof. intros V L B. apply write_gen; auto; try lia. rewrite member_ok by lia. now rewrite Nat2Z.id. Qed.
End P.
