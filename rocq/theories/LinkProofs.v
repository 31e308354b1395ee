(* The linker: what each of its writes leaves alone, and what the finished image contains. *)
From Verif Require Import Base BaseLemmas HashModel HashProofs ContModel OpsModel VmModel EmitModel CcModel LinkModel LinkSpec JumpProofs LayProofs TableProofs.

Lemma lenZ_cons {A} (x : A) l : lenZ (x :: l) = 1 + lenZ l.
Proof. unfold lenZ. cbn [length]. lia. Qed.
Lemma cok_inj {A} (x y : A) : COk x = COk y -> x = y.
Proof. congruence. Qed.
(* ---- writes ---- *)
Lemma put_inv l i v l' : put l i v = COk l' ->
  0 <= i < lenZ l /\ lenZ l' = lenZ l /\ nthZ l' i = Some v /\ forall j, j <> i -> nthZ l' j = nthZ l j.
Proof.
  unfold put. destruct ((0 <=? i) && (i <? lenZ l))%bool eqn:E; [|discriminate]. intros [= <-].
  apply Bool.andb_true_iff in E as [E1 E2]. apply Z.leb_le in E1. apply Z.ltb_lt in E2.
  split; [lia|]. split; [apply lenZ_upd|]. split; [apply nthZ_upd_same; lia|]. intros j N. apply nthZ_upd_other; lia.
Qed.
Lemma put2_inv l i v l' : put2 l i v = COk l' ->
  0 <= i /\ i + 2 <= lenZ l /\ lenZ l' = lenZ l /\ nthZ l' i = Some (u8 v) /\ nthZ l' (i + 1) = Some (u8 (v / 256)) /\
  forall j, ~ (i <= j < i + 2) -> nthZ l' j = nthZ l j.
Proof.
  unfold put2. destruct (put l i (u8 v)) as [l1| |] eqn:E; try discriminate. cbn [cbind]. intros E2.
  apply put_inv in E as (R1 & L1 & A1 & B1). apply put_inv in E2 as (R2 & L2 & A2 & B2).
  split; [lia|]. split; [lia|]. split; [lia|]. split; [rewrite B2 by lia; exact A1|]. split; [exact A2|].
  intros j N. rewrite B2 by lia. apply B1. lia.
Qed.
Lemma put2_read l i v l' : put2 l i v = COk l' -> 0 <= v < 65536 -> rdu16 l' i = Some v.
Proof.
  intros E V. apply put2_inv in E as (_ & _ & _ & A & B & _). unfold rdu16, rd8. rewrite A, B. f_equal. unfold u8. lia.
Qed.
(* [l'] differs from [l] only inside the intervals S; the first byte of one is not NewObjectTable then *)
Definition edited (S : list (Z * Z)) (l l' : list Z) : Prop :=
  lenZ l' = lenZ l /\ forall j, nthZ l' j = nthZ l j \/
    exists x, In x S /\ inside x j /\ (j = fst x -> nthZ l' j <> Some (byte_of O_NewObjectTable)).
Lemma edited_refl S l : edited S l l.
Proof. split; [reflexivity|]. intros j. now left. Qed.
Lemma edited_trans S T l1 l2 l3 : edited S l1 l2 -> edited T l2 l3 -> edited (S ++ T) l1 l3.
Proof.
  intros [L1 H1] [L2 H2]. split; [congruence|]. intros j. destruct (H2 j) as [E|(x & I & J & N)].
  - destruct (H1 j) as [E1|(x & I & J & N)]; [left; congruence|]. right. exists x. rewrite E. split; [apply in_or_app; now left|auto].
  - right. exists x. split; [apply in_or_app; now right|auto].
Qed.
Lemma edited_weak S T l l' : edited S l l' -> (forall x, In x S -> In x T) -> edited T l l'.
Proof. intros [L H] K. split; [exact L|]. intros j. destruct (H j) as [E|(x & I & J)]; [now left|right; exists x; split; [now apply K|exact J]]. Qed.
Lemma edited_at S l l' j : edited S l l' -> Forall (fun x => ~ inside x j) S -> nthZ l' j = nthZ l j.
Proof. intros [_ H] F. destruct (H j) as [E|(x & I & J & _)]; [exact E|]. rewrite Forall_forall in F. destruct (F x I J). Qed.
Lemma edited_app S a l l' : edited S l l' -> edited (map (fun x => (lenZ a + fst x, snd x)) S) (a ++ l) (a ++ l').
Proof.
  intros [L H]. split; [rewrite !lenZ_app; lia|]. intros j. destruct (Z.ltb_spec j (lenZ a)) as [LT|GE].
  - left. now rewrite !nthZ_app1.
  - replace j with (lenZ a + (j - lenZ a)) by lia. rewrite !nthZ_app2 by lia. destruct (H (j - lenZ a)) as [E|(x & I & J & N)]; [now left|].
    right. exists (lenZ a + fst x, snd x). split; [apply (in_map (fun x => (lenZ a + fst x, snd x))); exact I|]. unfold inside in *. cbn [fst snd]. split; [lia|]. intros K. apply N. lia.
Qed.

(* ---- names ---- *)
Lemma unit_index_spec h us : forall k, match unit_index h us k with
  | Some i => exists n, i = k + Z.of_nat n /\ named us h n
  | None => unnamed us h end.
Proof.
  induction us as [|u us IH]; intros k; cbn [unit_index]; [constructor|].
  destruct (Z.eqb_spec (u_hash u) h) as [E|N].
  - exists O. split; [cbn; lia|]. split; [exists u; auto|]. intros i v L. lia.
  - specialize (IH (k + 1)). destruct (unit_index h us (k + 1)) as [i|].
    + destruct IH as (n & -> & (v & NV & HV) & FST). exists (S n). split; [lia|]. split; [exists v; auto|].
      intros [|i] w L NW; [injection NW as <-; exact N|]. apply (FST i w); [lia|exact NW].
    + constructor; auto.
Qed.
Lemma named_unique us h i j : named us h i -> named us h j -> i = j.
Proof.
  intros [(u & N & E) F] [(v & N' & E') F']. destruct (Nat.lt_trichotomy i j) as [L|[L|L]]; [|exact L|].
  - destruct (F' i u L N E).
  - destruct (F j v L N' E').
Qed.
Lemma named_not_unnamed us h i : named us h i -> unnamed us h -> False.
Proof. intros [(u & N & E) _] U. unfold unnamed in U. rewrite Forall_forall in U. exact (U u (nth_error_In _ _ N) E). Qed.
Lemma named_lt us h i : named us h i -> (i < length us)%nat.
Proof. intros [(u & N & _) _]. apply nth_error_Some. rewrite N. discriminate. Qed.
(* the same names *)
Lemma unit_index_map us vs h : map u_hash us = map u_hash vs -> forall k, unit_index h us k = unit_index h vs k.
Proof.
  revert vs. induction us as [|u us IH]; intros [|v vs] E k; try discriminate E; [reflexivity|]. cbn in E. injection E as E1 E2.
  cbn. rewrite E1. destruct (u_hash v =? h); [reflexivity|]. now apply IH.
Qed.

(* ---- calls ---- *)
(* the bytes of a completed call; [o] the bytes before *)
Definition six (us : list cunit) (h : Z) (o g : Z -> option Z) : Prop :=
  g 1 = o 1 /\
  match unit_index h us 0 with
  | Some i => g 0 = Some (byte_of O_CallFunctionByIndex) /\ g 2 = Some (u8 i) /\
     ((g 3 = Some 3 /\ (o 5 = Some (byte_of O_PopOne) \/ o 6 = Some (byte_of O_NewObjectTable))) \/
      (g 3 = Some 2 /\ o 5 <> Some (byte_of O_PopOne) /\ g 5 = Some (byte_of O_PushIndexFunctionReturnValue)))
  | None =>
    if h =? yield_hash then g 0 = Some (byte_of O_Yield)
    else exists pop : bool, (pop = true <-> o 5 = Some (byte_of O_PopOne)) /\
      g 0 = Some (byte_of (if pop then O_CallFunctionByHashAndPop else O_CallFunctionByHash)) /\
      g 2 = Some (u8 h) /\ g 3 = Some (u8 (h / 256)) /\ g 4 = Some (u8 (h / 65536)) /\ g 5 = Some (u8 (h / 65536 / 256))
  end.
Definition at_ (l : list Z) (p k : Z) : option Z := nthZ l (p + k).
Lemma put_edit x l i v l' : put l i v = COk l' -> inside x i -> (i = fst x -> v <> byte_of O_NewObjectTable) -> edited [x] l l'.
Proof.
  intros E J N. apply put_inv in E as (_ & L & A & B). split; [exact L|]. intros j. destruct (Z.eq_dec j i) as [->|NE].
  - right. exists x. split; [now left|]. split; [exact J|]. intros F. rewrite A. intros Q. injection Q as Q. exact (N F Q).
  - left. now apply B.
Qed.
Lemma edited_one_trans x l1 l2 l3 : edited [x] l1 l2 -> edited [x] l2 l3 -> edited [x] l1 l3.
Proof. intros A B. eapply edited_weak; [exact (edited_trans _ _ _ _ _ A B)|]. intros y [->|[->|[]]]; now left. Qed.
Lemma put2_edit x l i v l' : put2 l i v = COk l' -> inside x i -> inside x (i + 1) -> i <> fst x -> edited [x] l l'.
Proof.
  unfold put2. destruct (put l i (u8 v)) as [l1| |] eqn:E; try discriminate. cbn [cbind]. intros E2 J1 J2 N.
  eapply edited_one_trans.
  - eapply put_edit; [exact E|exact J1|congruence].
  - eapply put_edit; [exact E2|exact J2|]. unfold inside in *. intros Q. lia.
Qed.
Ltac steps := repeat match goal with
  | H : cbind ?x _ = COk _ |- _ => let E := fresh "E" in destruct x eqn:E; try discriminate H; cbn [cbind] in H end.
Ltac bytes := unfold at_; repeat match goal with
  | H : (forall j, j <> ?i -> nthZ ?l j = _) |- context [nthZ ?l ?k] => rewrite (H k) by lia
  | H : (forall j, ~ (?i <= j < _) -> nthZ ?l j = _) |- context [nthZ ?l ?k] => rewrite (H k) by lia end.
Lemma call_one_spec us h p l l' : call_one us h p l = COk l' ->
  (unit_index yield_hash us 0 = None) ->
  edited [(p, call_len h)] l l' /\ six us h (at_ l p) (at_ l' p).
Proof.
  intros H Y. unfold call_one in H. unfold six. destruct (unit_index h us 0) as [i|] eqn:UI.
  - assert (HL : call_len h = 6).
    { unfold call_len. destruct (Z.eqb_spec h yield_hash) as [->|_]; [congruence|reflexivity]. }
    rewrite HL. steps. rename a into l1, a0 into l2, a1 into a, a2 into pop.
    pose proof (put_edit (p, 6) _ _ _ _ E ltac:(unfold inside; cbn; lia) ltac:(discriminate)) as D1.
    pose proof (put_edit (p, 6) _ _ _ _ E0 ltac:(unfold inside; cbn; lia) ltac:(cbn; lia)) as D2.
    apply put_inv in E as (R1 & L1 & A1 & B1). apply put_inv in E0 as (R2 & L2 & A2 & B2).
    unfold get in E1. destruct (nthZ l2 (p + 5)) as [a'|] eqn:N5; [|discriminate]. injection E1 as ->.
    assert (O5 : nthZ l (p + 5) = Some a) by (rewrite <- N5; bytes; reflexivity).
    assert (PP : pop = true -> nthZ l (p + 5) = Some (byte_of O_PopOne) \/ nthZ l (p + 6) = Some (byte_of O_NewObjectTable)).
    { intros ->. destruct (Z.eqb_spec a (byte_of O_PopOne)) as [->|NE]; [now left|].
      unfold get in E2. destruct (nthZ l2 (p + 6)) as [c|] eqn:N6; [|discriminate]. cbn [cbind] in E2. injection E2 as E2.
      apply Z.eqb_eq in E2. subst c. right. etransitivity; [|exact N6]. bytes. reflexivity. }
    assert (PN : pop = false -> nthZ l (p + 5) <> Some (byte_of O_PopOne)).
    { intros ->. rewrite O5. destruct (Z.eqb_spec a (byte_of O_PopOne)) as [->|NE]; [discriminate E2|]. congruence. }
    destruct pop.
    + pose proof (put_edit (p, 6) _ _ _ _ H ltac:(unfold inside; cbn; lia) ltac:(cbn; lia)) as D3.
      apply put_inv in H as (R3 & L3 & A3 & B3).
      split; [eapply edited_one_trans; [exact D1|eapply edited_one_trans; eauto]|]. unfold at_. rewrite Z.add_0_r.
      split; [bytes; reflexivity|]. split; [bytes; exact A1|]. split; [bytes; exact A2|]. left. split; [exact A3|]. apply PP. reflexivity.
    + steps. rename a0 into l3.
      pose proof (put_edit (p, 6) _ _ _ _ E ltac:(unfold inside; cbn; lia) ltac:(cbn; lia)) as D3.
      pose proof (put_edit (p, 6) _ _ _ _ H ltac:(unfold inside; cbn; lia) ltac:(cbn; lia)) as D4.
      apply put_inv in E as (R3 & L3 & A3 & B3). apply put_inv in H as (R4 & L4 & A4 & B4).
      split; [eapply edited_one_trans; [exact D1|eapply edited_one_trans; [exact D2|eapply edited_one_trans; eauto]]|]. unfold at_. rewrite Z.add_0_r.
      split; [bytes; reflexivity|]. split; [bytes; exact A1|]. split; [bytes; exact A2|]. right. split; [bytes; exact A3|]. split; [apply PN; reflexivity|exact A4].
  - destruct (Z.eqb_spec h yield_hash) as [->|NY].
    + assert (HL : call_len yield_hash = 2) by (unfold call_len; now rewrite Z.eqb_refl). rewrite HL.
      pose proof (put_edit (p, 2) _ _ _ _ H ltac:(unfold inside; cbn; lia) ltac:(discriminate)) as D1.
      apply put_inv in H as (R1 & L1 & A1 & B1). split; [exact D1|]. unfold at_. rewrite Z.add_0_r. split; [bytes; reflexivity|exact A1].
    + assert (HL : call_len h = 6) by (unfold call_len; now rewrite (proj2 (Z.eqb_neq _ _) NY)). rewrite HL. steps. rename a0 into l1, a1 into l2.
      pose proof (put_edit (p, 6) _ _ _ _ E0 ltac:(unfold inside; cbn; lia) ltac:(intros _; destruct (a =? byte_of O_PopOne); discriminate)) as D1.
      pose proof (put2_edit (p, 6) _ _ _ _ E1 ltac:(unfold inside; cbn; lia) ltac:(unfold inside; cbn; lia) ltac:(cbn; lia)) as D2.
      pose proof (put2_edit (p, 6) _ _ _ _ H ltac:(unfold inside; cbn; lia) ltac:(unfold inside; cbn; lia) ltac:(cbn; lia)) as D3.
      apply put_inv in E0 as (R1 & L1 & A1 & B1). apply put2_inv in E1 as (_ & R2 & L2 & A2 & A2' & B2). apply put2_inv in H as (_ & R3 & L3 & A3 & A3' & B3).
      unfold get in E. destruct (nthZ l (p + 5)) as [a'|] eqn:N5; [|discriminate]. injection E as ->.
      split; [eapply edited_one_trans; [exact D1|eapply edited_one_trans; eauto]|]. unfold at_. rewrite Z.add_0_r. split; [bytes; reflexivity|].
      exists (a =? byte_of O_PopOne). split; [rewrite N5, Z.eqb_eq; split; [intros ->; reflexivity|intros Q; congruence]|].
      split; [bytes; exact A1|]. replace (p + 2 + 1) with (p + 3) in A2' by lia. replace (p + 4 + 1) with (p + 5) in A3' by lia.
      split; [bytes; exact A2|]. split; [bytes; exact A2'|]. split; [exact A3|exact A3'].
Qed.
Lemma six_move us h o g o' g' : unit_index yield_hash us 0 = None -> six us h o g ->
  (forall k, 0 <= k < call_len h -> o' k = o k) -> (h <> yield_hash -> o 6 = Some (byte_of O_NewObjectTable) -> o' 6 = Some (byte_of O_NewObjectTable)) ->
  (forall k, 0 <= k < call_len h -> g' k = g k) -> six us h o' g'.
Proof.
  intros Y [A B] O O6 G. assert (L : 2 <= call_len h) by (unfold call_len; destruct (h =? yield_hash); lia).
  split; [rewrite O, G by lia; exact A|]. destruct (unit_index h us 0) as [i|] eqn:UI.
  - assert (HL : call_len h = 6).
    { unfold call_len. destruct (Z.eqb_spec h yield_hash) as [->|_]; [congruence|reflexivity]. }
    rewrite HL in O, G. destruct B as (B0 & B2 & B3). rewrite !G, O by lia. split; [exact B0|]. split; [exact B2|].
    assert (NY : h <> yield_hash) by (intros ->; congruence).
    destruct B3 as [[E [Q|Q]]|Q]; [left; auto|left; auto|right; exact Q].
  - destruct (Z.eqb_spec h yield_hash) as [E|NY]; [rewrite G by lia; exact B|].
    assert (HL : call_len h = 6) by (unfold call_len; now rewrite (proj2 (Z.eqb_neq _ _) NY)).
    rewrite HL in O, G. rewrite !G, O by lia. exact B.
Qed.

(* calls, one after the other *)
Fixpoint call_list (us : list cunit) (base : Z) (ss : list (Z * Z)) (l : list Z) : cres (list Z) :=
  match ss with [] => COk l | s :: t => l1 <~ call_one us (fst s) (base + snd s) l ;; call_list us base t l1 end.
Lemma call_list_app us base a b l : call_list us base (a ++ b) l = (l1 <~ call_list us base a l ;; call_list us base b l1).
Proof. revert l. induction a as [|s a IH]; intros l; [reflexivity|]. cbn [app call_list]. destruct (call_one us (fst s) (base + snd s) l); cbn [cbind]; [apply IH|reflexivity|reflexivity]. Qed.
Lemma call_refs_list us h base rs l : call_refs us h base rs l = call_list us base (map (fun r => (h, r)) rs) l.
Proof. revert l. induction rs as [|r rs IH]; intros l; [reflexivity|]. cbn. destruct (call_one us h (base + r) l); cbn [cbind]; [apply IH|reflexivity|reflexivity]. Qed.
Lemma call_all_list us base fs l : call_all us base fs l = call_list us base (sites fs) l.
Proof.
  revert l. induction fs as [|[h rs] fs IH]; intros l; [reflexivity|]. unfold sites in *. cbn [call_all flat_map fst snd]. rewrite call_list_app, call_refs_list.
  destruct (call_list us base (map (fun r => (h, r)) rs) l); cbn [cbind]; [apply IH|reflexivity|reflexivity].
Qed.
Definition call_iv (base : Z) (s : Z * Z) : Z * Z := (base + snd s, call_len (fst s)).
Lemma apart_not_inside x y j : disjoint x y -> inside x j -> ~ inside y j.
Proof. unfold disjoint, inside. lia. Qed.
Lemma apart_sym x y : disjoint x y -> disjoint y x.
Proof. unfold disjoint. lia. Qed.
Lemma call_list_spec us base ss : forall l l', call_list us base ss l = COk l' -> unit_index yield_hash us 0 = None ->
  ForallOrdPairs disjoint (map (call_iv base) ss) ->
  edited (map (call_iv base) ss) l l' /\ forall h r, In (h, r) ss -> six us h (at_ l (base + r)) (at_ l' (base + r)).
Proof.
  induction ss as [|[h r] ss IH]; intros l l' H Y A.
  - injection H as <-. split; [apply edited_refl|intros ? ? []].
  - cbn [call_list fst snd] in H. steps. rename a into l1. cbn [map] in A. inversion A as [|? ? A1 A2]; subst.
    destruct (call_one_spec _ _ _ _ _ E Y) as [D1 S1]. destruct (IH _ _ H Y A2) as [D2 S2].
    split; [exact (edited_trans [call_iv base (h, r)] _ _ _ _ D1 D2)|].
    intros h' r' [[= <- <-]|I].
    + eapply six_move; [exact Y|exact S1|reflexivity|auto|]. intros k K. unfold at_. eapply edited_at; [exact D2|].
      eapply Forall_impl; [|exact A1]. intros x AP. eapply apart_not_inside; [exact AP|]. unfold inside, call_iv. cbn [fst snd]. lia.
    + assert (AP : disjoint (call_iv base (h, r)) (call_iv base (h', r'))).
      { rewrite Forall_forall in A1. apply A1. exact (in_map (call_iv base) _ _ I). }
      eapply six_move; [exact Y|exact (S2 _ _ I)| | |reflexivity].
      * intros k K. unfold at_. symmetry. eapply edited_at; [exact D1|]. constructor; [|constructor].
        eapply apart_not_inside; [apply apart_sym, AP|]. unfold inside, call_iv. cbn [fst snd]. lia.
      * intros NY. unfold at_. destruct D1 as [_ D1]. destruct (D1 (base + r' + 6)) as [<-|(x & [<-|[]] & J & N)]; [auto|]. intros Q.
        unfold disjoint, call_iv, inside in *. cbn [fst snd] in *.
        destruct (Z.eq_dec (base + r' + 6) (base + r)) as [EQ|NE]; [destruct (N EQ Q)|]. exfalso.
        assert (HL : call_len h' = 6) by (unfold call_len; now rewrite (proj2 (Z.eqb_neq _ _) NY)). lia.
Qed.

(* ---- gotos ---- *)
Definition goto_bytes (js : list jtarget) (h q : Z) (g : Z -> option Z) : Prop :=
  exists j, find (fun j => j_goto j =? h) js = Some j /\ let d := j_off j - q - 2 in
    (g 0 = Some (byte_of O_RelativeJump8) /\ g 1 = Some (u8 d) /\ -128 <= d < 128) \/
    (g 0 = Some (byte_of O_RelativeJump) /\ g 1 = Some (u8 d) /\ g 2 = Some (u8 (d / 256)) /\ -32768 <= d < 32768).
Definition goto_iv (g : Z * Z) : Z * Z := (snd g, 3).
Lemma goto_one_spec js h q l l' : goto_one js (h, q) l = COk l' -> edited [(q, 3)] l l' /\ goto_bytes js h q (at_ l' q).
Proof.
  unfold goto_one, goto_bytes. cbn [fst snd]. destruct (find (fun j => j_goto j =? h) js) as [j|]; [|discriminate]. intros H.
  destruct ((j_off j - q - 2 <? 128) && (-129 <? j_off j - q - 2))%bool eqn:E8.
  - apply Bool.andb_true_iff in E8 as [E1 E2]. apply Z.ltb_lt in E1, E2. steps. rename a into l1.
    pose proof (put_edit (q, 3) _ _ _ _ E ltac:(unfold inside; cbn; lia) ltac:(discriminate)) as D1.
    pose proof (put_edit (q, 3) _ _ _ _ H ltac:(unfold inside; cbn; lia) ltac:(cbn; lia)) as D2.
    apply put_inv in E as (_ & _ & A1 & B1). apply put_inv in H as (_ & _ & A2 & B2).
    split; [eapply edited_one_trans; eauto|]. exists j. split; [reflexivity|]. left. unfold at_. rewrite Z.add_0_r.
    split; [bytes; exact A1|]. split; [exact A2|lia].
  - destruct ((j_off j - q - 2 <? -32768) || (32767 <? j_off j - q - 2))%bool eqn:E16; [discriminate|].
    apply Bool.orb_false_iff in E16 as [E1 E2]. apply Z.ltb_ge in E1, E2. steps. rename a into l1.
    pose proof (put_edit (q, 3) _ _ _ _ E ltac:(unfold inside; cbn; lia) ltac:(discriminate)) as D1.
    pose proof (put2_edit (q, 3) _ _ _ _ H ltac:(unfold inside; cbn; lia) ltac:(unfold inside; cbn; lia) ltac:(cbn; lia)) as D2.
    apply put_inv in E as (_ & _ & A1 & B1). apply put2_inv in H as (_ & _ & _ & A2 & A3 & B2).
    split; [eapply edited_one_trans; eauto|]. exists j. split; [reflexivity|]. right. unfold at_. rewrite Z.add_0_r.
    replace (q + 1 + 1) with (q + 2) in A3 by lia. split; [bytes; exact A1|]. split; [exact A2|]. split; [exact A3|lia].
Qed.
Lemma goto_bytes_move js h q g g' : goto_bytes js h q g -> (forall k, 0 <= k < 3 -> g' k = g k) -> goto_bytes js h q g'.
Proof. intros (j & F & B) G. exists j. split; [exact F|]. cbv zeta in *. rewrite !G by lia. exact B. Qed.
Lemma goto_all_spec js gs : forall l l', goto_all js gs l = COk l' -> ForallOrdPairs disjoint (map goto_iv gs) ->
  edited (map goto_iv gs) l l' /\ forall h q, In (h, q) gs -> goto_bytes js h q (at_ l' q).
Proof.
  induction gs as [|[h q] gs IH]; intros l l' H A.
  - injection H as <-. split; [apply edited_refl|intros ? ? []].
  - cbn [goto_all] in H. steps. rename a into l1. cbn [map] in A. inversion A as [|? ? A1 A2]; subst.
    destruct (goto_one_spec _ _ _ _ _ E) as [D1 S1]. destruct (IH _ _ H A2) as [D2 S2].
    split; [exact (edited_trans [goto_iv (h, q)] _ _ _ _ D1 D2)|].
    intros h' q' [[= <- <-]|I]; [|exact (S2 _ _ I)].
    eapply goto_bytes_move; [exact S1|]. intros k K. unfold at_. eapply edited_at; [exact D2|].
    eapply Forall_impl; [|exact A1]. intros x AP. eapply apart_not_inside; [exact AP|]. unfold inside, goto_iv. cbn [fst snd]. lia.
Qed.

(* ---- the code of one unit ---- *)
Definition body_at (us : list cunit) (b : bcode) (l : list Z) (p : Z) : Prop :=
  (forall i, 0 <= i < lenZ (b_all b) -> untouched b i -> nthZ l (p + i) = nthZ (b_all b) i) /\
  (forall h r, In (h, r) (call_sites b) -> six us h (at_ (b_all b) r) (at_ l (p + r))) /\
  (forall h g, In (h, g) (b_gotos b) -> goto_bytes (b_jumps b) h g (at_ l (p + g))).
(* only places of object references change *)
Definition obj_iv (p : Z) (b : bcode) : list (Z * Z) := map (fun s => (p + snd s, 2)) (object_sites b).
Lemma FOP_app {A} (R : A -> A -> Prop) a b : ForallOrdPairs R (a ++ b) ->
  ForallOrdPairs R a /\ ForallOrdPairs R b /\ forall x y, In x a -> In y b -> R x y.
Proof.
  induction a as [|x a IH]; cbn; intros H; [split; [constructor|]; split; [exact H|intros ? ? []]|].
  inversion H as [|? ? H1 H2]; subst. destruct (IH H2) as (P & Q & S). rewrite Forall_app in H1. destruct H1 as [F1 F2].
  split; [constructor; auto|]. split; [exact Q|]. intros y z [<-|I] J; [|now apply S]. rewrite Forall_forall in F2. now apply F2.
Qed.
Lemma FOP_map_shift p ss : ForallOrdPairs disjoint (map (fun s : Z * Z => (snd s, call_len (fst s))) ss) -> ForallOrdPairs disjoint (map (call_iv p) ss).
Proof.
  induction ss as [|s ss IH]; cbn; intros H; [constructor|]. inversion H as [|? ? H1 H2]; subst. constructor; [|now apply IH].
  rewrite Forall_forall in *. intros x I. apply in_map_iff in I as (s' & <- & I). specialize (H1 _ (in_map _ _ _ I)). unfold disjoint, call_iv in *. cbn [fst snd] in *. lia.
Qed.
Lemma edited_apart S l l' x j : edited S l l' -> inside x j -> (forall y, In y S -> disjoint x y) -> nthZ l' j = nthZ l j.
Proof.
  intros D J A. eapply edited_at; [exact D|]. rewrite Forall_forall. intros y I. eapply apart_not_inside; [|exact J]. now apply A.
Qed.
Lemma body_at_move us b l l' p : unit_index yield_hash us 0 = None -> completable b -> body_at us b l p ->
  (forall j, p <= j < p + lenZ (b_all b) -> Forall (fun x => ~ inside x j) (obj_iv p b) -> nthZ l' j = nthZ l j) ->
  body_at us b l' p.
Proof.
  intros Y [CI CD] (B1 & B2 & B3) K. unfold intervals in CI, CD.
  apply FOP_app in CD as (D1 & D23 & X1). apply FOP_app in D23 as (D2 & D3 & X2). rewrite !Forall_app in CI. destruct CI as (C1 & C2 & C3).
  rewrite Forall_forall in C1, C2, C3. split; [|split].
  - intros i I U. rewrite K; [now apply B1|lia|]. unfold untouched, intervals in U. rewrite !Forall_app in U. destruct U as (_ & U & _).
    rewrite Forall_forall in *. intros x J. apply in_map_iff in J as (s & <- & J). specialize (U _ (in_map (fun s => (snd s, 2)) _ _ J)). unfold inside in *. cbn [fst snd] in *. lia.
  - intros h r I. eapply six_move; [exact Y|exact (B2 _ _ I)|reflexivity|auto|]. intros k L. unfold at_.
    pose proof (C1 _ (in_map (fun s => (snd s, call_len (fst s))) _ _ I)) as R. cbn [fst snd] in R.
    apply K; [lia|]. rewrite Forall_forall. intros x J. apply in_map_iff in J as (s & <- & J).
    pose proof (X1 _ _ (in_map (fun s => (snd s, call_len (fst s))) _ _ I) (in_or_app _ _ _ (or_introl (in_map (fun s => (snd s, 2)) _ _ J)))) as D.
    unfold disjoint, inside in *. cbn [fst snd] in *. lia.
  - intros h g I. eapply goto_bytes_move; [exact (B3 _ _ I)|]. intros k L. unfold at_.
    pose proof (C3 _ (in_map (fun g => (snd g, 3)) _ _ I)) as R. cbn [fst snd] in R.
    apply K; [lia|]. rewrite Forall_forall. intros x J. apply in_map_iff in J as (s & <- & J).
    pose proof (X2 _ _ (in_map (fun s => (snd s, 2)) _ _ J) (in_map (fun g => (snd g, 3)) _ _ I)) as D.
    unfold disjoint, inside in *. cbn [fst snd] in *. lia.
Qed.
Lemma link_code_spec us b code code' ls : link_code us b code = COk (code', ls) -> unit_index yield_hash us 0 = None ->
  completable b -> lenZ code < 65536 ->
  lenZ code' = lenZ code + lenZ (b_all b) /\ (forall j, j < lenZ code -> nthZ code' j = nthZ code j) /\
  body_at us b code' (lenZ code) /\ ls = lookups_of us (lenZ code) b.
Proof.
  unfold link_code. intros H Y CO L. assert (NN : 0 <= lenZ code) by apply lenZ_nonneg.
  replace (u16 (lenZ code)) with (lenZ code) in H by (unfold u16; lia). set (p := lenZ code) in *. cbv zeta in H. steps. rename a into body, a0 into c1. injection H as <- <-.
  rewrite call_all_list in E0. pose proof CO as CO'. destruct CO as [CI CD]. unfold intervals in CI, CD.
  apply FOP_app in CD as (D1 & D23 & X1). apply FOP_app in D23 as (D2 & D3 & X2). rewrite !Forall_app in CI. destruct CI as (C1 & C2 & C3).
  rewrite Forall_forall in C1, C2, C3.
  destruct (goto_all_spec _ _ _ _ E D3) as [DG SG]. destruct (call_list_spec us p _ _ _ E0 Y (FOP_map_shift p _ D1)) as [DC SC].
  assert (LB : lenZ body = lenZ (b_all b)) by exact (proj1 DG).
  assert (LC : lenZ c1 = p + lenZ (b_all b)) by (destruct DC as [Q _]; rewrite Q, lenZ_app, LB; reflexivity).
  split; [exact LC|]. split; [|split; [|reflexivity]].
  - intros j J. rewrite <- (nthZ_app1 code body) by exact J. eapply edited_at; [exact DC|]. rewrite Forall_forall. intros x I.
    apply in_map_iff in I as (s & <- & I). pose proof (C1 _ (in_map (fun s => (snd s, call_len (fst s))) _ _ I)) as R. unfold inside, call_iv. cbn [fst snd] in *. lia.
  - assert (AB : forall i, 0 <= i -> nthZ (code ++ body) (p + i) = nthZ body i) by (intros i I; apply nthZ_app2; exact I).
    split; [|split].
    + intros i I U. unfold untouched, intervals in U. rewrite !Forall_app in U. destruct U as (U1 & _ & U3). rewrite Forall_forall in U1.
      transitivity (nthZ (code ++ body) (p + i)).
      * eapply edited_at; [exact DC|]. rewrite Forall_forall. intros x J. apply in_map_iff in J as (s & <- & J).
        specialize (U1 _ (in_map (fun s => (snd s, call_len (fst s))) _ _ J)). unfold inside, call_iv in *. cbn [fst snd] in *. lia.
      * rewrite AB by lia. eapply edited_at; [exact DG|exact U3].
    + intros h r I. pose proof (C1 _ (in_map (fun s => (snd s, call_len (fst s))) _ _ I)) as R. cbn [fst snd] in R.
      assert (CL : 2 <= call_len h) by (unfold call_len; destruct (h =? yield_hash); lia).
      assert (DJ : forall h' q, In (h', q) (b_gotos b) -> disjoint (r, call_len h) (q, 3)).
      { intros h' q J. exact (X1 _ _ (in_map (fun s => (snd s, call_len (fst s))) _ _ I) (in_or_app _ _ _ (or_intror (in_map (fun g => (snd g, 3)) _ _ J)))). }
      eapply six_move; [exact Y|exact (SC _ _ I)| | |reflexivity].
      * intros k K. unfold at_. rewrite <- Z.add_assoc, AB by lia. symmetry. eapply edited_at; [exact DG|].
        rewrite Forall_forall. intros x J. apply in_map_iff in J as ([h' q] & <- & J). specialize (DJ _ _ J). unfold disjoint, inside, goto_iv in *. cbn [fst snd] in *. lia.
      * intros NY. unfold at_. rewrite <- Z.add_assoc, AB by lia. destruct DG as [_ DG]. destruct (DG (r + 6)) as [<-|(x & J & JI & N)]; [auto|]. intros Q.
        apply in_map_iff in J as ([h' q] & <- & J). specialize (DJ _ _ J).
        assert (HL : call_len h = 6) by (unfold call_len; now rewrite (proj2 (Z.eqb_neq _ _) NY)).
        unfold goto_iv, inside, disjoint in *. cbn [fst snd] in *. exfalso. apply N; [lia|exact Q].
    + intros h q I. eapply goto_bytes_move; [exact (SG _ _ I)|]. intros k K. unfold at_. pose proof (C3 _ (in_map (fun g => (snd g, 3)) _ _ I)) as R. cbn [fst snd] in R.
      rewrite <- (AB (q + k)) by lia. rewrite Z.add_assoc. eapply edited_at; [exact DC|]. rewrite Forall_forall. intros x J. apply in_map_iff in J as (s & <- & J).
      pose proof (X1 _ _ (in_map (fun s => (snd s, call_len (fst s))) _ _ J) (in_or_app _ _ _ (or_intror (in_map (fun g => (snd g, 3)) _ _ I)))) as D.
      unfold disjoint, inside, call_iv in *. cbn [fst snd] in *. lia.
Qed.

(* ---- the functions ---- *)
Lemma rdu16_move C C' i : (forall j, i <= j < i + 2 -> nthZ C' j = nthZ C j) -> rdu16 C' i = rdu16 C i.
Proof. intros K. unfold rdu16, rd8. now rewrite !K by lia. Qed.
Lemma link_code_len us b code code' ls : link_code us b code = COk (code', ls) -> unit_index yield_hash us 0 = None -> lenZ code <= lenZ code'.
Proof.
  intros H Y. unfold link_code in H. cbv zeta in H. steps. injection H as <- _.
  match goal with H : call_all _ _ _ _ = COk _ |- _ => rewrite call_all_list in H; rename H into HC end.
  assert (G : forall ss base x y, call_list us base ss x = COk y -> lenZ y = lenZ x).
  { clear - Y. induction ss as [|s ss IH]; intros base x y H; [injection H as <-; reflexivity|]. cbn [call_list] in H. steps.
    rewrite (IH _ _ _ H). exact (proj1 (proj1 (call_one_spec _ _ _ _ _ E Y))). }
  rewrite (G _ _ _ _ HC), lenZ_app. pose proof (lenZ_nonneg a). lia.
Qed.
Lemma link_unit_spec us pos u code code' ls ns : link_unit us pos u code = COk (code', ls, ns) -> unit_index yield_hash us 0 = None ->
  completable (u_code u) -> lenZ code' <= 65535 -> pos + 4 <= lenZ code ->
  exists p, lenZ code <= p /\ lenZ code' = p + lenZ (b_all (u_code u)) /\ 0 <= ns < 65536 /\
    rdu16 code' pos = Some ns /\ rdu16 code' (pos + 2) = Some p /\ body_at us (u_code u) code' p /\ ls = lookups_of us p (u_code u) /\
    forall j, j < lenZ code -> ~ (pos <= j < pos + 4) -> nthZ code' j = nthZ code j.
Proof.
  intros H Y CO L POS2. unfold link_unit in H.
  assert (NNB : 0 <= lenZ (b_all (u_code u))) by apply lenZ_nonneg. assert (NNC : 0 <= lenZ code) by apply lenZ_nonneg.
  steps. destruct a as [c1 n1]. steps. rename a into c2. destruct a0 as [c3 l3]. injection H as -> -> ->.
  assert (E' : exists c0 m, put2 code pos ns = COk c0 /\ c1 = c0 ++ m /\ 0 <= ns < 65536).
  { destruct (u_export u).
    - steps. injection E as <- <-. rename a into m. exists a0, m. split; [exact E3|]. split; [reflexivity|]. destruct (lenZ m =? 0); [lia|unfold u16; lia].
    - steps. injection E as <- <-. exists a, []. rewrite app_nil_r. split; [exact E2|]. split; [reflexivity|lia]. }
  destruct E' as (c0 & m & P0 & -> & NS). assert (NNM : 0 <= lenZ m) by apply lenZ_nonneg.
  pose proof (put2_read _ _ _ _ P0 NS) as R0. apply put2_inv in P0 as (P1 & P2 & P3 & _ & _ & P4).
  pose proof E0 as PQ. apply put2_inv in E0 as (Q1 & Q2 & Q3 & _ & _ & Q4). rewrite lenZ_app, P3 in Q3.
  pose proof (link_code_len _ _ _ _ _ E1 Y) as PRE.
  assert (LT : lenZ c2 < 65536) by lia. rewrite lenZ_app, P3 in PQ. replace (u16 (lenZ code + lenZ m)) with (lenZ code + lenZ m) in PQ by (unfold u16; lia).
  pose proof (put2_read _ _ _ _ PQ ltac:(lia)) as R2.
  destruct (link_code_spec _ _ _ _ _ E1 Y CO LT) as (L1 & L2 & L3 & ->). rewrite Q3 in *.
  exists (lenZ code + lenZ m). split; [lia|]. split; [lia|]. split; [exact NS|]. split; [|split; [|split; [exact L3|split; [reflexivity|]]]].
  - rewrite <- R0. apply rdu16_move. intros j J. rewrite L2 by lia. rewrite Q4 by lia. apply nthZ_app1. lia.
  - rewrite <- R2. apply rdu16_move. intros j J. apply L2. lia.
  - intros j J N. rewrite L2 by lia. rewrite Q4 by lia. rewrite nthZ_app1 by lia. apply P4. lia.
Qed.
Fixpoint units_at (all : list cunit) (C : list Z) (pos lo : Z) (us : list cunit) (ps ns : list Z) : Prop :=
  match us, ps, ns with
  | [], [], [] => lo <= lenZ C
  | u :: us, p :: ps, n :: ns =>
      lo <= p /\ 0 <= n < 65536 /\ rdu16 C pos = Some n /\ rdu16 C (pos + 2) = Some p /\ body_at all (u_code u) C p /\
      units_at all C (pos + 11) (p + lenZ (b_all (u_code u))) us ps ns
  | _, _, _ => False
  end.
Lemma units_at_length all C : forall us pos lo ps ns, units_at all C pos lo us ps ns -> length ps = length us /\ length ns = length us.
Proof. induction us as [|u us IH]; intros pos lo [|p ps] [|n ns] H; cbn [units_at] in H; try contradiction; [auto|]. destruct H as (_ & _ & _ & _ & _ & H). cbn [length]. destruct (IH _ _ _ _ H). lia. Qed.
Definition all_lookups (all : list cunit) (us : list cunit) (ps : list Z) : list (Z * Z) :=
  flat_map (fun x => lookups_of all (snd x) (u_code (fst x))) (combine us ps).
Definition in_slot (pos : Z) (n : nat) (j : Z) : Prop := exists i, 0 <= i < Z.of_nat n /\ pos + 11 * i <= j < pos + 11 * i + 4.
Lemma link_unit_len us pos u code code' ls ns : link_unit us pos u code = COk (code', ls, ns) -> unit_index yield_hash us 0 = None -> lenZ code <= lenZ code'.
Proof.
  intros H Y. unfold link_unit in H. steps. destruct a as [c1 n1]. steps. destruct a0 as [c3 l3]. injection H as -> -> ->.
  pose proof (link_code_len _ _ _ _ _ E1 Y) as PRE. apply put2_inv in E0 as (_ & _ & Q & _). destruct (u_export u).
  - steps. match goal with H : put2 _ _ _ = COk _ |- _ => apply put2_inv in H as (_ & _ & P & _) end. injection E as <- <-. rewrite lenZ_app in Q. pose proof (lenZ_nonneg a0). lia.
  - steps. match goal with H : put2 _ _ _ = COk _ |- _ => apply put2_inv in H as (_ & _ & P & _) end. injection E as <- <-. lia.
Qed.
Lemma link_units_len all us : forall pos code ls nss code' ls' nss', link_units all pos us code ls nss = COk (code', ls', nss') ->
  unit_index yield_hash all 0 = None -> lenZ code <= lenZ code'.
Proof.
  induction us as [|u us IH]; intros pos code ls nss code' ls' nss' H Y; cbn [link_units] in H; [injection H as <- _ _; lia|].
  steps. destruct a as [[c1 l1] n1]. specialize (IH _ _ _ _ _ _ _ H Y). pose proof (link_unit_len _ _ _ _ _ _ _ E Y). lia.
Qed.
Definition all_objs (us : list cunit) (ps : list Z) : list (Z * Z) := flat_map (fun x => obj_iv (snd x) (u_code (fst x))) (combine us ps).
Lemma units_lo all C : forall us pos lo ps ns, units_at all C pos lo us ps ns -> lo <= lenZ C.
Proof.
  induction us as [|u us IH]; intros pos lo [|p ps] [|n ns] H; cbn [units_at] in H; try contradiction; [exact H|].
  destruct H as (A & _ & _ & _ & _ & H). apply IH in H. pose proof (lenZ_nonneg (b_all (u_code u))). lia.
Qed.
Lemma obj_iv_in p b x : completable b -> In x (obj_iv p b) -> p <= fst x /\ fst x + snd x <= p + lenZ (b_all b).
Proof.
  intros [CI _] I. unfold intervals in CI. rewrite !Forall_app in CI. destruct CI as (_ & C2 & _). apply in_map_iff in I as (s & <- & I).
  rewrite Forall_forall in C2. specialize (C2 _ (in_map (fun s => (snd s, 2)) _ _ I)). cbn [fst snd] in *. lia.
Qed.
Lemma objs_in all C : forall us pos lo ps ns, Forall (fun u => completable (u_code u)) us -> units_at all C pos lo us ps ns ->
  forall x, In x (all_objs us ps) -> lo <= fst x /\ fst x + snd x <= lenZ C.
Proof.
  induction us as [|u us IH]; intros pos lo [|p ps] [|n ns] CO H x I; cbn [units_at] in H; try contradiction.
  inversion CO as [|? ? CO1 CO2]; subst. destruct H as (A & _ & _ & _ & _ & H). pose proof (lenZ_nonneg (b_all (u_code u))).
  unfold all_objs in I. cbn [combine flat_map fst snd] in I. apply in_app_or in I as [I|I].
  - apply (obj_iv_in _ _ _ CO1) in I. apply units_lo in H. lia.
  - specialize (IH _ _ _ _ CO2 H _ I). lia.
Qed.
Lemma units_move all us : forall C C' pos lo ps ns, unit_index yield_hash all 0 = None -> Forall (fun u => completable (u_code u)) us ->
  units_at all C pos lo us ps ns -> lenZ C <= lenZ C' -> pos + 11 * lenZ us <= lo ->
  (forall j, lo <= j < lenZ C \/ in_slot pos (length us) j -> Forall (fun x => ~ inside x j) (all_objs us ps) -> nthZ C' j = nthZ C j) ->
  units_at all C' pos lo us ps ns.
Proof.
  induction us as [|u us IH]; intros C C' pos lo [|p ps] [|n ns] Y CO H L PL K; cbn [units_at] in *; try contradiction; [lia|].
  inversion CO as [|? ? CO1 CO2]; subst. rewrite lenZ_cons in PL. pose proof (lenZ_nonneg us). pose proof (lenZ_nonneg (b_all (u_code u))).
  destruct H as (A1 & A2 & A3 & A4 & A5 & H). pose proof (units_lo _ _ _ _ _ _ _ H) as LO.
  pose proof (objs_in _ _ _ _ _ _ _ CO2 H) as OI.
  assert (ALL : forall x, In x (all_objs (u :: us) (p :: ps)) -> lo <= fst x).
  { unfold all_objs. cbn [combine flat_map fst snd]. intros x I. apply in_app_or in I as [I|I]; [apply (obj_iv_in _ _ _ CO1) in I; lia|specialize (OI _ I); lia]. }
  assert (SL : forall j, pos <= j < pos + 4 -> nthZ C' j = nthZ C j).
  { intros j J. apply K; [right; exists 0; cbn [length]; lia|]. rewrite Forall_forall. intros x I. apply ALL in I. unfold inside. lia. }
  split; [exact A1|]. split; [exact A2|]. split; [|split; [|split]].
  - rewrite <- A3. apply rdu16_move. intros j J. apply SL. lia.
  - rewrite <- A4. apply rdu16_move. intros j J. apply SL. lia.
  - eapply body_at_move; [exact Y|exact CO1|exact A5|]. intros j J F. apply K; [left; lia|].
    unfold all_objs. cbn [combine flat_map fst snd]. rewrite Forall_app. split; [exact F|]. rewrite Forall_forall. intros x I. specialize (OI _ I). unfold inside. lia.
  - eapply IH; [exact Y|exact CO2|exact H|exact L|lia|]. intros j J F.
    assert (JJ : p + lenZ (b_all (u_code u)) <= j \/ j < lo).
    { destruct J as [J|(i & I1 & I2)]; [lia|]. right. unfold lenZ in *. lia. }
    apply K; [destruct J as [J|(i & I1 & I2)]; [left; lia|right; exists (i + 1); cbn [length]; lia]|].
    unfold all_objs. cbn [combine flat_map fst snd]. rewrite Forall_app. split; [|exact F]. rewrite Forall_forall. intros x I. apply (obj_iv_in _ _ _ CO1) in I. unfold inside. lia.
Qed.
Lemma link_units_spec all us : forall pos code ls nss code' ls' nss', link_units all pos us code ls nss = COk (code', ls', nss') ->
  unit_index yield_hash all 0 = None -> Forall (fun u => completable (u_code u)) us -> lenZ code' <= 65535 ->
  0 <= pos -> pos + 11 * lenZ us <= lenZ code ->
  exists ps ns, units_at all code' pos (lenZ code) us ps ns /\ nss' = nss ++ ns /\ ls' = ls ++ all_lookups all us ps /\
    forall j, j < lenZ code -> ~ in_slot pos (length us) j -> nthZ code' j = nthZ code j.
Proof.
  induction us as [|u us IH]; intros pos code ls nss code' ls' nss' H Y CO L P0 P1; cbn [link_units] in H.
  - injection H as <- <- <-. exists [], []. cbn. rewrite !app_nil_r. split; [lia|auto].
  - steps. destruct a as [[c1 l1] n1]. rewrite lenZ_cons in P1. pose proof (lenZ_nonneg us). inversion CO as [|? ? CO1 CO2]; subst.
    pose proof (link_units_len _ _ _ _ _ _ _ _ _ H Y) as LE. pose proof (link_unit_len _ _ _ _ _ _ _ E Y) as LE1.
    destruct (link_unit_spec _ _ _ _ _ _ _ E Y CO1 ltac:(lia) ltac:(lia)) as (p & A1 & A2 & A3 & A4 & A5 & A6 & -> & A7).
    destruct (IH _ _ _ _ _ _ _ H Y CO2 L ltac:(lia) ltac:(lia)) as (ps & ns & B1 & -> & -> & B2).
    assert (SL : forall j, j < pos + 4 \/ lenZ code <= j -> ~ in_slot (pos + 11) (length us) j).
    { intros j J (i & I1 & I2). unfold lenZ in *. lia. }
    exists (p :: ps), (n1 :: ns). split; [|split; [|split]].
    + cbn [units_at]. split; [lia|]. split; [exact A3|]. split; [|split; [|split]].
      * rewrite <- A4. apply rdu16_move. intros j J. apply B2; [lia|]. apply SL. lia.
      * rewrite <- A5. apply rdu16_move. intros j J. apply B2; [lia|]. apply SL. lia.
      * eapply body_at_move; [exact Y|exact CO1|exact A6|]. intros j J _. apply B2; [lia|]. apply SL. lia.
      * rewrite <- A2. exact B1.
    + now rewrite <- app_assoc.
    + unfold all_lookups. cbn [combine flat_map fst snd]. now rewrite <- app_assoc.
    + intros j J N. rewrite B2; [apply A7; [lia|]|lia|].
      * intros K. apply N. exists 0. cbn [length]. lia.
      * intros (i & I1 & I2). apply N. exists (i + 1). cbn [length]. lia.
Qed.

(* ---- object references ---- *)
Definition obj2 (x : Z * Z) : Z * Z := (fst x, 2).
Lemma lookups_keep nss ls : forall code code' loc i n, lookups_put ls nss code = COk code' ->
  rdu16 code loc = Some n -> nthZ nss i = Some n -> 0 <= n < 65536 ->
  (forall y, In y ls -> y = (loc, i) \/ disjoint (loc, 2) (obj2 y)) -> rdu16 code' loc = Some n.
Proof.
  induction ls as [|[l k] ls IH]; intros code code' loc i n H R N NR D; cbn [lookups_put] in H; [injection H as <-; exact R|].
  destruct (nthZ nss k) as [m|] eqn:NK; [|discriminate]. steps. rename a into c.
  eapply IH; [exact H| |exact N|exact NR|intros y I; apply D; now right].
  destruct (D _ (or_introl eq_refl)) as [[= -> ->]|DJ].
  - rewrite N in NK. injection NK as <-. eapply put2_read; eauto.
  - rewrite <- R. apply rdu16_move. intros j J. apply put2_inv in E as (_ & _ & _ & _ & _ & B). apply B. unfold disjoint, obj2 in DJ. cbn [fst snd] in DJ. lia.
Qed.
Lemma lookups_put_spec nss ls : forall code code', lookups_put ls nss code = COk code' -> Forall (fun n => 0 <= n < 65536) nss ->
  (forall x y, In x ls -> In y ls -> x = y \/ disjoint (obj2 x) (obj2 y)) ->
  lenZ code' = lenZ code /\ (forall j, Forall (fun x => ~ inside x j) (map obj2 ls) -> nthZ code' j = nthZ code j) /\
  forall loc i, In (loc, i) ls -> exists n, nthZ nss i = Some n /\ rdu16 code' loc = Some n.
Proof.
  induction ls as [|[l k] ls IH]; intros code code' H F D; cbn [lookups_put] in H.
  - injection H as <-. split; [reflexivity|]. split; [reflexivity|intros ? ? []].
  - destruct (nthZ nss k) as [m|] eqn:NK; [|discriminate]. steps. rename a into c.
    assert (MR : 0 <= m < 65536).
    { rewrite Forall_forall in F. apply F. unfold nthZ in NK. destruct (k <? 0); [discriminate|]. eapply nth_error_In; exact NK. }
    destruct (IH _ _ H F ltac:(intros; apply D; now right)) as (A & B & C).
    pose proof (put2_inv _ _ _ _ E) as (_ & _ & P1 & _ & _ & P2). split; [lia|]. split.
    + intros j J. cbn [map] in J. inversion J as [|? ? J1 J2]; subst. rewrite B by exact J2. apply P2. unfold inside, obj2 in J1. cbn [fst snd] in J1. lia.
    + intros loc i [[= <- <-]|I]; [|now apply C]. exists m. split; [exact NK|].
      eapply lookups_keep; [exact H|eapply put2_read; eauto|exact NK|exact MR|]. intros y I. destruct (D _ _ (or_introl eq_refl) (or_intror I)) as [->|DJ]; [now left|now right].
Qed.
Lemma lookups_of_in all p b x : In x (lookups_of all p b) <->
  exists h r, In (h, r) (object_sites b) /\ fst x = p + r /\ unit_index h all 0 = Some (snd x).
Proof.
  unfold lookups_of, object_sites, sites. rewrite in_flat_map. split.
  - intros ([h rs] & I & J). cbn [fst snd] in J. destruct (unit_index h all 0) as [i|] eqn:E; [|destruct J]. apply in_map_iff in J as (r & <- & J).
    exists h, r. split; [|cbn; auto]. apply in_flat_map. exists (h, rs). split; [exact I|]. cbn [fst snd]. apply in_map_iff. eauto.
  - intros (h & r & I & E1 & E2). apply in_flat_map in I as ([h' rs] & I & J). cbn [fst snd] in J. apply in_map_iff in J as (r' & [= -> ->] & J).
    exists (h, rs). split; [exact I|]. cbn [fst snd]. rewrite E2. apply in_map_iff. exists r. split; [|exact J]. destruct x. cbn in *. congruence.
Qed.
Lemma FOP_map {A B} (f : A -> B) (R : B -> B -> Prop) l : ForallOrdPairs R (map f l) -> ForallOrdPairs (fun x y => R (f x) (f y)) l.
Proof. induction l as [|x l IH]; cbn; intros H; [constructor|]. inversion H as [|? ? H1 H2]; subst. constructor; [|now apply IH]. now rewrite Forall_map in H1. Qed.
Lemma objs_pairwise b s t : completable b -> In s (object_sites b) -> In t (object_sites b) -> s = t \/ disjoint (snd s, 2) (snd t, 2).
Proof.
  intros [_ CD] I J. unfold intervals in CD. apply FOP_app in CD as (_ & D23 & _). apply FOP_app in D23 as (D2 & _ & _). apply FOP_map in D2.
  destruct (ForallOrdPairs_In D2 s t I J) as [E|[E|E]]; [now left|now right|right; now apply apart_sym].
Qed.
Lemma lookups_pair all p b x y : completable b -> In x (lookups_of all p b) -> In y (lookups_of all p b) -> x = y \/ disjoint (obj2 x) (obj2 y).
Proof.
  intros CO I J. apply lookups_of_in in I as (h & r & I & A1 & A2). apply lookups_of_in in J as (h' & r' & J & B1 & B2).
  destruct (objs_pairwise _ _ _ CO I J) as [[= -> ->]|D]; [left|right].
  - destruct x, y. cbn in *. congruence.
  - unfold disjoint, obj2 in *. cbn [fst snd] in *. rewrite A1, B1. lia.
Qed.
Lemma lookups_range all p b x : completable b -> In x (lookups_of all p b) -> p <= fst x /\ fst x + 2 <= p + lenZ (b_all b).
Proof.
  intros CO I. apply lookups_of_in in I as (h & r & I & A1 & A2). rewrite A1.
  apply (obj_iv_in p b (p + r, 2) CO). unfold obj_iv. exact (in_map (fun s => (p + snd s, 2)) _ _ I).
Qed.
Lemma lookups_objs all p b x : In x (lookups_of all p b) -> In (obj2 x) (obj_iv p b).
Proof. intros I. apply lookups_of_in in I as (h & r & I & A1 & A2). unfold obj2. rewrite A1. exact (in_map (fun s => (p + snd s, 2)) _ _ I). Qed.
Lemma all_lookups_range all C us : forall pos lo ps ns, units_at all C pos lo us ps ns -> Forall (fun u => completable (u_code u)) us ->
  forall x, In x (all_lookups all us ps) -> lo <= fst x.
Proof.
  induction us as [|u us IH]; intros pos lo [|p ps] [|n ns] H CO x I; cbn [units_at] in H; try contradiction.
  inversion CO as [|? ? CO1 CO2]; subst. destruct H as (A & _ & _ & _ & _ & H). unfold all_lookups in I. cbn [combine flat_map fst snd] in I.
  pose proof (lenZ_nonneg (b_all (u_code u))). apply in_app_or in I as [I|I]; [apply lookups_range in I; [lia|exact CO1]|]. apply (IH _ _ _ _ H CO2) in I. lia.
Qed.
Lemma all_lookups_pair all C us : forall pos lo ps ns, units_at all C pos lo us ps ns -> Forall (fun u => completable (u_code u)) us ->
  forall x y, In x (all_lookups all us ps) -> In y (all_lookups all us ps) -> x = y \/ disjoint (obj2 x) (obj2 y).
Proof.
  induction us as [|u us IH]; intros pos lo [|p ps] [|n ns] H CO x y I J; cbn [units_at] in H; try contradiction.
  inversion CO as [|? ? CO1 CO2]; subst. destruct H as (A & _ & _ & _ & _ & H). unfold all_lookups in I, J. cbn [combine flat_map fst snd] in I, J.
  apply in_app_or in I as [I|I]; apply in_app_or in J as [J|J].
  - eapply lookups_pair; eauto.
  - right. apply lookups_range in I; [|exact CO1]. apply (all_lookups_range _ _ _ _ _ _ _ H CO2) in J. unfold disjoint, obj2. cbn [fst snd]. lia.
  - right. apply lookups_range in J; [|exact CO1]. apply (all_lookups_range _ _ _ _ _ _ _ H CO2) in I. unfold disjoint, obj2. cbn [fst snd]. lia.
  - eapply IH; eauto.
Qed.
Lemma all_lookups_objs all us : forall ps x, In x (all_lookups all us ps) -> In (obj2 x) (all_objs us ps).
Proof.
  intros ps x I. unfold all_lookups in I. apply in_flat_map in I as ([u p] & I & J). unfold all_objs. apply in_flat_map. exists (u, p). split; [exact I|].
  eapply lookups_objs; exact J.
Qed.

(* ---- the table of signatures ---- *)
Definition sig_tail (u : cunit) : list Z :=
  wr_pack32 (u_hash u) ++ [u8 (u_args u); u32 (frame_of u); u8 (1 + u8 (u_args u) + u32 (frame_of u))].
Fixpoint sigs_at (C : list Z) (pos : Z) (us : list cunit) : Prop :=
  match us with [] => True | u :: r => u32 (frame_of u) <= 255 /\ has C (pos + 4) (sig_tail u) /\ sigs_at C (pos + 11) r end.
Lemma len_tail u : lenZ (sig_tail u) = 7.
Proof. unfold sig_tail. rewrite lenZ_app, len_pack32. reflexivity. Qed.
Lemma has_here a l b : has (a ++ l ++ b) (lenZ a) l.
Proof. intros i I. rewrite nthZ_app2 by lia. apply nthZ_app1. lia. Qed.
Lemma signatures_spec us : forall code code', signatures us code = COk code' ->
  exists t, code' = code ++ t /\ lenZ t = 11 * lenZ us /\ forall r, sigs_at (code' ++ r) (lenZ code) us.
Proof.
  induction us as [|u us IH]; intros code code' H; cbn [signatures] in H.
  - injection H as <-. exists []. rewrite app_nil_r. split; [reflexivity|]. split; [reflexivity|]. intros r. exact I.
  - steps. rename a into s. unfold signature in E. destruct (255 <? u32 (frame_of u)) eqn:F; [discriminate|]. apply Z.ltb_ge in F. 
    assert (ES : s = [170; 187; 204; 221] ++ sig_tail u) by (symmetry; exact (cok_inj _ _ E)). clear E.
    assert (LS : lenZ s = 11) by (rewrite ES, lenZ_app, len_tail; reflexivity).
    destruct (IH _ _ H) as (t & -> & L & S). exists (s ++ t). rewrite app_assoc. split; [reflexivity|].
    split; [rewrite lenZ_app, LS, L, lenZ_cons; lia|]. intros r. cbn [sigs_at]. split; [exact F|]. split.
    + assert (G : ((code ++ s) ++ t) ++ r = (code ++ [170; 187; 204; 221]) ++ sig_tail u ++ (t ++ r)) by (rewrite ES, <- !app_assoc; reflexivity).
      rewrite G. replace (lenZ code + 4) with (lenZ (code ++ [170; 187; 204; 221])) by (rewrite lenZ_app; reflexivity). apply has_here.
    + replace (lenZ code + 11) with (lenZ (code ++ s)) by (rewrite lenZ_app; lia). apply S.
Qed.
Lemma has_move C C' p l : has C p l -> (forall j, p <= j < p + lenZ l -> nthZ C' j = nthZ C j) -> has C' p l.
Proof. intros H K i I. rewrite K by lia. now apply H. Qed.
Lemma sigs_move us : forall C C' pos, sigs_at C pos us ->
  (forall j, pos <= j < pos + 11 * lenZ us -> ~ in_slot pos (length us) j -> nthZ C' j = nthZ C j) -> sigs_at C' pos us.
Proof.
  induction us as [|u us IH]; intros C C' pos H K; [exact I|]. cbn [sigs_at] in *. destruct H as (A & B & H).
  rewrite lenZ_cons in K. pose proof (lenZ_nonneg us). split; [exact A|]. split.
  - eapply has_move; [exact B|]. rewrite len_tail. intros j J. apply K; [lia|]. intros (i & I1 & I2). lia.
  - eapply IH; [exact H|]. intros j J N. apply K; [lia|]. intros (i & I1 & I2). apply N. exists (i - 1). cbn [length] in I1. lia.
Qed.
Lemma code_start_spec C code2 g n fl (symbols source : list Z) hash :
  (let debug := (LinkModel.has fl WR_EMBED_DEBUG_CODE || LinkModel.has fl WR_EMBED_SOURCE_CODE)%bool in
   let code3 := if debug then code2 ++ wr_pack32 hash ++ wr_pack16 (lenZ symbols) ++ symbols else code2 in
   let code := if LinkModel.has fl WR_EMBED_SOURCE_CODE then code3 ++ wr_pack32 (lenZ source) ++ source else code3 in
   lenZ code2 = 3 + n * 11 + (if LinkModel.has fl WR_INCLUDE_GLOBALS then g * 4 else 0) ->
   (debug = true -> lenZ symbols <= 65535) -> lenZ source < 2147483648 -> 
   (forall j, lenZ code2 <= j < lenZ code -> nthZ C j = nthZ code j) ->
   code_start C g n fl = Some (lenZ code)).
Proof.
  cbv zeta. unfold code_start. intros L2 SY SO K. pose proof (lenZ_nonneg symbols) as NS. pose proof (lenZ_nonneg source) as NO. pose proof (lenZ_nonneg code2) as N2.
  set (p := if LinkModel.has fl WR_INCLUDE_GLOBALS then 3 + n * 11 + g * 4 else 3 + n * 11).
  assert (P : p = lenZ code2) by (unfold p; destruct (LinkModel.has fl WR_INCLUDE_GLOBALS); lia). rewrite P. clear p P L2.
  destruct (LinkModel.has fl WR_EMBED_SOURCE_CODE) eqn:HS; [rewrite Bool.orb_true_r in *|rewrite Bool.orb_false_r in *; destruct (LinkModel.has fl WR_EMBED_DEBUG_CODE)].
  - set (d := wr_pack32 hash ++ wr_pack16 (lenZ symbols) ++ symbols) in *. set (t := wr_pack32 (lenZ source) ++ source) in *.
    assert (LD : lenZ d = 6 + lenZ symbols) by (unfold d; rewrite !lenZ_app, len_pack32, len_pack16; lia).
    assert (LT : lenZ t = 4 + lenZ source) by (unfold t; rewrite !lenZ_app, len_pack32; lia).
    rewrite !lenZ_app, LD, LT in K |- *.
    assert (HC : has C (lenZ code2) (d ++ t)).
    { intros i I. rewrite lenZ_app in I. rewrite K by lia. rewrite <- app_assoc. apply nthZ_app2. lia. }
    apply has_app in HC as [H1 H2]. unfold d in H1. apply has_app in H1 as [_ H1]. apply has_app in H1 as [H1 _]. rewrite len_pack32 in H1.
    rewrite (rdu16_pack _ _ _ H1). cbn [option_map]. unfold t in H2. apply has_app in H2 as [H2 _]. rewrite LD in H2.
    specialize (SY eq_refl). rewrite (Z.mod_small (lenZ symbols)) by lia. replace (lenZ code2 + 6 + lenZ symbols) with (lenZ code2 + (6 + lenZ symbols)) by lia.
    rewrite (rd32_pack _ _ (lenZ source) ltac:(lia) H2). cbn [option_map]. f_equal. rewrite s32_id; [lia|unfold is_s32; lia].
  - set (d := wr_pack32 hash ++ wr_pack16 (lenZ symbols) ++ symbols) in *.
    assert (LD : lenZ d = 6 + lenZ symbols) by (unfold d; rewrite !lenZ_app, len_pack32, len_pack16; lia).
    rewrite !lenZ_app, LD in K |- *.
    assert (H1 : has C (lenZ code2) d).
    { intros i I. rewrite K by lia. apply nthZ_app2. lia. }
    unfold d in H1. apply has_app in H1 as [_ H1]. apply has_app in H1 as [H1 _]. rewrite len_pack32 in H1.
    rewrite (rdu16_pack _ _ _ H1). cbn [option_map]. specialize (SY eq_refl). f_equal. rewrite (Z.mod_small (lenZ symbols)) by lia. lia.
  - reflexivity.
Qed.
Lemma len_pack_all l : lenZ (flat_map wr_pack32 l) = 4 * lenZ l.
Proof. induction l as [|x l IH]; [reflexivity|]. cbn [flat_map]. rewrite lenZ_app, len_pack32, IH, lenZ_cons. lia. Qed.
Lemma header_spec main us flags symbols source code : header main us flags symbols source = COk code -> 0 <= flags < 256 -> lenZ source < 2147483648 ->
  lenZ (b_locals main) <= 255 /\ lenZ us <= 255 /\ 3 + 11 * lenZ us <= lenZ code /\
  nthZ code 0 = Some (lenZ (b_locals main)) /\ nthZ code 1 = Some (lenZ us) /\ nthZ code 2 = Some flags /\ sigs_at code 3 us /\
  forall C, (forall j, 3 + 11 * lenZ us <= j < lenZ code -> nthZ C j = nthZ code j) ->
    code_start C (lenZ (b_locals main)) (lenZ us) flags = Some (lenZ code).
Proof.
  intros H FL SO. unfold header in H. pose proof (lenZ_nonneg (b_locals main)) as NG. pose proof (lenZ_nonneg us) as NU.
  destruct (Z.ltb_spec 255 (lenZ (b_locals main))) as [|G]; [discriminate|]. destruct (Z.ltb_spec 255 (lenZ us)) as [|U]; [discriminate|].
  steps. rename a into code1. destruct (signatures_spec _ _ _ E) as (t & C1 & LT & SG). clear E.
  set (code2 := if LinkModel.has flags WR_INCLUDE_GLOBALS then code1 ++ flat_map wr_pack32 (b_locals main) else code1) in *. cbv zeta in H.
  set (debug := (LinkModel.has flags WR_EMBED_DEBUG_CODE || LinkModel.has flags WR_EMBED_SOURCE_CODE)%bool) in *.
  destruct (debug && (65535 <? lenZ symbols))%bool eqn:SY; [discriminate|]. apply cok_inj in H.
  assert (LC1 : lenZ code1 = 3 + 11 * lenZ us) by (rewrite C1, lenZ_app, LT; reflexivity).
  assert (EX : exists r, code = code1 ++ r).
  { rewrite <- H. unfold code2. destruct (LinkModel.has flags WR_INCLUDE_GLOBALS), debug, (LinkModel.has flags WR_EMBED_SOURCE_CODE); rewrite <- ?app_assoc;
      try (eexists; reflexivity); exists []; now rewrite app_nil_r. }
  destruct EX as (r & EX). assert (LE : lenZ code = lenZ code1 + lenZ r) by (rewrite EX; apply lenZ_app). pose proof (lenZ_nonneg r).
  split; [exact G|]. split; [exact U|]. split; [lia|].
  assert (B : forall i x, 0 <= i < 3 -> nthZ [u8 (lenZ (b_locals main)); u8 (lenZ us); u8 flags] i = Some x -> nthZ code i = Some x).
  { intros i x I N. rewrite EX, C1, <- app_assoc. rewrite nthZ_app1 by exact (proj2 I). exact N. }
  split; [apply B; [lia|change (Some (u8 (lenZ (b_locals main))) = Some (lenZ (b_locals main))); f_equal; apply Z.mod_small; lia]|]. split; [apply B; [lia|change (Some (u8 (lenZ us)) = Some (lenZ us)); f_equal; apply Z.mod_small; lia]|]. split; [apply B; [lia|change (Some (u8 flags) = Some flags); f_equal; apply Z.mod_small; lia]|].
  split; [rewrite EX; apply SG|]. intros C K. rewrite <- H.
  assert (L2 : lenZ code1 <= lenZ code2) by (unfold code2; destruct (LinkModel.has flags WR_INCLUDE_GLOBALS); rewrite ?lenZ_app, ?len_pack_all; lia).
  refine (code_start_spec C code2 (lenZ (b_locals main)) (lenZ us) flags symbols source _ _ _ SO _).
  - unfold code2. destruct (LinkModel.has flags WR_INCLUDE_GLOBALS); [rewrite lenZ_app, len_pack_all|]; rewrite LC1; lia.
  - fold debug. intros D. rewrite D in SY. cbn [andb] in SY. now apply Z.ltb_ge in SY.
  - fold debug. rewrite H. intros j J. apply K. lia.
Qed.

(* ---- exporting changes nothing else ---- *)
Definition same (u v : cunit) : Prop := u_hash v = u_hash u /\ u_args v = u_args u /\ u_code v = u_code u.
Lemma same_refl l : Forall2 same l l.
Proof. induction l; constructor; [repeat split|assumption]. Qed.
Lemma same_trans a b c : Forall2 same a b -> Forall2 same b c -> Forall2 same a c.
Proof.
  intros H. revert c. induction H as [|x y a b (S1 & S2 & S3) H IH]; intros c K; inversion K as [|? z ? c' (T1 & T2 & T3) K']; subst; constructor; [|now apply IH].
  unfold same. repeat split; congruence.
Qed.
Lemma export_first_same h us : Forall2 same us (export_first h us).
Proof. induction us as [|u us IH]; cbn [export_first]; [constructor|]. destruct (u_hash u =? h); constructor; [repeat split|apply same_refl|repeat split|exact IH]. Qed.
Lemma export_of_same b us : Forall2 same us (export_of b us).
Proof.
  unfold export_of. generalize (b_objs b). intros l. revert us. induction l as [|[h rs] l IH]; intros us; cbn [fold_left]; [apply same_refl|].
  eapply same_trans; [|apply IH]. cbn [fst snd]. destruct rs; [apply same_refl|apply export_first_same].
Qed.
Lemma exports_same main us : Forall2 same us (exports main us).
Proof.
  unfold exports. assert (G : forall l acc, Forall2 same us acc -> Forall2 same us (fold_left (fun acc u => export_of (u_code u) acc) l acc)).
  { induction l as [|u l IH]; intros acc H; cbn [fold_left]; [exact H|]. apply IH. eapply same_trans; [exact H|apply export_of_same]. }
  apply G, export_of_same.
Qed.
Lemma same_hashes us vs : Forall2 same us vs -> map u_hash us = map u_hash vs.
Proof. induction 1 as [|u v us vs (A & _ & _) _ IH]; cbn; [reflexivity|]. now rewrite A, IH. Qed.
Lemma same_index us vs h : Forall2 same us vs -> unit_index h us 0 = unit_index h vs 0.
Proof. intros S. apply unit_index_map, same_hashes, S. Qed.
Lemma same_length us vs : Forall2 same us vs -> length us = length vs.
Proof. induction 1; cbn; congruence. Qed.
Lemma sigs_same us vs C : Forall2 same us vs -> forall pos, sigs_at C pos us -> sigs_at C pos vs.
Proof.
  induction 1 as [|u v us vs (A & B & D) _ IH]; intros pos H; [exact I|]. cbn [sigs_at] in *. unfold sig_tail, frame_of in *. rewrite A, B, D.
  destruct H as (H1 & H2 & H3). auto.
Qed.
Lemma six_same us vs h o g : Forall2 same us vs -> six vs h o g -> six us h o g.
Proof. intros S. unfold six. now rewrite (same_index us vs h S). Qed.
Lemma body_same us vs b l p : Forall2 same us vs -> body_at vs b l p -> body_at us b l p.
Proof. intros S (A & B & D). split; [exact A|]. split; [intros h r I; eapply six_same; eauto|exact D]. Qed.

(* ---- decoding the completed places ---- *)
Lemma u8_small x : 0 <= x < 256 -> u8 x = x.
Proof. intros. unfold u8. apply Z.mod_small. lia. Qed.
Lemma s8_u8 d : -128 <= d < 128 -> VmModel.s8 (u8 d) = d.
Proof. intros. unfold VmModel.s8, u8. destruct (Z.ltb_spec (d mod 256) 128); lia. Qed.
Lemma s16_bytes d : -32768 <= d < 32768 -> VmModel.s16 (u8 d + 256 * u8 (d / 256)) = d.
Proof. intros. unfold VmModel.s16, u8. destruct (Z.ltb_spec (d mod 256 + 256 * (d / 256 mod 256)) 32768); lia. Qed.
Lemma goto_completed_of C p b h g : goto_bytes (b_jumps b) h g (at_ C (p + g)) -> goto_completed C p b h g.
Proof.
  intros (j & F & B). exists j. unfold at_ in B. rewrite Z.add_0_r in B. cbv zeta in B. destruct B as [(B0 & B1 & R)|(B0 & B1 & B2 & R)].
  - exists (p + g + 3). split; [exact F|]. unfold decode, rd8. rewrite B0. change (opcode_of (byte_of O_RelativeJump8)) with (Some O_RelativeJump8).
    cbn [decode_op b0]. unfold rd8. rewrite B1, (s8_u8 _ R). do 2 f_equal; [f_equal; lia|lia].
  - exists (p + g + 3). split; [exact F|]. unfold decode, rd8. rewrite B0. change (opcode_of (byte_of O_RelativeJump)) with (Some O_RelativeJump).
    cbn [decode_op b0]. unfold rd16, rdu16, rd8. replace (p + g + 1 + 1) with (p + g + 2) by lia. rewrite B1, B2. cbn [option_map]. rewrite (s16_bytes _ R). do 2 f_equal; [f_equal; lia|lia].
Qed.
Lemma unit_index_named us h : match unit_index h us 0 with Some i => exists n, i = Z.of_nat n /\ named us h n | None => unnamed us h end.
Proof. pose proof (unit_index_spec h us 0) as H. destruct (unit_index h us 0); exact H. Qed.
Lemma call_completed_of us C p b h r : 0 <= h < 4294967296 -> lenZ us <= 255 -> 0 <= r -> r + call_len h <= lenZ (b_all b) -> unit_index yield_hash us 0 = None ->
  six us h (at_ (b_all b) r) (at_ C (p + r)) -> call_completed us C p b h r.
Proof.
  intros HR UL R0 RL Y [A B]. unfold at_ in *. rewrite !Z.add_0_r in B. pose proof (unit_index_named us h) as UI.
  assert (CL : 2 <= call_len h) by (unfold call_len; destruct (h =? yield_hash); lia).
  destruct (nthZ_in_range (b_all b) (r + 1) ltac:(lia)) as (args & NA). rewrite NA in A.
  destruct (unit_index h us 0) as [k|] eqn:E.
  - destruct UI as (n & -> & NM). split; [|split; [intros U; destruct (named_not_unnamed _ _ _ NM U)|intros U; destruct (named_not_unnamed _ _ _ NM U)]].
    intros i NI. pose proof (named_unique _ _ _ _ NI NM) as ->. destruct B as (B0 & B2 & B3). pose proof (named_lt _ _ _ NM) as LT.
    rewrite u8_small in B2 by (unfold lenZ in UL; lia). assert (D : forall d, nthZ C (p + r + 3) = Some d -> decode C (p + r) = Some (ICall (Z.to_nat args) n, p + r + 3 + d)).
    { intros d ND. unfold decode, rd8. rewrite B0. change (opcode_of (byte_of O_CallFunctionByIndex)) with (Some O_CallFunctionByIndex).
      cbn [decode_op]. unfold call, rd8. replace (p + r + 1 + 1) with (p + r + 2) by lia. replace (p + r + 1 + 2) with (p + r + 3) by lia.
      rewrite A, B2, ND, Nat2Z.id. reflexivity. }
    destruct B3 as [(B3 & O5)|(B3 & O5 & B5)]; exists args; eexists; (split; [exact NA|]); (split; [exact (D _ B3)|]).
    + left. split; [lia|exact O5].
    + right. split; [lia|]. split; [exact O5|]. replace (p + r + 3 + 2) with (p + r + 5) by lia. unfold decode, rd8. rewrite B5.
      change (opcode_of (byte_of O_PushIndexFunctionReturnValue)) with (Some O_PushIndexFunctionReturnValue). cbn [decode_op]. unfold n0. do 2 f_equal. lia.
  - split; [intros i NI; destruct (named_not_unnamed _ _ _ NI UI)|]. split; [intros _ NY|intros _ EY].
    + rewrite (proj2 (Z.eqb_neq _ _) NY) in B. destruct B as (pop & P & B0 & B2 & B3 & B4 & B5). exists args, pop. split; [exact NA|]. split; [|exact P].
      assert (H32 : rd32 C (p + r + 1 + 1) = Some h).
      { unfold rd32, rdu16, rd8. replace (p + r + 1 + 1) with (p + r + 2) by lia. replace (p + r + 2 + 1) with (p + r + 3) by lia.
        replace (p + r + 2 + 2) with (p + r + 4) by lia. replace (p + r + 4 + 1) with (p + r + 5) by lia. rewrite B2, B3, B4, B5. f_equal. unfold u8. lia. }
      unfold decode, rd8. rewrite B0. destruct pop.
      * change (opcode_of (byte_of O_CallFunctionByHashAndPop)) with (Some O_CallFunctionByHashAndPop). cbn [decode_op]. unfold lib, rd8. rewrite A, H32. do 2 f_equal. lia.
      * change (opcode_of (byte_of O_CallFunctionByHash)) with (Some O_CallFunctionByHash). cbn [decode_op]. unfold lib, rd8. rewrite A, H32. do 2 f_equal. lia.
    + subst h. rewrite Z.eqb_refl in B. exists args. split; [exact NA|]. unfold decode, rd8. rewrite B.
      change (opcode_of (byte_of O_Yield)) with (Some O_Yield). cbn [decode_op]. unfold v1, rd8. rewrite A. do 2 f_equal. lia.
Qed.

(* ---- what the loader reads ---- *)
Lemma read_fns_spec all C us : forall pos lo ps ns, units_at all C pos lo us ps ns -> sigs_at C pos us -> Forall unit_fits us ->
  exists fs, read_fns (length us) C pos = Some fs /\ Forall2 describes us fs /\ map l_off fs = ps /\ map l_ns fs = ns.
Proof.
  induction us as [|u us IH]; intros pos lo [|p ps] [|n ns] H S F; cbn [units_at] in H; try contradiction; [exists []; repeat split; constructor|].
  inversion F as [|? ? (F1 & F2 & F3) F']; subst. destruct H as (_ & _ & A & B & _ & H). cbn [sigs_at] in S. destruct S as (S1 & S2 & S3).
  destruct (IH _ _ _ _ H S3 F') as (fs & R & D & O & N). unfold sig_tail in S2. apply has_app in S2 as [T1 T2]. rewrite len_pack32 in T2.
  assert (FR : u32 (frame_of u) = frame_of u) by (unfold frame_of in *; apply Z.mod_small; lia).
  assert (AR : u8 (u_args u) = u_args u) by (apply u8_small; lia).
  rewrite FR, AR in T2. assert (AD : u8 (1 + u_args u + frame_of u) = 1 + u_args u + frame_of u) by (apply u8_small; unfold frame_of; lia). rewrite AD in T2.
  assert (B8 : nthZ C (pos + 8) = Some (u_args u)) by (replace (pos + 8) with (pos + 4 + 4 + 0) by lia; rewrite T2; [reflexivity|vm_compute; intuition congruence]).
  assert (B9 : nthZ C (pos + 9) = Some (frame_of u)) by (replace (pos + 9) with (pos + 4 + 4 + 1) by lia; rewrite T2; [reflexivity|vm_compute; intuition congruence]).
  assert (B10 : nthZ C (pos + 10) = Some (1 + u_args u + frame_of u)) by (replace (pos + 10) with (pos + 4 + 4 + 2) by lia; rewrite T2; [reflexivity|vm_compute; intuition congruence]).
  exists (mkLF n p (u_hash u) (u_args u) (frame_of u) (1 + u_args u + frame_of u) :: fs). split; [|split; [|cbn; split; congruence]].
  - cbn [length read_fns]. unfold read_fn. rewrite A, B, (rd32_pack _ _ _ F1 T1). unfold rd8. rewrite B8, B9, B10, R. reflexivity.
  - constructor; [|exact D]. repeat split.
Qed.
Lemma units_each all C us : forall pos lo ps ns, units_at all C pos lo us ps ns -> 0 <= lo -> forall i u, nth_error us i = Some u ->
  exists p, nth_error ps i = Some p /\ 0 <= p /\ p + lenZ (b_all (u_code u)) <= lenZ C /\ body_at all (u_code u) C p.
Proof.
  induction us as [|v us IH]; intros pos lo [|p ps] [|n ns] H L i u N; cbn [units_at] in H; try contradiction; [destruct i; discriminate|].
  destruct H as (A & _ & _ & _ & B & H). pose proof (lenZ_nonneg (b_all (u_code v))). destruct i as [|i].
  - injection N as <-. exists p. split; [reflexivity|]. apply units_lo in H. split; [lia|]. split; [lia|exact B].
  - exact (IH _ _ _ _ H ltac:(lia) i u N).
Qed.
Lemma units_ns all C us : forall pos lo ps ns, units_at all C pos lo us ps ns -> Forall (fun n => 0 <= n < 65536) ns.
Proof. induction us as [|u us IH]; intros pos lo [|p ps] [|n ns] H; cbn [units_at] in H; try contradiction; constructor; [tauto|]. destruct H as (_ & _ & _ & _ & _ & H). eauto. Qed.
Lemma all_lookups_in all us : forall ps i u p x, nth_error us i = Some u -> nth_error ps i = Some p -> In x (lookups_of all p (u_code u)) -> In x (all_lookups all us ps).
Proof.
  intros ps i u p x N M I. unfold all_lookups. apply in_flat_map. exists (u, p). split; [|exact I].
  revert ps i N M. induction us as [|v us IH]; intros [|q ps] [|i] N M; try discriminate; cbn in *; [left; congruence|right; eauto].
Qed.
Lemma nth_nthZ {A} (l : list A) i : nthZ l (Z.of_nat i) = nth_error l i.
Proof. apply nthZ_nat. Qed.
Lemma map_nth_inv {A B} (f : A -> B) l i y : nth_error (map f l) i = Some y -> exists x, nth_error l i = Some x /\ y = f x.
Proof. revert i. induction l as [|a l IH]; intros [|i] H; try discriminate; cbn in *; [injection H as <-; eauto|auto]. Qed.

Lemma link_spec main us flags symbols source img : link main us flags symbols source = COk img ->
  0 <= flags < 256 -> lenZ source < 2147483648 -> lenZ img <= 65535 ->
  Forall unit_fits us -> unnamed us yield_hash ->
  completable main -> names_fit main -> Forall (fun u => completable (u_code u) /\ names_fit (u_code u)) us -> 1 <= lenZ (b_all main) ->
  exists c, create_context img = Some c /\ c_globals c = lenZ (b_locals main) /\
    Forall2 (fun u f => describes u f /\ linked_at us (c_funs c) img (l_off f) (u_code u)) us (c_funs c) /\
    linked_at us (c_funs c) img (c_start c) main.
Proof.
  intros H FL SO LI UF UY CM NM CU M1. unfold link in H. steps. rename a into code0. cbv zeta in H. set (vs := exports main us) in *.
  pose proof (exports_same main us) as SAME. fold vs in SAME. destruct a0 as [code1 ls0]. steps. destruct a as [[code2 ls] nss]. steps. rename a into code3. apply cok_inj in H.
  pose proof (lenZ_nonneg us) as NU. pose proof (lenZ_nonneg code0) as N0.
  assert (Y : unit_index yield_hash vs 0 = None).
  { rewrite <- (same_index _ _ _ SAME). pose proof (unit_index_named us yield_hash) as Q. destruct (unit_index yield_hash us 0); [|reflexivity]. destruct Q as (n & _ & Q). destruct (named_not_unnamed _ _ _ Q UY). }
  assert (LV : length vs = length us) by (symmetry; apply same_length, SAME). assert (LVZ : lenZ vs = lenZ us) by (unfold lenZ; lia).
  assert (CV : Forall (fun u => completable (u_code u)) vs).
  { clear - SAME CU. induction SAME as [|u v us vs (_ & _ & S3) _ IH]; [constructor|]. inversion CU as [|? ? [C1 _] C2]; subst. constructor; [now rewrite S3|auto]. }
  assert (LIMG : lenZ img = lenZ code3 + 4) by (rewrite <- H; unfold append_crc; rewrite lenZ_app, len_pack32; reflexivity).
  destruct (header_spec _ _ _ _ _ _ E FL SO) as (G1 & G2 & G3 & G4 & G5 & G6 & G7 & G8).
  pose proof (link_code_len _ _ _ _ _ E0 Y) as LE1. pose proof (link_units_len _ _ _ _ _ _ _ _ _ E1 Y) as LE2.
  assert (LK : lenZ code3 = lenZ code2).
  { assert (G : forall l c c', lookups_put l nss c = COk c' -> lenZ c' = lenZ c).
    { induction l as [|[a b] l IH]; intros c c' K; cbn [lookups_put] in K; [injection K as <-; reflexivity|]. destruct (nthZ nss b); [|discriminate]. steps.
      rewrite (IH _ _ K). now apply put2_inv in E3 as (_ & _ & Q & _). }
    exact (G _ _ _ E2). }
  destruct (link_code_spec _ _ _ _ _ E0 Y CM ltac:(lia)) as (K1 & K2 & K3 & ->).
  destruct (link_units_spec _ _ _ _ _ _ _ _ _ E1 Y CV ltac:(lia) ltac:(lia) ltac:(lia)) as (ps & ns & U1 & EN & EL & U2). cbn [app] in EN. subst nss ls.
  set (p0 := lenZ code0) in *. set (L := lookups_of vs p0 main ++ all_lookups vs vs ps) in *.
  assert (SLOT : forall j, in_slot 3 (length vs) j -> 3 <= j < 3 + 11 * lenZ us) by (intros j (i & I1 & I2); unfold lenZ; lia).
  assert (PAIR : forall x y, In x L -> In y L -> x = y \/ disjoint (obj2 x) (obj2 y)).
  { intros x y I J. apply in_app_or in I as [I|I]; apply in_app_or in J as [J|J].
    - eapply lookups_pair; eauto.
    - right. apply lookups_range in I; [|exact CM]. apply (all_lookups_range _ _ _ _ _ _ _ U1 CV) in J. unfold disjoint, obj2. cbn [fst snd]. lia.
    - right. apply lookups_range in J; [|exact CM]. apply (all_lookups_range _ _ _ _ _ _ _ U1 CV) in I. unfold disjoint, obj2. cbn [fst snd]. lia.
    - eapply all_lookups_pair; eauto. }
  destruct (lookups_put_spec _ _ _ _ E2 (units_ns _ _ _ _ _ _ _ U1)) as (_ & P2 & P3).
  { intros x y I J. apply in_rev in I, J. now apply PAIR. }
  assert (P2' : forall j, j < lenZ code3 -> Forall (fun x => ~ inside x j) (obj_iv p0 main ++ all_objs vs ps) -> nthZ img j = nthZ code2 j).
  { intros j J F. rewrite <- H. unfold append_crc. rewrite nthZ_app1 by lia. apply P2. rewrite Forall_forall in *. intros x I. apply F.
    apply in_map_iff in I as (y & <- & I). apply in_rev in I. apply in_or_app. apply in_app_or in I as [I|I]; [left; eapply lookups_objs; exact I|right; eapply all_lookups_objs; exact I]. }
  assert (OBJ : forall x, In x L -> exists n, nthZ ns (snd x) = Some n /\ rdu16 img (fst x) = Some n).
  { intros [loc i] I. destruct (P3 loc i) as (n & Q1 & Q2); [rewrite <- in_rev; exact I|]. exists n. split; [exact Q1|]. cbn [fst]. rewrite <- Q2. apply rdu16_move. intros j J.
    rewrite <- H. unfold append_crc. apply nthZ_app1. apply in_app_or in I as [I|I].
    - apply (lookups_range _ _ _ _ CM) in I. cbn [fst] in I. lia.
    - apply all_lookups_objs in I. apply (objs_in _ _ _ _ _ _ _ CV U1) in I. unfold obj2 in I. cbn [fst snd] in I. lia. }
  assert (OMR : forall x, In x (obj_iv p0 main) -> p0 <= fst x /\ fst x + snd x <= lenZ code1) by (intros x I; apply (obj_iv_in _ _ _ CM) in I; lia).
  assert (OUR := objs_in _ _ _ _ _ _ _ CV U1).
  assert (LOW : forall j, j < p0 -> Forall (fun x => ~ inside x j) (obj_iv p0 main ++ all_objs vs ps)).
  { intros j J. rewrite Forall_forall. intros x I. apply in_app_or in I as [I|I]; [specialize (OMR _ I)|specialize (OUR _ I)]; unfold inside; lia. }
  (* the header *)
  assert (HEAD : forall j, j < p0 -> ~ in_slot 3 (length vs) j -> nthZ img j = nthZ code0 j).
  { intros j J N. rewrite P2' by (auto; lia). rewrite U2 by (auto; lia). apply K2. lia. }
  assert (SIGS : sigs_at img 3 vs).
  { apply (sigs_same us); [exact SAME|]. eapply sigs_move; [exact G7|]. intros j J N. apply HEAD; [lia|]. now rewrite LV. }
  (* the units *)
  assert (BM : body_at vs main img p0).
  { eapply body_at_move; [exact Y|exact CM|exact K3|]. intros j J F. rewrite P2'; [apply U2; [lia|]|lia|].
    - intros Q. apply SLOT in Q. lia.
    - rewrite Forall_app. split; [exact F|]. rewrite Forall_forall. intros x I. specialize (OUR _ I). unfold inside. lia. }
  assert (BU : units_at vs img 3 (lenZ code1) vs ps ns).
  { eapply units_move; [exact Y|exact CV|exact U1|lia|lia|]. intros j J F. apply P2'.
    - destruct J as [J|J]; [lia|]. apply SLOT in J. lia.
    - rewrite Forall_app. split; [|exact F]. rewrite Forall_forall. intros x I. specialize (OMR _ I). unfold inside. destruct J as [J|J]; [lia|]. apply SLOT in J. lia. }
  assert (UFV : Forall unit_fits vs).
  { clear - SAME UF. induction SAME as [|u v us vs (S1 & S2 & S3) _ IH]; [constructor|]. inversion UF as [|? ? U1 U2]; subst. constructor; [|auto].
    unfold unit_fits in *. rewrite S1, S2, S3. exact U1. }
  destruct (read_fns_spec _ _ _ _ _ _ _ BU SIGS UFV) as (fs & R & D & O & N).
  (* loading *)
  assert (NSLOT : forall j, j < 3 -> ~ in_slot 3 (length vs) j) by (intros j J Q; apply SLOT in Q; lia).
  exists (mkC (lenZ (b_locals main)) p0 fs). split; [|cbn [c_globals c_funs c_start]; split; [reflexivity|]].
  - unfold create_context. assert (AC : wr_createContext_accepts img = true).
    { apply accepts_iff. split.
      - rewrite <- H. apply append_crc_valid. unfold lenZ in *. lia.
      - exists (lenZ us). split; [|lia]. change 1%nat with (Z.to_nat 1). rewrite <- (HEAD 1) in G5; [|lia|apply NSLOT; lia]. exact G5. }
    rewrite AC. unfold rd8. rewrite !HEAD by (try (apply NSLOT); lia). rewrite G4, G5, G6. rewrite (G8 img).
    + assert (EQ : Z.to_nat (lenZ us) = length vs) by (unfold lenZ; lia). rewrite EQ, R. reflexivity.
    + intros j J. apply HEAD; [lia|]. intros Q. apply SLOT in Q. lia.
  - assert (LINK : forall p b, completable b -> names_fit b -> 0 <= p -> p + lenZ (b_all b) <= lenZ img -> body_at vs b img p ->
      (forall x, In x (lookups_of vs p b) -> In x L) -> linked_at us fs img p b).
    { intros p b CB NB P0 PL B SUB. apply (body_same us) in B; [|exact SAME]. destruct B as (B1 & B2 & B3). split; [exact P0|]. split; [exact PL|]. split; [exact B1|]. split; [|split].
      - intros h r I. unfold names_fit in NB. rewrite Forall_forall in NB. specialize (NB _ I). cbn [fst] in NB.
        destruct CB as [CI _]. unfold intervals in CI. rewrite !Forall_app in CI. destruct CI as (CI & _). rewrite Forall_forall in CI.
        specialize (CI _ (in_map (fun s => (snd s, call_len (fst s))) _ _ I)). cbn [fst snd] in CI.
        apply call_completed_of; [exact NB|exact G2|lia|lia| |exact (B2 _ _ I)]. now rewrite (same_index _ _ _ SAME).
      - intros h g I. apply goto_completed_of. exact (B3 _ _ I).
      - intros h r I i f NMD NF. pose proof (unit_index_named vs h) as UI. rewrite <- (same_index _ _ _ SAME) in UI.
        destruct (OBJ (p + r, Z.of_nat i)) as (n & Q1 & Q2).
        { apply SUB. apply lookups_of_in. exists h, r. split; [exact I|]. cbn [fst snd]. split; [reflexivity|]. rewrite <- (same_index _ _ _ SAME).
          pose proof (unit_index_named us h) as UI2. destruct (unit_index h us 0) as [k|]; [|destruct (named_not_unnamed _ _ _ NMD UI2)].
          destruct UI2 as (n & -> & NN). now rewrite (named_unique _ _ _ _ NMD NN). }
        cbn [fst snd] in *. rewrite Q2. rewrite nth_nthZ, <- N in Q1. apply map_nth_inv in Q1 as (f' & NF' & ->). congruence. }
    split.
    + assert (G : forall i u f, nth_error us i = Some u -> nth_error fs i = Some f -> describes u f /\ linked_at us fs img (l_off f) (u_code u)).
      { intros i u f NI NF. assert (NV : exists v, nth_error vs i = Some v /\ same u v).
        { clear - SAME NI. revert i NI. induction SAME as [|x y us vs S _ IH]; intros [|i] NI; try discriminate; cbn in *; [injection NI as <-; eauto|eauto]. }
        destruct NV as (v & NV & S1 & S2 & S3). split.
        - assert (DV : describes v f).
          { clear - D NV NF. revert i NV NF. induction D as [|x y us1 fs1 S _ IH]; intros [|i] NV NF; try discriminate; cbn in *; [congruence|eauto]. }
          unfold describes in *. rewrite S1, S2, S3 in DV. exact DV.
        - destruct (units_each _ _ _ _ _ _ _ BU ltac:(lia) i v NV) as (p & NP & PP & PL & B). rewrite S3 in *.
          assert (EP : l_off f = p).
          { rewrite <- O in NP. apply map_nth_inv in NP as (f' & NF' & ->). congruence. }
          rewrite EP. rewrite Forall_forall in CU. destruct (CU u (nth_error_In _ _ NI)) as [CB NB].
          apply LINK; auto. intros x I. apply in_or_app. right. eapply all_lookups_in; [exact NV|exact NP|]. now rewrite S3. }
      assert (LEN : length fs = length us).
      { transitivity (length vs); [|exact LV]. clear - D. induction D; cbn; congruence. }
      clear - G LEN. revert fs LEN G. intros fs LEN G.
      assert (K : forall P : cunit -> lfn -> Prop, forall us fs, length fs = length us -> (forall i u f, nth_error us i = Some u -> nth_error fs i = Some f -> P u f) -> Forall2 P us fs).
      { clear. intros P. induction us as [|u us IH]; intros [|f fs] LEN G; try discriminate; constructor.
        - exact (G O u f eq_refl eq_refl).
        - apply IH; [cbn in LEN; congruence|]. intros i. exact (G (S i)). }
      apply K; assumption.
    + apply LINK; auto; [lia|]. intros x I. apply in_or_app. now left.
Qed.
