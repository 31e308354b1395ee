From Verif Require Import Base BaseLemmas OpsModel VmModel EmitModel JumpSpec.

Lemma opcode_of_byte_of : forall o, byte_of o < 250 -> opcode_of (byte_of o) = Some o.
Proof. intros [] H; vm_compute in H; try discriminate H; vm_compute; reflexivity. Qed.
Lemma opcode_of_inv : forall b o, opcode_of b = Some o -> byte_of o = b.
Proof.
  intros b o H. unfold opcode_of in H. destruct (b <? 0) eqn:E; [discriminate|].
  assert (A : forallb (fun i => match nth_error all_opcodes i with Some o => byte_of o =? Z.of_nat i | None => true end)
                (seq 0 (length all_opcodes)) = true) by (vm_compute; reflexivity).
  rewrite forallb_forall in A. specialize (A (Z.to_nat b)).
  rewrite H in A. apply Z.ltb_ge in E. rewrite Z2Nat.id in A by assumption. apply Z.eqb_eq, A.
  apply in_seq. assert (nth_error all_opcodes (Z.to_nat b) <> None) by congruence.
  apply nth_error_Some in H0. lia.
Qed.

Lemma nthZ_upd_same {A} (l : list A) i x : 0 <= i < lenZ l -> nthZ (Base.upd l (Z.to_nat i) x) i = Some x.
Proof.
  intros H. unfold nthZ. destruct (i <? 0) eqn:E; [apply Z.ltb_lt in E; lia|].
  apply upd_same. unfold lenZ in H. lia.
Qed.
Lemma nthZ_upd_other {A} (l : list A) i j x : 0 <= i -> i <> j -> nthZ (Base.upd l (Z.to_nat i) x) j = nthZ l j.
Proof.
  intros H N. unfold nthZ. destruct (j <? 0) eqn:E; [reflexivity|]. apply Z.ltb_ge in E.
  apply upd_other. lia.
Qed.
Lemma lenZ_upd {A} (l : list A) i x : lenZ (Base.upd l i x) = lenZ l.
Proof. unfold lenZ. now rewrite upd_length. Qed.

Definition agree_on (c c' : list Z) (p q : Z) : Prop := forall x, p <= x < q -> nthZ c' x = nthZ c x.

(* everything about a branching opcode at once *)
Definition branch_ok (o : opcode) (code : list Z) (p : Z) (i : instr) (n : Z) : Prop :=
  exists k, 0 <= k <= 2 /\ n = p + k + 2 /\ diff_adjust o = (k, false) /\ byte_of o < 250 /\
  (exists o8, short_form o = Some (o8, k) /\ byte_of o8 < 250 /\
     forall code' d, agree_on code code' p (p + k) -> nthZ code' (p + k) = Some d ->
       decode_op o8 code' p = Some (retarget (p + k + VmModel.s8 d) i, n)) /\
  (exists o16, long_form o = Some (o16, k) /\ byte_of o16 < 250 /\
     forall code' d, agree_on code code' p (p + k) -> rd16 code' (p + k) = Some d ->
       decode_op o16 code' p = Some (retarget (p + k + d) i, n)).

Local Ltac br k o8 o16 := exists k; split; [lia|]; split; [lia|]; split; [reflexivity|]; split; [reflexivity|]; split;
  [exists o8; split; [reflexivity|]; split; [reflexivity|] | exists o16; split; [reflexivity|]; split; [reflexivity|]].

Lemma b0_inv short f code p i n : b0 short f code p = Some (i, n) -> n = p + 2 /\ exists t, i = f t.
Proof.
  unfold b0. destruct short; [destruct (rd8 code p)|destruct (rd16 code p)]; intros H; inversion H; subst; eauto.
Qed.
Lemma vb1_inv short f code p i n : vb1 short f code p = Some (i, n) ->
  exists x, nthZ code p = Some x /\ n = p + 3 /\ exists t, i = f (Z.to_nat x) t.
Proof.
  unfold vb1, rd8. destruct (nthZ code p) as [x|]; [|discriminate]. intros H. apply b0_inv in H as [-> [t ->]].
  exists x. split; [reflexivity|]. split; [lia|]. now exists t.
Qed.
Lemma vb2_inv short f code p i n : vb2 short f code p = Some (i, n) ->
  exists x y, nthZ code p = Some x /\ nthZ code (p + 1) = Some y /\ n = p + 4 /\ exists t, i = f (Z.to_nat x) (Z.to_nat y) t.
Proof.
  unfold vb2, rd8. destruct (nthZ code p) as [x|]; [|discriminate]. destruct (nthZ code (p + 1)) as [y|]; [|discriminate].
  intros H. apply b0_inv in H as [-> [t ->]].
  exists x, y. split; [reflexivity|]. split; [reflexivity|]. split; [lia|]. now exists t.
Qed.

Lemma branch_shape o code p i n t :
  decode_op o code p = Some (i, n) -> target_of i = Some t -> branch_ok o code p i n.
Proof.
  intros D T.
  destruct o; cbn [decode_op] in D;
  try (apply b0_inv in D as [-> [t' ->]]; (eexists; split; [|split; [|split; [reflexivity|]]]; [lia|lia|];
       split; [reflexivity|]; split; eexists; (split; [reflexivity|]); (split; [reflexivity|]); intros code' d A R;
       cbn [decode_op retarget]; unfold b0, rd8; rewrite ?Z.add_0_r in *; rewrite R; reflexivity); fail);
  try (apply vb1_inv in D as [x [X [-> [t' ->]]]]; (eexists; split; [|split; [|split; [reflexivity|]]]; [lia|lia|];
       split; [reflexivity|]; split; eexists; (split; [reflexivity|]); (split; [reflexivity|]); intros code' d A R;
       cbn [decode_op retarget]; unfold vb1, b0, rd8; rewrite (A p) by lia; rewrite X, R; do 2 f_equal; lia); fail);
  try (apply vb2_inv in D as [x [y [X [Y [-> [t' ->]]]]]]; (eexists; split; [|split; [|split; [reflexivity|]]]; [lia|lia|];
       split; [reflexivity|]; split; eexists; (split; [reflexivity|]); (split; [reflexivity|]); intros code' d A R;
       cbn [decode_op retarget]; unfold vb2, b0, rd8; rewrite (A p), (A (p + 1)) by lia; rewrite X, Y, R; do 2 f_equal; lia); fail);
  exfalso;
  unfold n0, v1, v1q, v2, lInt8, lInt16, lInt32, lFloat, lU8, lS16, lString, call, lib in D;
  repeat match type of D with
         | match ?x with _ => _ end = _ => destruct x
         | (if ?x then _ else _) = _ => destruct x
         end; try discriminate D; inversion D; subst; cbn in T; discriminate T.
Qed.

Lemma s8_enc d : -128 <= d < 128 -> VmModel.s8 (u8 d) = d.
Proof. unfold VmModel.s8, u8. intros. destruct (d mod 256 <? 128) eqn:E; [apply Z.ltb_lt in E|apply Z.ltb_ge in E]; lia. Qed.
Lemma s16_enc d : -32768 <= d < 32768 -> VmModel.s16 (u8 d + 256 * u8 (d / 256)) = d.
Proof.
  unfold VmModel.s16, u8. intros.
  assert (E : d mod 256 + 256 * ((d / 256) mod 256) = d mod 65536) by lia. rewrite E.
  destruct (d mod 65536 <? 32768) eqn:E'; [apply Z.ltb_lt in E'|apply Z.ltb_ge in E']; lia.
Qed.

Lemma put_ok l i v : 0 <= i < lenZ l -> put l i v = COk (Base.upd l (Z.to_nat i) v).
Proof.
  intros H. unfold put. destruct ((0 <=? i) && (i <? lenZ l)) eqn:E; [reflexivity|].
  apply andb_false_iff in E as [E|E]; [apply Z.leb_gt in E|apply Z.ltb_ge in E]; lia.
Qed.

Lemma nthZ_byte l q b : Forall is_byte l -> nthZ l q = Some b -> is_byte b.
Proof.
  intros F H. unfold nthZ in H. destruct (q <? 0); [discriminate|]. apply nth_error_In in H.
  rewrite Forall_forall in F. auto.
Qed.

(* what the machine reads at a rewritten site *)
Definition resolved (off ref : Z) (l l' : list Z) (k : jkind) (n : Z) : Prop :=
  jump_at l' (ref - 1) = Some (k, off, n) /\
  lenZ l' = lenZ l /\ (forall q, ~ (ref - 1 <= q < n) -> nthZ l' q = nthZ l q).

Lemma decode_of code pc b o : nthZ code pc = Some b -> opcode_of b = Some o -> decode code pc = decode_op o code (pc + 1).
Proof. intros H1 H2. unfold decode, rd8. now rewrite H1, H2. Qed.
Lemma decode_of' code pc o : nthZ code pc = Some (byte_of o) -> byte_of o < 250 -> decode code pc = decode_op o code (pc + 1).
Proof. intros H1 H2. eapply decode_of; eauto using opcode_of_byte_of. Qed.

Lemma resolve_one_branch off ref l i n t :
  decode l (ref - 1) = Some (i, n) -> target_of i = Some t -> n <= lenZ l ->
  match resolve_one off ref l with
  | COk l' => resolved off ref l l' (JInstr (retarget 0 i)) n
  | CErr e => e = E_bad_goto_location /\ (off - (n - 2) < -32768 \/ 32767 < off - (n - 2))
  | CUB => False
  end.
Proof.
  intros D T N. unfold decode, rd8 in D.
  destruct (nthZ l (ref - 1)) as [b|] eqn:B; [|discriminate]. destruct (opcode_of b) as [o|] eqn:O; [|discriminate].
  replace (ref - 1 + 1) with ref in D by lia.
  pose proof (nthZ_some_range _ _ _ B) as R.
  pose proof (decode_of _ _ _ _ B O) as DL. replace (ref - 1 + 1) with ref in DL by lia. rewrite D in DL.
  destruct (branch_shape _ _ _ _ _ _ D T) as (k & K & -> & DA & O250 & (o8 & S8 & S250 & DS) & (o16 & L16 & L250 & DLg)).
  unfold resolve_one. rewrite B, O, DA, S8, L16.
  set (diff := off - ref - k).
  destruct ((diff <? 128) && (-129 <? diff) && negb false) eqn:E.
  - apply andb_true_iff in E as [E _]. apply andb_true_iff in E as [E1 E2]. apply Z.ltb_lt in E1, E2.
    rewrite put_ok by lia. cbn [cbind]. rewrite put_ok by (rewrite lenZ_upd; lia).
    set (l' := Base.upd _ _ _).
    assert (P0 : nthZ l' (ref - 1) = Some (byte_of o8)).
    { unfold l'. rewrite nthZ_upd_other by lia. apply nthZ_upd_same. lia. }
    assert (PK : nthZ l' (ref + k) = Some (u8 diff)) by (apply nthZ_upd_same; rewrite lenZ_upd; lia).
    assert (PO : forall q, q <> ref - 1 -> q <> ref + k -> nthZ l' q = nthZ l q).
    { intros q Q1 Q2. unfold l'. rewrite nthZ_upd_other by lia. apply nthZ_upd_other; lia. }
    assert (DD : decode l' (ref - 1) = Some (retarget off i, ref + k + 2)).
    { rewrite (decode_of' _ _ _ P0 S250). replace (ref - 1 + 1) with ref by lia.
      rewrite (DS l' (u8 diff)); [|intros x X; apply PO; lia|exact PK].
      do 2 f_equal. rewrite s8_enc by lia. f_equal. lia. }
    split; [|split].
    + unfold jump_at. rewrite DD. destruct i; cbn in T; try discriminate T; reflexivity.
    + unfold l'. now rewrite !lenZ_upd.
    + intros q Q. apply PO; lia.
  - assert (E' : ~ (-129 < diff < 128)).
    { intros [X Y]. apply Z.ltb_lt in X, Y. rewrite X, Y in E. discriminate E. } clear E.
    destruct ((diff <? -32768) || (32767 <? diff)) eqn:E.
    + split; [reflexivity|]. apply orb_true_iff in E as [E|E]; apply Z.ltb_lt in E; lia.
    + apply orb_false_iff in E as [E1 E2]. apply Z.ltb_ge in E1, E2.
      rewrite put_ok by lia. cbn [cbind]. rewrite put_ok by (rewrite lenZ_upd; lia). cbn [cbind].
      rewrite put_ok by (rewrite !lenZ_upd; lia).
      set (l' := Base.upd _ _ _).
      assert (P0 : nthZ l' (ref - 1) = Some (byte_of o16)).
      { unfold l'. rewrite !nthZ_upd_other by lia. apply nthZ_upd_same. lia. }
      assert (PK : nthZ l' (ref + k) = Some (u8 diff)).
      { unfold l'. rewrite nthZ_upd_other by lia. apply nthZ_upd_same; rewrite lenZ_upd; lia. }
      assert (PK1 : nthZ l' (ref + k + 1) = Some (u8 (diff / 256))) by (apply nthZ_upd_same; rewrite !lenZ_upd; lia).
      assert (PO : forall q, q <> ref - 1 -> q <> ref + k -> q <> ref + k + 1 -> nthZ l' q = nthZ l q).
      { intros q Q1 Q2 Q3. unfold l'. rewrite nthZ_upd_other by lia. rewrite nthZ_upd_other by lia. apply nthZ_upd_other; lia. }
      assert (RD : rd16 l' (ref + k) = Some diff).
      { unfold rd16, rdu16, rd8. rewrite PK, PK1. cbn [option_map]. f_equal. apply s16_enc. lia. }
      assert (DD : decode l' (ref - 1) = Some (retarget off i, ref + k + 2)).
      { rewrite (decode_of' _ _ _ P0 L250). replace (ref - 1 + 1) with ref by lia.
        rewrite (DLg l' diff); [|intros x X; apply PO; lia|exact RD].
        do 2 f_equal. f_equal. lia. }
      split; [|split].
      * unfold jump_at. rewrite DD. destruct i; cbn in T; try discriminate T; reflexivity.
      * unfold l'. now rewrite !lenZ_upd.
      * intros q Q. apply PO; lia.
Qed.

Lemma resolve_one_foreach off ref l i n0 k n t :
  decode l (ref - 1) = Some (i, n0) -> target_of i = None -> foreach_at l (ref - 1) = Some (k, t, n) -> n <= lenZ l ->
  match resolve_one off ref l with
  | COk l' => resolved off ref l l' k n
  | CErr e => e = E_bad_goto_location /\ (off - (n - 2) < -32768 \/ 32767 < off - (n - 2))
  | CUB => False
  end.
Proof.
  intros D T F N. unfold foreach_at in F. unfold decode, rd8 in D.
  destruct (nthZ l (ref - 1)) as [b|] eqn:B; [|discriminate]. destruct (opcode_of b) as [o|] eqn:O; [|discriminate].
  destruct (foreach_operands o) as [k'|] eqn:FO; [|discriminate]. replace (ref - 1 + 1) with ref in * by lia.
  destruct (rd16 l (ref + k')) as [d|] eqn:RD; [|discriminate]. injection F as <- <- <-. rename k' into k.
  pose proof (nthZ_some_range _ _ _ B) as R.
  assert (K : diff_adjust o = (k, true) /\ long_form o = Some (o, k) /\ byte_of o < 250 /\ 2 <= k <= 3 /\
              forall c, decode_op o c ref = Some (IExt o, ref)).
  { destruct o; cbn in FO; try discriminate FO; injection FO as <-; repeat split; try reflexivity; lia. }
  destruct K as (DA & LF & O250 & K & DO). rewrite DO in D. injection D as <- <-.
  unfold resolve_one. rewrite B, O, DA, LF, andb_false_r. set (diff := off - ref - k).
  destruct ((diff <? -32768) || (32767 <? diff)) eqn:E.
  - split; [reflexivity|]. apply orb_true_iff in E as [E|E]; apply Z.ltb_lt in E; lia.
  - apply orb_false_iff in E as [E1 E2]. apply Z.ltb_ge in E1, E2.
    rewrite put_ok by lia. cbn [cbind]. rewrite put_ok by (rewrite lenZ_upd; lia). cbn [cbind].
    rewrite put_ok by (rewrite !lenZ_upd; lia).
    set (l' := Base.upd _ _ _).
    assert (P0 : nthZ l' (ref - 1) = Some (byte_of o)).
    { unfold l'. rewrite !nthZ_upd_other by lia. apply nthZ_upd_same. lia. }
    assert (PK : nthZ l' (ref + k) = Some (u8 diff)).
    { unfold l'. rewrite nthZ_upd_other by lia. apply nthZ_upd_same; rewrite lenZ_upd; lia. }
    assert (PK1 : nthZ l' (ref + k + 1) = Some (u8 (diff / 256))) by (apply nthZ_upd_same; rewrite !lenZ_upd; lia).
    assert (PO : forall q, q <> ref - 1 -> q <> ref + k -> q <> ref + k + 1 -> nthZ l' q = nthZ l q).
    { intros q Q1 Q2 Q3. unfold l'. rewrite nthZ_upd_other by lia. rewrite nthZ_upd_other by lia. apply nthZ_upd_other; lia. }
    assert (RD' : rd16 l' (ref + k) = Some diff).
    { unfold rd16, rdu16, rd8. rewrite PK, PK1. cbn [option_map]. f_equal. apply s16_enc. lia. }
    assert (DD : decode l' (ref - 1) = Some (IExt o, ref)).
    { rewrite (decode_of' _ _ _ P0 O250). replace (ref - 1 + 1) with ref by lia. apply DO. }
    assert (BO : b = byte_of o) by (symmetry; now apply opcode_of_inv).
    split; [|split].
    + unfold jump_at. rewrite DD. cbn [target_of]. unfold foreach_at. rewrite P0, (opcode_of_byte_of _ O250), FO.
      replace (ref - 1 + 1) with ref by lia. rewrite RD'. do 3 f_equal; [|lia]. f_equal.
      apply map_ext_in. intros x X. apply in_seq in X. apply PO; lia.
    + unfold l'. now rewrite !lenZ_upd.
    + intros q Q. apply PO; lia.
Qed.

Lemma resolve_one_ok off ref l k t n :
  jump_at l (ref - 1) = Some (k, t, n) -> n <= lenZ l ->
  match resolve_one off ref l with
  | COk l' => resolved off ref l l' k n
  | CErr e => e = E_bad_goto_location /\ (off - (n - 2) < -32768 \/ 32767 < off - (n - 2))
  | CUB => False
  end.
Proof.
  intros J N. unfold jump_at in J. destruct (decode l (ref - 1)) as [[i n0]|] eqn:D; [|discriminate].
  destruct (target_of i) as [t'|] eqn:T.
  - injection J as <- <- <-. eapply resolve_one_branch; eauto.
  - eapply resolve_one_foreach; eauto.
Qed.

(* ---- all of a block ---- *)
Lemma b0_local short f code code' p i n :
  b0 short f code p = Some (i, n) -> agree_on code code' p n -> b0 short f code' p = Some (i, n).
Proof.
  intros D A. pose proof (b0_inv _ _ _ _ _ _ D) as [-> _]. unfold b0, rd16, rdu16, rd8 in *.
  rewrite (A p), (A (p + 1)) by lia. exact D.
Qed.
Lemma vb1_local short f code code' p i n :
  vb1 short f code p = Some (i, n) -> agree_on code code' p n -> vb1 short f code' p = Some (i, n).
Proof.
  intros D A. pose proof (vb1_inv _ _ _ _ _ _ D) as (x & X & -> & _). unfold vb1, rd8 in *.
  rewrite (A p) by lia. rewrite X in *. eapply b0_local; [exact D|]. intros q Q. apply A. lia.
Qed.
Lemma vb2_local short f code code' p i n :
  vb2 short f code p = Some (i, n) -> agree_on code code' p n -> vb2 short f code' p = Some (i, n).
Proof.
  intros D A. pose proof (vb2_inv _ _ _ _ _ _ D) as (x & y & X & Y & -> & _). unfold vb2, rd8 in *.
  rewrite (A p), (A (p + 1)) by lia. rewrite X, Y in *. eapply b0_local; [exact D|]. intros q Q. apply A. lia.
Qed.
Lemma decode_op_local o code code' p i n t :
  decode_op o code p = Some (i, n) -> target_of i = Some t -> agree_on code code' p n -> decode_op o code' p = Some (i, n).
Proof.
  intros D T A.
  destruct o; cbn [decode_op] in D |- *;
  try (eapply b0_local; eassumption); try (eapply vb1_local; eassumption); try (eapply vb2_local; eassumption);
  exfalso;
  unfold n0, v1, v1q, v2, lInt8, lInt16, lInt32, lFloat, lU8, lS16, lString, call, lib in D;
  repeat match type of D with
         | match ?x with _ => _ end = _ => destruct x
         | (if ?x then _ else _) = _ => destruct x
         end; try discriminate D; inversion D; subst; cbn in T; discriminate T.
Qed.
Lemma foreach_k o k : foreach_operands o = Some k -> 2 <= k <= 3.
Proof. destruct o; cbn; intros H; try discriminate H; injection H as <-; lia. Qed.
Lemma foreach_decode o k c p : foreach_operands o = Some k -> decode_op o c p = Some (IExt o, p).
Proof. destruct o; cbn; intros H; try discriminate H; reflexivity. Qed.
Lemma jump_at_range code pc k t n : jump_at code pc = Some (k, t, n) -> 0 <= pc /\ pc + 3 <= n.
Proof.
  intros J. unfold jump_at in J. destruct (decode code pc) as [[i n0]|] eqn:D; [|discriminate].
  unfold decode, rd8 in D. destruct (nthZ code pc) as [b|] eqn:B; [|discriminate].
  pose proof (nthZ_some_range _ _ _ B). split; [lia|].
  destruct (opcode_of b) as [o|] eqn:O; [|discriminate].
  destruct (target_of i) as [t'|] eqn:T.
  - injection J as <- <- <-. destruct (branch_shape _ _ _ _ _ _ D T) as (k & K & -> & _). lia.
  - unfold foreach_at in J. rewrite B, O in J. destruct (foreach_operands o) as [k'|] eqn:F; [|discriminate].
    apply foreach_k in F.
    destruct (rd16 code (pc + 1 + k')); [|discriminate]. injection J as <- <- <-. lia.
Qed.
Lemma jump_at_local code code' pc k t n :
  jump_at code pc = Some (k, t, n) -> agree_on code code' pc n -> jump_at code' pc = Some (k, t, n).
Proof.
  intros J A. pose proof (jump_at_range _ _ _ _ _ J) as [P N].
  unfold jump_at in *. destruct (decode code pc) as [[i n0]|] eqn:D; [|discriminate].
  unfold decode, rd8 in *. rewrite (A pc) by lia. destruct (nthZ code pc) as [b|] eqn:B; [|discriminate].
  destruct (opcode_of b) as [o|] eqn:O; [|discriminate].
  destruct (target_of i) as [t'|] eqn:T.
  - injection J as <- <- <-. rewrite (decode_op_local _ _ _ _ _ _ _ D T); [rewrite T; auto|].
    intros q Q. apply A. lia.
  - unfold foreach_at in *. rewrite (A pc) by lia. rewrite B, O in *. destruct (foreach_operands o) as [k'|] eqn:F; [|discriminate].
    rewrite (foreach_decode _ _ _ _ F) in D. rewrite (foreach_decode _ _ code' _ F). injection D as <- <-. apply foreach_k in F.
    destruct (rd16 code (pc + 1 + k')) as [d|] eqn:R; [|discriminate]. injection J as <- <- <-.
    assert (R' : rd16 code' (pc + 1 + k') = Some d).
    { unfold rd16, rdu16, rd8 in *. rewrite !A by lia. exact R. }
    cbn [target_of]. rewrite R'. do 3 f_equal. f_equal. apply map_ext_in. intros x X. apply in_seq in X. apply A. lia.
Qed.

(* sites: the flat list of a block's references *)
Definition sites_of (js : list jtarget) : list site := flat_map (fun j => map (fun r => (j_off j, r)) (j_refs j)) js.
Fixpoint resolve_sites (ss : list site) (l : list Z) : cres (list Z) :=
  match ss with [] => COk l | s :: rs => l1 <~ resolve_one (fst s) (snd s) l ;; resolve_sites rs l1 end.
Lemma resolve_sites_app a b l : resolve_sites (a ++ b) l = (l1 <~ resolve_sites a l ;; resolve_sites b l1).
Proof.
  revert l. induction a as [|s a IH]; intros l; [reflexivity|]. cbn. destruct (resolve_one (fst s) (snd s) l); cbn; auto.
Qed.
Lemma resolve_refs_sites off rs l : resolve_refs off rs l = resolve_sites (map (fun r => (off, r)) rs) l.
Proof. revert l. induction rs as [|r rs IH]; intros l; [reflexivity|]. cbn. destruct (resolve_one off r l); cbn; auto. Qed.
Lemma resolve_targets_sites js l : resolve_targets js l = resolve_sites (sites_of js) l.
Proof.
  revert l. induction js as [|j js IH]; intros l; [reflexivity|]. cbn [resolve_targets sites_of flat_map].
  rewrite resolve_sites_app, resolve_refs_sites. destruct (resolve_sites _ l); cbn; auto.
Qed.

Lemma fop_inv {A} (R : A -> A -> Prop) a l : ForallOrdPairs R (a :: l) -> Forall (R a) l /\ ForallOrdPairs R l.
Proof. inversion 1; auto. Qed.

Lemma resolve_sites_ok ss : forall l,
  Forall (site_ok l) ss -> sites_disjoint l ss ->
  match resolve_sites ss l with
  | COk l' => lenZ l' = lenZ l /\ (forall q, ~ in_site l ss q -> nthZ l' q = nthZ l q) /\
              forall s k t n, In s ss -> jump_at l (snd s - 1) = Some (k, t, n) -> jump_at l' (snd s - 1) = Some (k, fst s, n)
  | CErr e => e = E_bad_goto_location /\ exists s, In s ss /\ ~ encodable l s
  | CUB => False
  end.
Proof.
  induction ss as [|s ss IH]; intros l W D.
  - cbn. split; [reflexivity|]. split; [reflexivity|]. intros ? ? ? ? [].
  - apply Forall_cons_iff in W as [W0 W]. destruct W0 as (k & t & n & J & N).
    assert (D1 := D). apply fop_inv in D1. destruct D1 as [D0 D1].
    cbn [resolve_sites]. pose proof (resolve_one_ok (fst s) (snd s) l k t n J N) as R.
    destruct (resolve_one (fst s) (snd s) l) as [l1|e|]; [|destruct R as [-> R]|contradiction].
    + cbn [cbind]. destruct R as (RJ & RL & RO).
      assert (AG : forall s', In s' ss -> forall k' t' n', jump_at l (snd s' - 1) = Some (k', t', n') -> agree_on l l1 (snd s' - 1) n').
      { intros s' I k' t' n' J' q Q. apply RO. rewrite Forall_forall in D0. specialize (D0 s' I k t n k' t' n' J J').
        pose proof (jump_at_range _ _ _ _ _ J). pose proof (jump_at_range _ _ _ _ _ J'). lia. }
      assert (JE : forall s', In s' ss -> jump_at l1 (snd s' - 1) = jump_at l (snd s' - 1)).
      { intros s' I. rewrite Forall_forall in W. destruct (W s' I) as (k2 & t2 & n2 & J2 & _).
        now rewrite (jump_at_local _ _ _ _ _ _ J2 (AG s' I _ _ _ J2)), J2. }
      specialize (IH l1).
      assert (W1 : Forall (site_ok l1) ss).
      { apply Forall_forall. intros s' I. rewrite Forall_forall in W. destruct (W s' I) as (k2 & t2 & n2 & J2 & N2).
        exists k2, t2, n2. split; [now rewrite JE|lia]. }
      assert (DD : sites_disjoint l1 ss).
      { clear -D1 JE. unfold sites_disjoint in *. induction ss as [|a ss IH]; [constructor|].
        apply fop_inv in D1 as [DA D1]. constructor.
        - apply Forall_forall. intros b I k t n k' t' n' J J'. rewrite Forall_forall in DA.
          rewrite JE in J, J' by (now (left + right)). eapply (DA b I); eassumption.
        - apply IH; auto. intros s' I. apply JE. now right. }
      specialize (IH W1 DD). destruct (resolve_sites ss l1) as [l2|e|]; [|destruct IH as [-> (s' & I & NE)]|contradiction].
      * destruct IH as (L2 & O2 & F2). split; [lia|].
        assert (INS : forall q, in_site l1 ss q -> in_site l ss q).
        { intros q (s' & k' & t' & n' & I & J' & Q). exists s', k', t', n'. split; [exact I|]. split; [now rewrite <- JE|exact Q]. }
        split.
        { intros q Q. rewrite O2, RO; [reflexivity| |].
          - intros X. apply Q. exists s, k, t, n. split; [now left|]. auto.
          - intros X. apply Q. apply INS in X. destruct X as (s' & k' & t' & n' & I & X). exists s', k', t', n'. split; [now right|auto]. }
        intros s' k' t' n' [<- | I] J'.
        { rewrite J in J'. injection J' as <- <- <-. eapply jump_at_local; [exact RJ|].
          intros q Q. apply O2. intros X. apply INS in X. destruct X as (s' & k' & t' & n' & I & J' & Q').
          rewrite Forall_forall in D0. specialize (D0 s' I k t n k' t' n' J J'). lia. }
        { eapply F2; [exact I|]. rewrite JE by exact I. exact J'. }
      * split; [reflexivity|]. exists s'. split; [now right|]. intros (k2 & t2 & n2 & J2 & E). apply NE.
        exists k2, t2, n2. split; [now rewrite JE|exact E].
    + cbn. split; [reflexivity|]. exists s. split; [now left|]. intros (k2 & t2 & n2 & J2 & E).
      rewrite J in J2. injection J2 as <- <- <-. lia.
Qed.
