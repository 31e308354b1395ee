(* The selection tables of switch. *)
From Verif Require Import Base BaseLemmas HashModel OpsModel VmModel EmitModel CcModel JumpSpec JumpProofs JumpProps CtlSpec LayProofs AppendProofs StepProofs.

(* at [p] the image has a selection instruction that sends a value of hash [h] to [dest h] *)
Definition switch_at (C : list Z) (p : Z) (dest : Z -> Z) : Prop :=
  (decode C p = Some (ISwitch, p + 1) /\
   forall h s, 0 <= h < 4294967296 -> vpc s = p + 1 -> do_switch C h s = Ok (Run (set_pc s (dest h)))) \/
  (decode C p = Some (ISwitchLinear, p + 1) /\
   forall h s, 0 <= h < 4294967296 -> vpc s = p + 1 -> do_switch_linear C h s = Ok (Run (set_pc s (dest h)))).
(* the case of a value; the default; else the end [q] *)
Definition dest_of (B : Z) (cases : list scase) (dflt q h : Z) : Z :=
  match find_case h cases with Some c => B + sc_off c | None => if dflt =? -1 then q else B + dflt end.

(* ---- reading what was packed ---- *)
Lemma pack16_eq x : wr_pack16 x = [x mod 256; x / 256 mod 256].
Proof. unfold wr_pack16. change 255 with (Z.ones 8). rewrite !Z.land_ones, Z.shiftr_div_pow2 by lia. reflexivity. Qed.
Lemma pack32_eq x : wr_pack32 x = [x mod 256; x / 256 mod 256; x / 65536 mod 256; x / 16777216 mod 256].
Proof. unfold wr_pack32. change 255 with (Z.ones 8). rewrite !Z.land_ones, !Z.shiftr_div_pow2 by lia. reflexivity. Qed.
Definition has (C : list Z) (p : Z) (l : list Z) : Prop := forall i, 0 <= i < lenZ l -> nthZ C (p + i) = nthZ l i.
Lemma has_app C p a b : has C p (a ++ b) <-> has C p a /\ has C (p + lenZ a) b.
Proof.
  pose proof (lenZ_nonneg a). pose proof (lenZ_nonneg b). split.
  - intros H1. split; intros i I.
    + rewrite H1 by (rewrite lenZ_app; lia). apply nthZ_app1. lia.
    + rewrite <- (nthZ_app2 a b) by lia. rewrite <- H1 by (rewrite lenZ_app; lia). f_equal. lia.
  - intros [H1 H2] i I. rewrite lenZ_app in I. destruct (Z.lt_ge_cases i (lenZ a)).
    + rewrite nthZ_app1 by lia. apply H1. lia.
    + replace i with (lenZ a + (i - lenZ a)) by lia. rewrite nthZ_app2 by lia. rewrite <- H2 by lia. f_equal. lia.
Qed.
Lemma has2 C p x y : has C p [x; y] -> nthZ C p = Some x /\ nthZ C (p + 1) = Some y.
Proof.
  intros H. change (lenZ [x; y]) with 2 in *. split.
  - replace p with (p + 0) by lia. rewrite (H 0); [reflexivity|vm_compute; intuition congruence].
  - rewrite (H 1); [reflexivity|vm_compute; intuition congruence].
Qed.
Lemma rdu16_pack C p x : has C p (wr_pack16 x) -> rdu16 C p = Some (x mod 65536).
Proof.
  rewrite pack16_eq. intros H. apply has2 in H as [H1 H2]. unfold rdu16, rd8. rewrite H1, H2. f_equal. lia.
Qed.
Lemma rd16_pack C p x : -32768 <= x <= 32767 -> has C p (wr_pack16 x) -> rd16 C p = Some x.
Proof.
  intros R H. unfold rd16. rewrite (rdu16_pack _ _ _ H). cbn [option_map]. f_equal. unfold VmModel.s16.
  destruct (Z.ltb_spec (x mod 65536) 32768); lia.
Qed.
Lemma rd32_pack C p x : 0 <= x < 4294967296 -> has C p (wr_pack32 x) -> rd32 C p = Some x.
Proof.
  intros R H. assert (E : wr_pack32 x = wr_pack16 x ++ wr_pack16 (x / 65536)).
  { rewrite pack32_eq, !pack16_eq. cbn [app]. replace (x / 65536 / 256) with (x / 16777216); [reflexivity|].
    change 16777216 with (65536 * 256). rewrite Z.div_div by lia. reflexivity. }
  rewrite E in H. apply has_app in H as [H1 H2]. rewrite pack16_eq in H2 at 1. change (lenZ [x mod 256; x / 256 mod 256]) with 2 in H2.
  unfold rd32. rewrite (rdu16_pack _ _ _ H1), (rdu16_pack _ _ _ H2). f_equal. lia.
Qed.
(* entry i of a table of entries of width w *)
Lemma has_entries C p (f : nat -> list Z) w : forall n k, (forall i, lenZ (f i) = w) ->
  has C p (flat_map f (seq k n)) -> forall i, (i < n)%nat -> has C (p + w * Z.of_nat i) (f (k + i)%nat).
Proof.
  intros n. revert p. induction n as [|n IH]; intros p k W H i I; [lia|]. cbn [seq flat_map] in H. apply has_app in H as [H1 H2].
  destruct i as [|i].
  - replace (p + w * Z.of_nat 0) with p by lia. now rewrite Nat.add_0_r.
  - specialize (IH (p + lenZ (f k)) (S k) W H2 i ltac:(lia)). rewrite W in IH.
    replace (p + w * Z.of_nat (S i)) with (p + w + w * Z.of_nat i) by lia. now replace (k + S i)%nat with (S k + i)%nat by lia.
Qed.
Lemma len_entries (f : nat -> list Z) w : (forall i, lenZ (f i) = w) -> forall n k, lenZ (flat_map f (seq k n)) = w * Z.of_nat n.
Proof.
  intros W. induction n as [|n IH]; intros k; [cbn; unfold lenZ; cbn; lia|]. cbn [seq flat_map]. rewrite lenZ_app, W, IH. lia.
Qed.
Lemma decode_switch C p : has C p [byte_of O_Switch] -> decode C p = Some (ISwitch, p + 1).
Proof.
  intros H. unfold decode, rd8. replace (nthZ C p) with (Some (byte_of O_Switch)); [reflexivity|].
  replace p with (p + 0) by lia. rewrite H; [reflexivity|vm_compute; intuition congruence].
Qed.
Lemma decode_linear C p : has C p [byte_of O_SwitchLinear] -> decode C p = Some (ISwitchLinear, p + 1).
Proof.
  intros H. unfold decode, rd8. replace (nthZ C p) with (Some (byte_of O_SwitchLinear)); [reflexivity|].
  replace p with (p + 0) by lia. rewrite H; [reflexivity|vm_compute; intuition congruence].
Qed.
Lemma push_switch b : push_opcode O_Switch b = COk (set_code b (b_all b ++ [byte_of O_Switch]) (O_Switch :: b_ops b)).
Proof. unfold push_opcode, fuse. destruct (b_ops b); reflexivity. Qed.
Lemma push_linear b : push_opcode O_SwitchLinear b = COk (set_code b (b_all b ++ [byte_of O_SwitchLinear]) (O_SwitchLinear :: b_ops b)).
Proof. unfold push_opcode, fuse. destruct (b_ops b); reflexivity. Qed.
Lemma len_pack16 x : lenZ (wr_pack16 x) = 2.
Proof. reflexivity. Qed.
Lemma len_pack32 x : lenZ (wr_pack32 x) = 4.
Proof. reflexivity. Qed.
Lemma find_case_in h cases c : find_case h cases = Some c -> In c cases /\ sc_hash c = h.
Proof. unfold find_case. intros H. apply find_some in H as [I E]. apply Z.eqb_eq in E. auto. Qed.

Section Tables.
Variables (cases : list scase) (dflt : Z) (b : bcode).
Hypothesis Hash : Forall (fun c => 0 <= sc_hash c < 4294967296) cases.
Hypothesis Offs : Forall (fun c => 0 <= sc_off c <= size b) cases.
Hypothesis Dflt : dflt = -1 \/ 0 <= dflt <= size b.

Lemma linear_ok sz b1 : 0 <= sz < 254 -> Forall (fun c => sc_hash c < sz) cases ->
  linear_table cases dflt sz b = COk b1 -> size b1 < 32768 ->
  exists P, appended b empty_bc P b1 /\ b_ops b1 = O_SwitchLinear :: b_ops b /\ P <> [] /\
    forall C B, has C (B + size b) P -> switch_at C (B + size b) (dest_of B cases dflt (B + size b1)).
Proof.
  intros SZ BIG E S1. unfold linear_table in E. rewrite push_linear in E. cbn [cbind] in E.
  set (pos := size (push_data [u8 sz] (set_code b (b_all b ++ [byte_of O_SwitchLinear]) (O_SwitchLinear :: b_ops b)))) in *.
  assert (POS : pos = size b + 2).
  { unfold pos, size, push_data. cbn [set_code b_all]. rewrite !lenZ_app. change (lenZ [u8 sz]) with 1. change (lenZ [byte_of O_SwitchLinear]) with 1. lia. }
  set (d := if dflt =? -1 then Base.s16 (sz * 2 + 2) else Base.s16 (dflt - pos)) in *.
  set (f := fun i => wr_pack16 (match find_case (Z.of_nat i) cases with Some c => Base.s16 (sc_off c - pos) | None => d end)) in *.
  assert (LF : forall i, lenZ (f i) = 2) by (intros; apply len_pack16).
  set (P := [byte_of O_SwitchLinear] ++ [u8 sz] ++ wr_pack16 d ++ flat_map f (seq 0 (Z.to_nat sz))).
  assert (LP : lenZ P = 4 + 2 * sz).
  { unfold P. rewrite !lenZ_app, len_pack16, (len_entries f 2 LF). change (lenZ [u8 sz]) with 1. change (lenZ [byte_of O_SwitchLinear]) with 1. lia. }
  apply (f_equal (fun r => match r with COk x => x | _ => b end)) in E. cbv beta iota in E.
  assert (E' : b1 = set_code b (b_all b ++ P) (b_ops b1)).
  { rewrite <- E. unfold push_data, P, set_code. cbn [b_all b_ops b_locals b_fns b_objs b_jumps b_gotos]. f_equal. now rewrite <- !app_assoc. }
  exists P. split; [now apply appended_data|]. split; [rewrite <- E; reflexivity|]. split; [discriminate|].
  assert (AP : appended b empty_bc P b1) by now apply appended_data.
  pose proof (ap_size _ _ _ _ AP) as SB. pose proof (lenZ_nonneg (b_all b)) as NB. fold (size b) in NB.
  assert (RD : -32768 <= d <= 32767) by (unfold d; destruct (dflt =? -1); apply s16_range).
  intros C B H. unfold P in H. apply has_app in H as [H1 H]. apply has_app in H as [H2 H]. apply has_app in H as [H3 H4].
  change (lenZ [byte_of O_SwitchLinear]) with 1 in *. change (lenZ [u8 sz]) with 1 in *. rewrite len_pack16 in H4.
  right. split; [now apply decode_linear|]. intros h s HH PC. unfold do_switch_linear, rd8. rewrite PC.
  assert (SZB : nthZ C (B + size b + 1) = Some sz).
  { replace (B + size b + 1) with (B + size b + 1 + 0) by lia. rewrite (H2 0) by (vm_compute; intuition congruence).
    cbn. f_equal. unfold u8. rewrite Z.mod_small; lia. }
  rewrite SZB. unfold dest_of.
  assert (DT : B + size b + 1 + 1 + d = (if dflt =? -1 then B + size b1 else B + dflt)).
  { unfold d. destruct (Z.eqb_spec dflt (-1)) as [->|ND]; rewrite s16_id; unfold is_s16; lia. }
  destruct (Z.ltb_spec h sz) as [LT|GE].
  - assert (E1 : has C (B + size b + 1 + 1 + 2 * h + 2) (f (Z.to_nat h))).
    { pose proof (has_entries _ _ f 2 _ _ LF H4 (Z.to_nat h) ltac:(lia)) as HE.
      replace (B + size b + 1 + 1 + 2 * h + 2) with (B + size b + 1 + 1 + 2 + 2 * Z.of_nat (Z.to_nat h)) by lia. exact HE. }
    unfold f in E1. rewrite Z2Nat.id in E1 by lia. destruct (find_case h cases) as [c|] eqn:FC.
    + rewrite (rd16_pack _ _ _ (s16_range _) E1). apply find_case_in in FC as [IC _]. rewrite Forall_forall in Offs. specialize (Offs c IC).
      do 3 f_equal. rewrite s16_id; [lia|]. unfold is_s16. lia.
    + rewrite (rd16_pack _ _ _ RD E1). now rewrite DT.
  - rewrite (rd16_pack _ _ _ RD H3). destruct (find_case h cases) as [c|] eqn:FC; [|now rewrite DT].
    apply find_case_in in FC as [IC <-]. rewrite Forall_forall in BIG. specialize (BIG c IC). lia.
Qed.

Lemma separates_spec m : forall l seen, separates m l seen = true ->
  (forall c, In c l -> ~ In (sc_hash c mod m) seen) /\
  (forall c c', In c l -> In c' l -> sc_hash c mod m = sc_hash c' mod m -> sc_hash c = sc_hash c').
Proof.
  induction l as [|c l IH]; intros seen H; [split; [intros ? []|intros ? ? []]|]. cbn in H.
  destruct (existsb (Z.eqb (sc_hash c mod m)) seen) eqn:EX; [discriminate|]. apply IH in H as [H1 H2].
  assert (NS : ~ In (sc_hash c mod m) seen).
  { intros I. assert (existsb (Z.eqb (sc_hash c mod m)) seen = true); [|congruence]. apply existsb_exists. exists (sc_hash c mod m). split; [exact I|apply Z.eqb_refl]. }
  split.
  - intros c' [<- | I]; [exact NS|]. intros J. apply (H1 c' I). now right.
  - intros c1 c2 [<- | I1] [<- | I2] E; auto.
    + exfalso. apply (H1 c2 I2). left. exact E.
    + exfalso. apply (H1 c1 I1). left. now symmetry.
Qed.
Lemma find_mod_spec f : forall m x, find_mod f m cases = Some x -> separates x cases [] = true /\ m <= x.
Proof.
  induction f as [|f IH]; intros m x H; [discriminate|]. cbn in H. destruct (separates m cases []) eqn:S.
  - injection H as <-. split; [exact S|lia].
  - apply IH in H as [H1 H2]. split; [exact H1|lia].
Qed.
Lemma hash_ok b1 : hash_table cases dflt b = COk b1 -> size b1 < 32768 ->
  exists P, appended b empty_bc P b1 /\ b_ops b1 = O_Switch :: b_ops b /\ P <> [] /\
    forall C B, has C (B + size b) P -> switch_at C (B + size b) (dest_of B cases dflt (B + size b1)).
Proof.
  intros E S1. unfold hash_table in E. rewrite push_switch in E. cbn [cbind] in E.
  set (b0 := set_code b (b_all b ++ [byte_of O_Switch]) (O_Switch :: b_ops b)) in *.
  set (pos := size b0) in *.
  assert (POS : pos = size b + 1).
  { unfold pos, size. cbn [b0 set_code b_all]. rewrite lenZ_app. change (lenZ [byte_of O_Switch]) with 1. lia. }
  destruct (find_mod (Z.to_nat 32765) 1 cases) as [m|] eqn:FM; [|discriminate]. apply find_mod_spec in FM as [SEP M1].
  set (d := if dflt =? -1 then Base.s16 (m * 6 + 4) else Base.s16 (dflt - pos)) in *.
  set (f := fun i => match find (fun c => sc_hash c mod m =? Z.of_nat i) cases with
                         | Some c => wr_pack32 (sc_hash c) ++ wr_pack16 (Base.s16 (sc_off c - pos))
                         | None => wr_pack32 0 ++ wr_pack16 d end) in *.
  assert (LF : forall i, lenZ (f i) = 6).
  { intros i. unfold f. destruct (find _ cases); rewrite lenZ_app, len_pack32, len_pack16; reflexivity. }
  set (P := [byte_of O_Switch] ++ wr_pack16 m ++ wr_pack16 d ++ flat_map f (seq 0 (Z.to_nat m))).
  assert (LP : lenZ P = 5 + 6 * m).
  { unfold P. rewrite !lenZ_app, !len_pack16, (len_entries f 6 LF). change (lenZ [byte_of O_Switch]) with 1. lia. }
  apply (f_equal (fun r => match r with COk x => x | _ => b end)) in E. cbv beta iota in E.
  assert (E' : b1 = set_code b (b_all b ++ P) (b_ops b1)).
  { rewrite <- E. unfold push_data, P, b0, set_code. cbn [b_all b_ops b_locals b_fns b_objs b_jumps b_gotos]. f_equal. now rewrite <- !app_assoc. }
  assert (AP : appended b empty_bc P b1) by now apply appended_data.
  exists P. split; [exact AP|]. split; [rewrite <- E; reflexivity|]. split; [discriminate|].
  pose proof (ap_size _ _ _ _ AP) as SB. pose proof (lenZ_nonneg (b_all b)) as NB. fold (size b) in NB.
  assert (RD : -32768 <= d <= 32767) by (unfold d; destruct (dflt =? -1); apply s16_range).
  intros C B H. unfold P in H. apply has_app in H as [H1 H]. apply has_app in H as [H2 H]. apply has_app in H as [H3 H4].
  change (lenZ [byte_of O_Switch]) with 1 in *. rewrite len_pack16 in *.
  left. split; [now apply decode_switch|]. intros h s HH PC. unfold do_switch. rewrite PC.
  rewrite (rdu16_pack _ _ _ H2), Z.mod_small by lia. destruct (Z.eqb_spec m 0) as [|_]; [lia|].
  set (i := h mod m). assert (II : 0 <= i < m) by (apply Z.mod_pos_bound; lia).
  assert (DT : B + size b + 1 + d = (if dflt =? -1 then B + size b1 else B + dflt)).
  { unfold d. destruct (Z.eqb_spec dflt (-1)) as [->|ND]; rewrite s16_id; unfold is_s16; lia. }
  assert (E1 : has C (B + size b + 1 + 4 + 6 * i) (f (Z.to_nat i))).
  { pose proof (has_entries _ _ f 6 _ _ LF H4 (Z.to_nat i) ltac:(lia)) as HE.
    replace (B + size b + 1 + 4 + 6 * i) with (B + size b + 1 + 2 + 2 + 6 * Z.of_nat (Z.to_nat i)) by lia. exact HE. }
  replace (B + size b + 1 + 2) with (B + size b + 1 + 2) by lia.
  pose proof (separates_spec _ _ _ SEP) as [_ UNIQ]. unfold dest_of.
  unfold f in E1. rewrite Z2Nat.id in E1 by lia.
  rewrite Forall_forall in Hash, Offs.
  destruct (find_case h cases) as [c|] eqn:FC.
  - pose proof (find_case_in _ _ _ FC) as [IC EH].
    assert (FE : forall l, incl l cases -> find (fun c => sc_hash c mod m =? i) l = find (fun c => sc_hash c =? h) l).
    { induction l as [|x l IH]; intros INC; [reflexivity|]. cbn. assert (IX : In x cases) by (apply INC; now left).
      destruct (Z.eqb_spec (sc_hash x) h) as [EX|NX].
      - rewrite EX. fold i. rewrite Z.eqb_refl. reflexivity.
      - destruct (Z.eqb_spec (sc_hash x mod m) i) as [EX|_]; [|apply IH; intros y Y; apply INC; now right].
        exfalso. apply NX. rewrite <- EH. apply (UNIQ x c IX IC). rewrite EH. exact EX. }
    unfold find_case in FC. rewrite (FE cases (incl_refl _)), FC in E1. apply has_app in E1 as [E1 E2]. rewrite len_pack32 in E2.
    rewrite (rd32_pack _ _ _ (Hash c IC) E1), EH, Z.eqb_refl, (rd16_pack _ _ _ (s16_range _) E2). specialize (Offs c IC).
    do 3 f_equal. rewrite s16_id; [lia|]. unfold is_s16. lia.
  - destruct (find (fun c => sc_hash c mod m =? i) cases) as [c|] eqn:FM.
    + apply find_some in FM as [IC _]. apply has_app in E1 as [E1 E2]. rewrite (rd32_pack _ _ _ (Hash c IC) E1).
      destruct (Z.eqb_spec (sc_hash c) h) as [EH|NH].
      * unfold find_case in FC. pose proof (find_none _ _ FC c IC) as N. cbn in N. apply Z.eqb_neq in N. contradiction.
      * rewrite (rd16_pack _ _ _ RD H3), DT. reflexivity.
    + apply has_app in E1 as [E1 E2]. rewrite len_pack32 in E2. rewrite (rd32_pack _ _ 0 ltac:(lia) E1).
      destruct (0 =? h); [rewrite (rd16_pack _ _ _ RD E2)|rewrite (rd16_pack _ _ _ RD H3)]; now rewrite DT.
Qed.
End Tables.
