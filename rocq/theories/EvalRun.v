(* Proofs for C56: the code of an expression runs on the machine as on the stack of values. *)
From Coq Require Import String.
From Verif Require Import Base BaseLemmas HashModel HashProofs FloatModel OpsModel OpsSpec OpsProofs OpsProofs2 OpsProofs3 OpsProps VmModel VmSpec VmProofs EmitModel ExprModel ExprEmit ExprSpec ExprNest ExprStack ExprProps FuseSpec FuseRules FuseChunks FuseProofs EvalSpec EvalProofs TableProofs.
Open Scope string_scope. Open Scope list_scope. Open Scope Z_scope.

Lemma byte_mod x : is_byte (x mod 256). Proof. unfold is_byte. lia. Qed.
Lemma lit_at z : is_s32 z -> exists c, instr_at (lit_chunk z) = Some (ILit (VInt (u32 z)) c) /\ Forall is_byte (snd (lit_chunk z)).
Proof.
  intros R. unfold lit_chunk. destruct (Z.eqb_spec z 0) as [->|N]; [exists true; split; [reflexivity|constructor]|].
  destruct ((z <=? 127) && (-128 <=? z)) eqn:E8.
  { exists true. split; [|repeat constructor; apply byte_u8].
    assert (V : u32 (VmModel.s8 (u8 z)) = u32 z) by (f_equal; unfold VmModel.s8, u8; destruct (z mod 256 <? 128) eqn:?; lia).
    assert (J : instr_at (O_LiteralInt8, [u8 z]) = Some (ILit (VInt (u32 (VmModel.s8 (u8 z)))) true)) by reflexivity. now rewrite J, V. }
  destruct ((z <=? 32767) && (-32768 <=? z)) eqn:E16.
  { exists true. rewrite pack16_eq. split; [|repeat constructor; apply byte_mod].
    assert (V : u32 (VmModel.s16 (z mod 256 + 256 * (z / 256 mod 256))) = u32 z).
    { f_equal. replace (z mod 256 + 256 * (z / 256 mod 256)) with (z mod 65536) by lia. unfold VmModel.s16. destruct (z mod 65536 <? 32768) eqn:?; lia. }
    assert (J : instr_at (O_LiteralInt16, [z mod 256; z / 256 mod 256]) = Some (ILit (VInt (u32 (VmModel.s16 (z mod 256 + 256 * (z / 256 mod 256))))) true)) by reflexivity.
    rewrite J. f_equal. f_equal. f_equal. exact V. }
  exists false. rewrite pack32_eq. split; [|repeat constructor; apply byte_mod].
  assert (J : forall a b c d, instr_at (O_LiteralInt32, [a; b; c; d]) = Some (ILit (VInt (a + 256 * b + 65536 * (c + 256 * d))) false)) by reflexivity.
  rewrite J. f_equal. f_equal. f_equal. unfold u32. lia.
Qed.

Lemma agree_dead B m0 m l v : agree B m0 m -> ~ live B l -> agree B m0 (wr m l v).
Proof.
  intros [A1 A2 A3 A4] D. constructor; auto. intros k K. rewrite A1 by exact K. symmetry. apply wr_other. intros ->. contradiction.
Qed.
Lemma stack_neq a b : a <> b -> LStack a <> LStack b. Proof. congruence. Qed.

Section Machine.
Variable pbits : OpsModel.value -> Z.
Variable obj_hash : mem -> OpsModel.value -> Z.
Variable as_string : mem -> OpsModel.value -> list Z.
Variable trap : bool.
Variable hash_index : loc -> loc -> loc -> mem -> res mem.
Variable new_table : loc -> mem -> mem.
Variable lib_fn : Z -> option (nat -> nat -> mem -> res (mem * bool)).
Variable native_fn : Z -> option (nat -> nat -> mem -> res mem).
Variable ext : opcode -> vm -> res outcome.
Variable code : list Z.
Variable funs : list fn.
Variable base limit : nat.
Variable protect slices : bool.
Variable depth : nat.
Variable fw : nat.
Notation does := (does pbits obj_hash as_string trap hash_index new_table lib_fn native_fn ext code funs base limit protect slices depth).
Notation runs := (runs pbits obj_hash as_string trap hash_index new_table lib_fn native_fn ext code funs base limit protect slices depth fw).

(* the state before the expression: stack height, frame, memory *)
Variable B fb : nat.
Variable m0 : mem.
Hypothesis frame : (fb + fw <= B)%nat.
Hypothesis deep : (3 <= depth)%nat.
Hypothesis shut : closed B m0.

(* the operands of the expression above it *)
Definition in_frame (x : loc) : Prop := live B x /\ match x with LStack n => (fb <= n)%nat | _ => True end.
Definition slot_ok (v : OpsModel.value) (z : Z) : Prop := v = VInt (u32 z) \/ exists x, v = VRef x /\ in_frame x /\ mv m0 x = VInt (u32 z).
Record Im (m : mem) (sp : nat) (st : list dom) : Prop := mkIm {
  im_sp : sp = (B + length st)%nat;
  im_mem : agree B m0 m;
  im_slot : forall k v, nth_error st k = Some v -> exists z g, v = Some (z, g) /\ is_s32 z /\ slot_ok (mv m (LStack (sp - 1 - k))) z /\
    (g <> FromVar -> mv m (LStack (sp - 1 - k)) = VInt (u32 z))
}.
Lemma slot_holds m v z : agree B m0 m -> slot_ok v z -> holds m v z.
Proof. intros A [H|(x & H & (L & _) & E)]; [now left|]. right. exists x. split; [exact H|]. now rewrite <- (ag_mv _ _ _ A). Qed.
Lemma im_closed m sp st : Im m sp st -> closed sp m.
Proof.
  intros [S A K] l L. assert (D : live B l \/ exists k, l = LStack k /\ (B <= k < sp)%nat).
  { destruct l as [|k| | | |]; cbn in *; auto. destruct (lt_dec k B); [now left|]. right. exists k. split; [reflexivity|lia]. }
  assert (W : forall v, val_ok B v -> val_ok sp v).
  { intros v. unfold val_ok. destruct v; auto; destruct l0; cbn; auto; lia. }
  destruct D as [D|(k & -> & R)].
  - apply W. rewrite <- (ag_mv _ _ _ A) by exact D. now apply shut.
  - destruct (nth_error st (sp - 1 - k)) as [v|] eqn:E; [|apply nth_error_None in E; lia].
    destruct (K _ _ E) as (z & g & _ & _ & O & _). replace (sp - 1 - (sp - 1 - k))%nat with k in O by lia.
    destruct O as [-> | (x & -> & (Lx & _) & _)]; [exact I|]. apply W. exact Lx.
Qed.
Lemma im_push m sp st v z g : Im m sp st -> is_s32 z -> slot_ok v z -> (g <> FromVar -> v = VInt (u32 z)) -> Im (wr m (LStack sp) v) (S sp) (Some (z, g) :: st).
Proof.
  intros [S A K] R O G. constructor.
  - cbn. lia.
  - apply agree_dead; [exact A|]. cbn. lia.
  - intros [|k] w E.
    + injection E as <-. exists z, g. split; [reflexivity|]. split; [exact R|]. replace (Datatypes.S sp - 1 - 0)%nat with sp by lia. rewrite wr_same. auto.
    + cbn in E. destruct (K _ _ E) as (z' & g' & -> & R' & O'). exists z', g'. split; [reflexivity|]. split; [exact R'|].
      assert (k < length st)%nat by (apply nth_error_Some; congruence).
      rewrite wr_other by (apply stack_neq; lia). now replace (Datatypes.S sp - 1 - Datatypes.S k)%nat with (sp - 1 - k)%nat by lia.
Qed.
(* the top n are replaced by one *)
Lemma im_pop m sp v st : Im m sp (v :: st) -> Im m (sp - 1) st.
Proof.
  intros [S A K]. cbn in S. constructor; [lia|exact A|]. intros k w E. destruct (K (Datatypes.S k) w E) as (z & g & X). exists z, g.
  now replace (sp - 1 - 1 - k)%nat with (sp - 1 - Datatypes.S k)%nat by lia.
Qed.
Lemma im_swap m sp st st' p q : Im m sp st -> exchange p q st = Some st' ->
  Im (wr (wr m (LStack (sp - 1 - p)) (mv m (LStack (sp - 1 - q)))) (LStack (sp - 1 - q)) (mv m (LStack (sp - 1 - p)))) sp st'.
Proof.
  intros [S A K] X. pose proof (exchange_length _ _ _ _ X) as L.
  unfold exchange in X. destruct (nth_error st p) as [a|] eqn:Ep; [|discriminate]. destruct (nth_error st q) as [b|] eqn:Eq; [|discriminate].
  assert (Lp : (p < length st)%nat) by (apply nth_error_Some; congruence). assert (Lq : (q < length st)%nat) by (apply nth_error_Some; congruence).
  constructor; [congruence| |].
  - repeat apply agree_dead; auto; cbn; lia.
  - injection X as <-. intros k w E. rewrite nth_upd, length_upd, nth_upd in E.
    apply Nat.ltb_lt in Lp, Lq. rewrite Lp, Lq in E. apply Nat.ltb_lt in Lp, Lq.
    destruct (Nat.eqb_spec k q) as [->|Nq].
    + rewrite wr_same. apply (K p). congruence.
    + destruct (Nat.eqb_spec k p) as [->|Np].
      * rewrite wr_other by (apply stack_neq; lia). rewrite wr_same. apply (K q). congruence.
      * assert (k < length st)%nat by (apply nth_error_Some; congruence). rewrite !wr_other by (apply stack_neq; lia). now apply K.
Qed.

Lemma top_slot m sp v st : Im m sp (v :: st) -> exists z g, v = Some (z, g) /\ is_s32 z /\ slot_ok (mv m (LStack (sp - 1))) z.
Proof. intros I. destruct (im_slot _ _ _ I 0%nat v eq_refl) as (z & g & H). exists z, g. replace (sp - 1 - 0)%nat with (sp - 1)%nat in H by lia. tauto. Qed.
Lemma second_slot m sp v w st : Im m sp (v :: w :: st) -> exists z g, w = Some (z, g) /\ is_s32 z /\ slot_ok (mv m (LStack (sp - 2))) z.
Proof. intros I. destruct (im_slot _ _ _ I 1%nat w eq_refl) as (z & g & H). exists z, g. replace (sp - 1 - 1)%nat with (sp - 2)%nat in H by lia. tauto. Qed.

Lemma slot_num m v z : agree B m0 m -> slot_ok v z -> forall x, v = VRef x -> mv m x = VInt (u32 z).
Proof. intros A [H|(y & H & (L & _) & E)] x X; [congruence|]. assert (x = y) by congruence. subst y. now rewrite <- (ag_mv _ _ _ A). Qed.
Lemma below_limit s n : (protect = true -> (B + n < limit)%nat) -> (S (vsp s) <= B + n)%nat -> protect && (limit <=? S (vsp s))%nat = false.
Proof. intros H L. destruct protect; [|reflexivity]. specialize (H eq_refl). cbn. apply Nat.leb_gt. lia. Qed.

(* what one instruction must do to be the instruction of an action *)
Definition acts_as (i : instr) (s : vm) (st' : list dom) : Prop :=
  straight i = true /\ exists m' sp', does i s (Run (upd s m' sp')) /\ tame fw i s (upd s m' sp') /\ Im m' sp' st'.

Lemma bin_acts s v w st c d i : Im (vmem s) (vsp s) (v :: w :: st) -> dbin trap c v w = Some d -> instr_at (c, []) = Some i ->
  acts_as i s (Some d :: st).
Proof.
  intros I D C. destruct (top_slot _ _ _ _ I) as (x & g & -> & Rx & Ox). destruct (second_slot _ _ _ _ _ I) as (y & h & -> & Ry & Oy).
  pose proof (im_mem _ _ _ I) as A. pose proof (im_sp _ _ _ I) as S. cbn [length] in S.
  pose proof (slot_holds _ _ _ A Ox) as Hx. pose proof (slot_holds _ _ _ A Oy) as Hy.
  unfold dbin in D. destruct (int2 trap c x y) as [z|] eqn:E; [|discriminate]. injection D as <-.
  pose proof (int2_range _ _ _ _ _ Rx Ry E) as Rz. unfold int2 in E. rewrite C in E.
  assert (W : Im (wr (vmem s) (LStack (vsp s - 2)) (VInt (u32 z))) (vsp s - 1) (Some (z, Computed) :: st)).
  { pose proof (im_push _ _ _ (VInt (u32 z)) z Computed (im_pop _ _ _ _ (im_pop _ _ _ _ I)) Rz (or_introl eq_refl) (fun _ => eq_refl)) as P.
    replace (vsp s - 1 - 1)%nat with (vsp s - 2)%nat in P by lia. now replace (Datatypes.S (vsp s - 2)) with (vsp s - 1)%nat in P by lia. }
  destruct i; try discriminate.
  - destruct (trap && _ && (y =? 0)) eqn:T; [discriminate|]. split; [reflexivity|]. exists (wr (vmem s) (LStack (vsp s - 2)) (VInt (u32 z))), (vsp s - 1)%nat. split; [|split; [|exact W]].
    + exists 3%nat. split; [lia|]. cbn [exec]. rewrite need_ok by (cbn [vsp upd]; lia); cbn [vsp vmem upd]. rewrite (eval_bin_int _ _ _ _ b _ _ _ _ x y z) by assumption. cbn [bind].
      unfold trapped. cbn [vmem upd]. rewrite wr_same. cbn [is_invalid]. rewrite andb_false_r. reflexivity.
    + cbn [tame vmem upd]. unfold top2, top1. rewrite wr_same. split; [left; reflexivity|].
      destruct b; auto; intros k n X Y; (split; apply leads_here; [rewrite (slot_num _ _ _ A Ox _ X)|rewrite (slot_num _ _ _ A Oy _ Y)]; reflexivity).
  - unfold truth in E. assert (E' : (if spec_cmp c0 (NI x) (NI y) then 1 else 0) = z) by congruence. clear E. split; [reflexivity|]. exists (wr (vmem s) (LStack (vsp s - 2)) (VInt (u32 z))), (vsp s - 1)%nat. split; [|split; [|exact W]].
    + exists 3%nat. split; [lia|]. cbn [exec]. rewrite need_ok by (cbn [vsp upd]; lia); cbn [vsp vmem upd]. rewrite (eval_cmp_int _ _ c0 _ _ _ x y) by assumption. cbn [bind]. rewrite <- E'. destruct (spec_cmp c0 (NI x) (NI y)); reflexivity.
    + cbn [tame vmem upd]. unfold top2, top1. intros r N X. destruct Ox as [Ox|(q & Ox & _)]; rewrite Ox in N; [|discriminate]. rewrite Ox. cbn [type_of].
      destruct c0; try (intros; discriminate); (split; [reflexivity|]); apply leads_here; now rewrite (slot_num _ _ _ A Oy _ X).
Qed.
Lemma un_acts s v st c (x : list term) d i : Im (vmem s) (vsp s) (v :: st) -> dun c x v = Some d -> instr_at (c, []) = Some i -> acts_as i s (Some d :: st).
Proof.
  intros I D C. destruct (top_slot _ _ _ _ I) as (y & g & -> & Ry & Oy).
  pose proof (im_mem _ _ _ I) as A. pose proof (im_sp _ _ _ I) as S. cbn [length] in S. pose proof (slot_holds _ _ _ A Oy) as Hy.
  unfold dun in D. destruct (op_eqb c O_Negate && is_lit g && edge y); [discriminate|]. destruct (int1 c y) as [z|] eqn:E; [|discriminate]. injection D as <-.
  pose proof (int1_range _ _ _ Ry E) as Rz. unfold int1 in E. rewrite C in E.
  assert (W : Im (wr (vmem s) (LStack (vsp s - 1)) (VInt (u32 z))) (vsp s) (Some (z, Computed) :: st)).
  { pose proof (im_push _ _ _ (VInt (u32 z)) z Computed (im_pop _ _ _ _ I) Rz (or_introl eq_refl) (fun _ => eq_refl)) as P. now replace (Datatypes.S (vsp s - 1)) with (vsp s) in P by lia. }
  destruct i; try discriminate; (split; [reflexivity|]); exists (wr (vmem s) (LStack (vsp s - 1)) (VInt (u32 z))), (vsp s); (split; [|split; [exact Logic.I|exact W]]);
    exists 3%nat; (split; [lia|]); cbn [exec]; rewrite need_ok by (cbn [vsp upd]; lia); cbn [vsp vmem upd].
  - rewrite (not_int _ _ _ _ y) by assumption. cbn [bind]. unfold truth in E. injection E as <-. destruct (y =? 0); reflexivity.
  - rewrite (negate_int _ _ _ _ _ y) by assumption. cbn [bind]. injection E as <-. reflexivity.
  - rewrite (bitnot_int _ _ _ _ y) by assumption. cbn [bind]. injection E as <-. reflexivity.
Qed.
Lemma swap_acts s n st st' : Im (vmem s) (vsp s) st -> 1 <= n -> exchange 0 (Z.to_nat (n - 1)) st = Some st' -> acts_as (ISwap (Z.to_nat n)) s st'.
Proof.
  intros I N X. pose proof (im_sp _ _ _ I) as S. pose proof (im_swap _ _ _ _ _ _ I X) as W.
  assert (L : (Z.to_nat (n - 1) < length st)%nat). { unfold exchange in X. destruct (nth_error st 0); [|discriminate]. destruct (nth_error st (Z.to_nat (n - 1))) eqn:E; [|discriminate]. apply nth_error_Some. congruence. }
  split; [cbn; destruct (Z.to_nat n) eqn:E; [lia|reflexivity]|].
  replace (vsp s - 1 - Z.to_nat (n - 1))%nat with (vsp s - Z.to_nat n)%nat in W by lia. rewrite Nat.sub_0_r in W.
  eexists _, _. split; [|split; [exact Logic.I|exact W]]. exists 0%nat. split; [lia|]. cbn [exec]. rewrite need_ok by (cbn [vsp upd]; lia); cbn [vsp vmem upd]. reflexivity.
Qed.
Lemma swap2_acts s a b st st1 st2 : Im (vmem s) (vsp s) st -> 1 <= a -> 1 <= b -> exchange 0 (Z.to_nat (a - 1)) st = Some st1 -> exchange 1 (Z.to_nat (b - 1)) st1 = Some st2 ->
  acts_as (ISwap2 (Z.to_nat a) (Z.to_nat b)) s st2.
Proof.
  intros I Na Nb X Y. pose proof (im_sp _ _ _ I) as S. pose proof (im_swap _ _ _ _ _ _ I X) as W. pose proof (im_swap _ _ _ _ _ _ W Y) as W2. pose proof (exchange_length _ _ _ _ X) as LL.
  assert (L : (Z.to_nat (a - 1) < length st)%nat). { unfold exchange in X. destruct (nth_error st 0); [|discriminate]. destruct (nth_error st (Z.to_nat (a - 1))) eqn:E; [|discriminate]. apply nth_error_Some. congruence. }
  assert (L2 : (1 < length st1)%nat /\ (Z.to_nat (b - 1) < length st1)%nat).
  { unfold exchange in Y. destruct (nth_error st1 1) eqn:E1; [|discriminate]. destruct (nth_error st1 (Z.to_nat (b - 1))) eqn:E; [|discriminate]. split; apply nth_error_Some; congruence. }
  split. { cbn. destruct (Z.to_nat a) eqn:E; [lia|]. destruct (Z.to_nat b) eqn:E'; [lia|reflexivity]. }
  replace (vsp s - 1 - Z.to_nat (a - 1))%nat with (vsp s - Z.to_nat a)%nat in W2 by lia. replace (vsp s - 1 - Z.to_nat (b - 1))%nat with (vsp s - Z.to_nat b)%nat in W2 by lia.
  rewrite Nat.sub_0_r in W2. replace (vsp s - 1 - 1)%nat with (vsp s - 2)%nat in W2 by lia.
  eexists _, _. split; [|split; [exact Logic.I|exact W2]]. exists 0%nat. split; [lia|]. cbn [exec]. rewrite need_ok by (cbn [vsp upd]; lia); cbn [vsp vmem upd]. reflexivity.
Qed.
Lemma load_acts s st x d : vfb s = fb -> Im (vmem s) (vsp s) st -> dval m0 fb fw x = Some d -> (protect = true -> (S (vsp s) < limit)%nat) ->
  exists i, instr_at (chunk_of (ALoad x)) = Some i /\ Forall is_byte (snd (chunk_of (ALoad x))) /\ acts_as i s (Some d :: st).
Proof.
  intros F I D L. assert (P : protect && (limit <=? S (vsp s))%nat = false). { destruct protect; [|reflexivity]. apply Nat.leb_gt. auto. }
  pose proof (im_sp _ _ _ I) as Sp. unfold dval in D.
  destruct (t_operand x) as [z|q n|c] eqn:T; [| |discriminate].
  - unfold dlit in D. destruct ((EvalSpec.int_min <=? z) && (z <=? 2147483647)) eqn:R; [|discriminate]. injection D as <-.
    assert (R' : is_s32 z) by (unfold is_s32, EvalSpec.int_min in *; lia).
    assert (C : chunk_of (ALoad x) = lit_chunk z) by (cbn [chunk_of]; now rewrite T). rewrite C. clear C.
    destruct (lit_at z R') as (c & J & FB). exists (ILit (VInt (u32 z)) c). split; [exact J|]. split; [exact FB|]. split; [reflexivity|].
    eexists _, _. split; [apply lit_does; auto|]. split; [exact Logic.I|]. apply im_push; [exact I|exact R'|now left|reflexivity].
  - unfold dvar, variable_int in D. destruct ((0 <=? n) && (n <? 256)) eqn:RN; [|discriminate]. cbn [andb] in D.
    destruct (match q with SG => true | SL => (Z.to_nat n <? fw)%nat end) eqn:LF; [|discriminate].
    destruct (mv m0 (vloc fb q (Z.to_nat n))) as [u| | | | | | | | | |] eqn:MV; try discriminate. destruct ((0 <=? u) && (u <? 4294967296)) eqn:RU; [|discriminate]. injection D as <-.
    assert (U : u8 n = n) by (unfold u8; lia).
    assert (C : chunk_of (ALoad x) = (match q with SL => O_LoadFromLocal | SG => O_LoadFromGlobal end, [u8 n])) by (cbn [chunk_of]; rewrite T; destruct q; reflexivity).
    rewrite C. clear C.
    assert (J : instr_at (match q with SL => O_LoadFromLocal | SG => O_LoadFromGlobal end, [u8 n]) = Some (ILoad q (Z.to_nat n))) by (rewrite U; destruct q; reflexivity).
    exists (ILoad q (Z.to_nat n)). split; [exact J|]. split; [repeat constructor; apply byte_u8|]. split; [reflexivity|].
    exists (wr (vmem s) (LStack (vsp s)) (VRef (vloc (vfb s) q (Z.to_nat n)))), (S (vsp s)). split; [exists 0%nat; split; [lia|]; cbn [exec]; rewrite checked_run_ok by exact P; reflexivity|].
    split; [cbn; destruct q; auto; now apply Nat.ltb_lt|].
    rewrite F. apply im_push; [exact I|apply s32_range| |congruence]. right. eexists. split; [reflexivity|]. split.
    + destruct q; cbn; [split; exact Logic.I|]. apply Nat.ltb_lt in LF. split; cbn; lia.
    + rewrite MV. f_equal. rewrite u32_s32. unfold u32. lia.
Qed.

Lemma opcode_acts c i : instr_at (c, []) = Some i -> straight i = true -> c <> O_HASH_PLACEHOLDER.
Proof. intros H S ->. vm_compute in H. discriminate. Qed.
Lemma int2_instr c x y z : int2 trap c x y = Some z -> exists i, instr_at (c, []) = Some i.
Proof. unfold int2. destruct (instr_at (c, [])); [eauto|discriminate]. Qed.
Lemma int1_instr c x z : int1 c x = Some z -> exists i, instr_at (c, []) = Some i.
Proof. unfold int1. destruct (instr_at (c, [])); [eauto|discriminate]. Qed.

Theorem action_step a s st st' : vfb s = fb -> Im (vmem s) (vsp s) st -> perform (dval m0 fb fw) dhash dun (dbin trap) a st = Some st' -> ~ In None st' ->
  (length st + loads [a] <= 255)%nat -> (protect = true -> (B + length st + loads [a] < limit)%nat) ->
  simple_action a /\ fst (chunk_of a) <> O_HASH_PLACEHOLDER /\ exists i, instr_at (chunk_of a) = Some i /\ Forall is_byte (snd (chunk_of a)) /\ acts_as i s st'.
Proof.
  intros F I P N D L. pose proof (im_sp _ _ _ I) as Sp.
  assert (FIN : forall c i, chunk_of a = (c, []) -> simple_action a -> instr_at (c, []) = Some i -> acts_as i s st' ->
     simple_action a /\ fst (chunk_of a) <> O_HASH_PLACEHOLDER /\ exists i, instr_at (chunk_of a) = Some i /\ Forall is_byte (snd (chunk_of a)) /\ acts_as i s st').
  { intros c i C SA J AC. rewrite C. split; [exact SA|]. split; [apply (opcode_acts c i J (proj1 AC))|]. exists i. split; [exact J|]. split; [constructor|exact AC]. }
  destruct a as [x|k|n|n m|q x|c]; cbn [perform] in P.
  - injection P as <-. destruct (dval m0 fb fw x) as [d|] eqn:E; [|exfalso; apply N; now left].
    destruct (load_acts s st x d F I E) as (i & J & FB & AC). { intros X. specialize (L X). cbn in L. lia. }
    split; [|split].
    + unfold dval in E. cbn. destruct (t_operand x); auto. discriminate.
    + cbn [chunk_of]. destruct (t_operand x) as [z|[] ?|]; cbn; try discriminate. unfold lit_chunk. repeat match goal with |- context [if ?b then _ else _] => destruct b end; discriminate.
    + exists i. auto.
  - destruct k; try discriminate. injection P as <-. exfalso. apply N. now left.
  - destruct (n <? 1) eqn:E; [discriminate|]. split; [exact Logic.I|]. split; [discriminate|].
    assert (LN : (Z.to_nat (n - 1) < length st)%nat). { unfold exchange in P. destruct (nth_error st 0); [|discriminate]. destruct (nth_error st (Z.to_nat (n - 1))) eqn:E'; [|discriminate]. apply nth_error_Some. congruence. }
    exists (ISwap (Z.to_nat n)). split; [reflexivity|]. cbn in D. split; [repeat constructor; unfold is_byte; lia|]. apply (swap_acts s n st st' I); [lia|exact P].
  - destruct ((n <? 1) || (m <? 1)) eqn:E; [discriminate|]. destruct (exchange 0 (Z.to_nat (n - 1)) st) as [st1|] eqn:E1; [|discriminate].
    split; [exact Logic.I|]. split; [discriminate|]. pose proof (exchange_length _ _ _ _ E1) as LL.
    assert (LN : (Z.to_nat (n - 1) < length st)%nat). { unfold exchange in E1. destruct (nth_error st 0); [|discriminate]. destruct (nth_error st (Z.to_nat (n - 1))) eqn:E'; [|discriminate]. apply nth_error_Some. congruence. }
    assert (LM : (Z.to_nat (m - 1) < length st1)%nat). { unfold exchange in P. destruct (nth_error st1 1); [|discriminate]. destruct (nth_error st1 (Z.to_nat (m - 1))) eqn:E'; [|discriminate]. apply nth_error_Some. congruence. }
    exists (ISwap2 (Z.to_nat n) (Z.to_nat m)). split; [reflexivity|]. cbn in D. split; [repeat constructor; unfold is_byte; lia|].
    apply (swap2_acts s n m st st1 st' I); [lia|lia|exact E1|exact P].
  - destruct st as [|v r]; [discriminate|]. cbn [chunk_of].
    assert (U : Some (dun (o_code q) x v :: r) = Some st' -> exists i, instr_at (o_code q, []) = Some i /\ acts_as i s st').
    { intros [= <-]. destruct (dun (o_code q) x v) as [d|] eqn:E; [|exfalso; apply N; now left].
      assert (exists i, instr_at (o_code q, []) = Some i) as [i J]. { unfold dun in E. destruct v as [[y g]|]; [|discriminate]. destruct (_ && _); [discriminate|]. destruct (int1 (o_code q) y) eqn:E1; [|discriminate]. eapply int1_instr; eauto. }
      exists i. split; [exact J|]. eapply un_acts; eauto. }
    assert (BN : forall w r', r = w :: r' -> Some (dbin trap (o_code q) v w :: r') = Some st' -> exists i, instr_at (o_code q, []) = Some i /\ acts_as i s st').
    { intros w r' -> [= <-]. destruct (dbin trap (o_code q) v w) as [d|] eqn:E; [|exfalso; apply N; now left].
      assert (exists i, instr_at (o_code q, []) = Some i) as [i J]. { unfold dbin in E. destruct v as [[y g]|]; [|discriminate]. destruct w as [[y' g']|]; [|discriminate]. destruct (int2 trap (o_code q) y y') eqn:E1; [|discriminate]. eapply int2_instr; eauto. }
      exists i. split; [exact J|]. eapply bin_acts; eauto. }
    assert (exists i, instr_at (o_code q, []) = Some i /\ acts_as i s st') as (i & J & AC).
    { destruct (o_type q); auto; (destruct r as [|w r']; [discriminate|]); apply (BN w r' eq_refl P). }
    apply (FIN _ i eq_refl Logic.I J AC).
  - destruct st as [|v [|w r]]; try discriminate. injection P as <-.
    destruct (dbin trap c v w) as [d|] eqn:E; [|exfalso; apply N; now left].
    assert (exists i, instr_at (c, []) = Some i) as [i J]. { unfold dbin in E. destruct v as [[y g]|]; [|discriminate]. destruct w as [[y' g']|]; [|discriminate]. destruct (int2 trap c y y') eqn:E1; [|discriminate]. eapply int2_instr; eauto. }
    apply (FIN c i eq_refl Logic.I J). eapply bin_acts; eauto.
Qed.

Theorem actions_run acts : forall s st st', vfb s = fb -> Im (vmem s) (vsp s) st -> performs (dval m0 fb fw) dhash dun (dbin trap) acts st = Some st' -> ~ In None st' ->
  (length st + loads acts <= 255)%nat -> (protect = true -> (B + length st + loads acts < limit)%nat) ->
  Forall simple_action acts /\ Forall (fun a => fst (chunk_of a) <> O_HASH_PLACEHOLDER) acts /\ Forall source (map chunk_of acts) /\
  exists is t, reads (map chunk_of acts) is /\ runs is s t /\ vfb t = vfb s /\ vslice t = vslice s /\ Im (vmem t) (vsp t) st'.
Proof.
  induction acts as [|a acts IH]; intros s st st' F I P N D L.
  - cbn [performs] in P. injection P as <-. split; [constructor|]. split; [constructor|]. split; [constructor|]. exists [], s. split; [constructor|].
    split; [|auto]. constructor. split; [eapply im_closed; exact I|]. rewrite F. pose proof (im_sp _ _ _ I). lia.
  - cbn [performs] in P. destruct (perform (dval m0 fb fw) dhash dun (dbin trap) a st) as [st1|] eqn:E; [|discriminate].
    pose proof (all_some _ _ _ _ _ _ P N) as N1. rewrite loads_cons in D, L.
    destruct (action_step a s st st1 F I E N1) as (SA & NH & i & J & FB & ST & m1 & sp1 & DO & TA & I1); [lia|intros X; specialize (L X); lia|].
    pose proof (perform_length _ _ _ _ _ _ _ E) as PL.
    destruct (IH (upd s m1 sp1) st1 st' F I1 P N) as (S1 & S2 & S3 & is & t & R & RU & Ft & Lt & I2); [lia|intros X; specialize (L X); lia|].
    split; [now constructor|]. split; [now constructor|]. cbn [map]. split. { constructor; [|exact S3]. split; [exact FB|]. exists i. auto. }
    exists (i :: is), t. split; [constructor; assumption|]. split; [|auto].
    eapply runs_cons; [|exact TA|exact DO|exact RU]. split; [eapply im_closed; exact I|]. rewrite F. pose proof (im_sp _ _ _ I). lia.
Qed.
End Machine.

(* ---------------------------------------------------------------- no literal is negated that does not fit *)
Lemma performs_app {leaf V} (val hash : leaf -> V) un bin a b : forall st, performs val hash un bin (a ++ b) st = match performs val hash un bin a st with Some s => performs val hash un bin b s | None => None end.
Proof. induction a as [|x a IH]; intros st; cbn [performs app]; [reflexivity|]. destruct (perform val hash un bin x st); [apply IH|reflexivity]. Qed.
Lemma edge_chunk a : at_edge (chunk_of a) -> exists x z, a = ALoad x /\ t_operand x = OInt z /\ edge z = true.
Proof.
  intros [H|H]; (destruct a as [x|k|n|n m|q x|c]; cbn [chunk_of] in H; try discriminate; [|injection H as _ H; discriminate..]);
    (destruct (t_operand x) as [z|[] n|] eqn:T; try discriminate; exists x, z; split; [reflexivity|]; split; [exact T|]);
    unfold lit_chunk in H; destruct (z =? 0); try discriminate; destruct ((z <=? 127) && (-128 <=? z)) eqn:E; try discriminate.
  - injection H as H. unfold edge, u8 in *. lia.
  - destruct ((z <=? 32767) && (-32768 <=? z)); try discriminate.
  - destruct ((z <=? 32767) && (-32768 <=? z)) eqn:E2; try discriminate. rewrite pack16_eq in H. injection H as H1 H2. unfold edge. lia.
Qed.
Lemma negations_performed trap m fb fw acts st st' : performs (dval m fb fw) dhash dun (dbin trap) acts st = Some st' -> ~ In None st' -> negations_fit (map chunk_of acts).
Proof.
  intros P N a c d b E AE.
  apply map_eq_app in E. destruct E as (A1 & A2 & -> & <- & E). apply map_eq_cons in E. destruct E as (x & A3 & -> & <- & E). apply map_eq_cons in E. destruct E as (y & A4 & -> & Y & <-).
  apply edge_chunk in AE. destruct AE as (t & z & -> & T & EZ).
  rewrite performs_app in P. destruct (performs _ _ _ _ A1 st) as [st1|]; [|discriminate]. cbn [performs] in P.
  destruct (perform _ _ _ _ (ALoad t) st1) as [st2|] eqn:P2; [|discriminate]. destruct (perform _ _ _ _ y st2) as [st3|] eqn:P3; [|discriminate].
  eapply all_some in P; [|exact N]. apply P. cbn [perform] in P2. injection P2 as <-.
  assert (V : dval m fb fw t = None \/ dval m fb fw t = Some (z, FromLit)).
  { unfold dval, dlit. rewrite T. destruct (_ && _); auto. }
  destruct V as [V|V]; [eapply none_stays; [exact P3|left; exact V]|]. rewrite V in P3.
  destruct y as [u|k|n|n k|q u|o]; cbn [chunk_of] in Y; try discriminate.
  - destruct (t_operand u) as [w|[] w|]; try discriminate. unfold lit_chunk in Y. repeat match goal with H : context [if ?b then _ else _] |- _ => destruct b end; discriminate.
  - injection Y as Y _. cbn [perform] in P3. rewrite Y in P3. assert (U : forall w, dbin trap O_Negate (Some (z, FromLit)) w = None) by (intros [[]|]; reflexivity).
    assert (W : forall w : list term, dun O_Negate w (Some (z, FromLit)) = None) by (intros w; unfold dun; rewrite EZ; reflexivity).
    destruct (o_type q); try (destruct st1 as [|w r]; [discriminate|]); rewrite ?U, ?W in P3; injection P3 as <-; now left.
  - injection Y as Y _. subst o. cbn [perform] in P3. assert (U : forall w, dbin trap O_Negate (Some (z, FromLit)) w = None) by (intros [[]|]; reflexivity).
    destruct st1 as [|w r]; [discriminate|]. rewrite U in P3. injection P3 as <-. now left.
Qed.

