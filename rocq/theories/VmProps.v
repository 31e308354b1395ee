(* Properties of calls, returns and the interpreter's stack. *)
From Verif Require Import Base OpsModel VmModel VmSpec OpsLocal VmProofs.

Ltac case_if H := match type of H with context[if ?c then _ else _] => let X := fresh "X" in destruct c eqn:X end.

Lemma call_fn_run pbits limit protect f args ret s s' :
  call_fn pbits limit protect f args ret s = Ok (Run s') ->
  (args <= vsp s)%nat /\
  let p := (vsp s - args)%nat in
  let m2 := locals_init pbits (zeros (vmem s) (vsp s) (fn_args f - args)) (p + fn_args f) (fn_frame f) in
  s' = mkVm (wr m2 (LStack (p + fn_args f + fn_frame f)) (VRaw (vfb s) (Z.to_nat ret))) (fn_off f)
            (S (p + fn_args f + fn_frame f)) (S (p + fn_args f + fn_frame f) - fn_adjust f) None None (vslice s)
  /\ (fn_adjust f <= S (p + fn_args f + fn_frame f))%nat
  /\ (protect = true -> (p + fn_args f + fn_frame f + 2 < limit)%nat).
Proof.
  unfold call_fn, need. cbv zeta. destruct (vsp s <? args)%nat eqn:X; [discriminate|].
  apply Nat.ltb_ge in X. set (p := (vsp s - args)%nat).
  destruct (protect && (limit <=? p + fn_args f)%nat && (args <? fn_args f)%nat); [discriminate|].
  destruct (protect && (limit <=? p + fn_args f + fn_frame f + 2)%nat) eqn:Y; [discriminate|].
  destruct (S (p + fn_args f + fn_frame f) <? fn_adjust f)%nat eqn:W; [discriminate|].
  unfold checked_run. cbn [vsp]. destruct (protect && (limit <=? S (p + fn_args f + fn_frame f))%nat); [discriminate|].
  intros E. injection E as <-. split; [auto|]. split; [reflexivity|].
  apply Nat.ltb_ge in W. split; [auto|].
  intros ->. cbn [andb] in Y. apply Nat.leb_gt in Y. lia.
Qed.

(* C30, entering: the callee's parameters are the first arguments passed, missing ones are 0, and
   nothing of the caller's is touched *)
Theorem c30_call_arguments : forall pbits limit protect f args ret s s',
  frame_ok f ->
  call_fn pbits limit protect f args ret s = Ok (Run s') ->
  let p := (vsp s - args)%nat in
  vpc s' = fn_off f /\ vfb s' = p /\ vsp s' = (p + fn_args f + fn_frame f + 1)%nat /\
  (forall i, (i < fn_args f)%nat ->
     mv (vmem s') (LStack (vfb s' + i)) = if (i <? args)%nat then mv (vmem s) (LStack (p + i)) else VInt 0) /\
  (forall l, under p l -> mv (vmem s') l = mv (vmem s) l) /\
  same_heap (vmem s) (vmem s').
Proof.
  intros pbits limit protect f args ret s s' FO E. cbv zeta.
  destruct (call_fn_run _ _ _ _ _ _ _ _ E) as [L [-> [A _]]]. cbv zeta in *.
  set (p := (vsp s - args)%nat) in *.
  rewrite FO in *. cbn [vpc vfb vsp vmem].
  destruct (zeros_spec (fn_args f - args) (vmem s) (vsp s)) as [Z1 [Z2 [Z3 Z4]]].
  destruct (locals_init_spec pbits (fn_frame f) (zeros (vmem s) (vsp s) (fn_args f - args)) (p + fn_args f)) as [L1 [L2 [L3 [L4 L5]]]].
  assert (S (p + fn_args f + fn_frame f) - S (fn_args f + fn_frame f) = p)%nat as -> by lia.
  split; [reflexivity|]. split; [reflexivity|]. split; [lia|]. split; [|split].
  - intros i Hi. rewrite wr_ne by (intros K; inversion K; lia). rewrite L1 by lia. rewrite Z1.
    destruct (i <? args)%nat eqn:Q; [apply Nat.ltb_lt in Q|apply Nat.ltb_ge in Q].
    + replace (vsp s <=? p + i)%nat with false by (symmetry; apply Nat.leb_gt; lia). reflexivity.
    + replace (vsp s <=? p + i)%nat with true by (symmetry; apply Nat.leb_le; lia).
      replace (p + i <? vsp s + (fn_args f - args))%nat with true by (symmetry; apply Nat.ltb_lt; lia). reflexivity.
  - intros l U. rewrite wr_ne by (intros ->; cbn in U; lia).
    rewrite L1 by (destruct l; auto; cbn in U; lia). rewrite Z1. destruct l; auto. cbn in U.
    replace (vsp s <=? n)%nat with false by (symmetry; apply Nat.leb_gt; lia). reflexivity.
  - unfold same_heap. cbn [wr mo mraw mnext]. rewrite L3, L4, L5. auto.
Qed.

(* C30, leaving: Return followed by the push of the result *)
Theorem c30_return : forall pbits s p caller_fb ret f v,
  vfb s = p -> vsp s = (p + fn_args f + fn_frame f + 2)%nat ->
  mv (vmem s) (LStack (p + fn_args f + fn_frame f)) = VRaw caller_fb ret ->
  mv (vmem s) (LStack (vsp s - 1)) = v ->
  exists s1, do_return s = Ok (Run s1) /\ vmem s1 = vmem s /\ vpc s1 = Z.of_nat ret /\ vsp s1 = p /\ vfb s1 = caller_fb /\
  (forall obj_hash as_string trap hash_index new_table lib_fn native_fn ext code funs base limit protect slices fuel d m1 s2,
     deref pbits fuel (LStack (vsp s - 1)) (vmem s) = Ok (d, m1) ->
     exec pbits obj_hash as_string trap hash_index new_table lib_fn native_fn ext code funs base limit protect slices fuel IPushRet s1
       = Ok (Run s2) ->
     vsp s2 = S p /\ vfb s2 = caller_fb /\ mv (vmem s2) (LStack p) = mv m1 d /\
     (forall l, under p l -> l <> LTemp2 -> mv (vmem s2) l = mv (vmem s) l) /\ same_heap (vmem s) (vmem s2)).
Proof.
  intros pbits s p cf ret f v FB SP RV V.
  unfold do_return, need. rewrite SP. replace (p + fn_args f + fn_frame f + 2 <? 2)%nat with false by (symmetry; apply Nat.ltb_ge; lia).
  replace (p + fn_args f + fn_frame f + 2 - 2)%nat with (p + fn_args f + fn_frame f)%nat by lia.
  rewrite RV, FB. eexists. split; [reflexivity|]. cbn [vmem vpc vsp vfb]. split; [auto|]. split; [auto|]. split; [auto|]. split; [auto|].
  intros ? ? ? ? ? ? ? ? ? ? ? ? ? ? fuel d m1 s2 D E.
  cbn [exec vr0 vr1 vsp vmem upd next_loc] in E.
  replace (S (p + fn_args f + fn_frame f)) with (p + fn_args f + fn_frame f + 2 - 1)%nat in E by lia.
  rewrite D in E. cbn [bind] in E. unfold checked_run in E. case_if E; inversion E. clear E. subst s2.
  cbn [upd vsp vfb vmem]. destruct (deref_frame _ _ _ _ _ _ D) as [F1 [F2 [F3 F4]]].
  split; [auto|]. split; [auto|]. rewrite wr_eq. split; [auto|]. split.
  - intros l U N. rewrite wr_ne by (intros ->; cbn in U; lia). auto.
  - unfold same_heap. cbn. rewrite F2, F3, F4. auto.
Qed.

(* a wide frame: one parameter and 255 locals.  The header byte 1 + arguments + locals wraps to 1
   (cc/link.cpp), and the callee does not see its argument *)
Definition wide_fn : fn := mkFn 1 255 ((1 + 1 + 255) mod 256) 0.
Theorem c30_wide_frame_refuted : forall pbits, exists s s',
  call_fn pbits 0 false wide_fn 1 0 s = Ok (Run s') /\
  mv (vmem s') (LStack (vfb s')) <> mv (vmem s) (LStack (vsp s - 1)) /\ (vfb s' = vsp s' - 1)%nat.
Proof.
  intros pbits.
  set (s := mkVm (mkMem (fun l => match l with LStack 0 => VInt 7 | _ => VInt 0 end) (fun _ => None) (fun _ _ => 0) 0) 0 1 0 None None 0).
  assert (E : exists s', call_fn pbits 0 false wide_fn 1 0 s = Ok (Run s')) by (eexists; reflexivity).
  destruct E as [s' E]. exists s, s'. split; [auto|].
  destruct (call_fn_run _ _ _ _ _ _ _ _ E) as [L [-> _]]. cbn [vfb vsp vmem wide_fn fn_args fn_frame fn_adjust s].
  replace ((1 + 1 + 255) mod 256)%nat with 1%nat by reflexivity.
  split; [|lia]. replace (S (1 - 1 + 1 + 255) - 1)%nat with (1 - 1 + 1 + 255)%nat by lia. rewrite wr_eq.
  cbn [mv Nat.sub]. discriminate.
Qed.

(* C31: every local but the first is 0; the first is an integer whose value is whatever was left on
   the stack at its place *)
Theorem c31_locals_partial : forall pbits limit protect f args ret s s',
  frame_ok f ->
  call_fn pbits limit protect f args ret s = Ok (Run s') ->
  forall i, (i < fn_frame f)%nat ->
  mv (vmem s') (LStack (vfb s' + fn_args f + i)) =
    VInt (if (i =? 0)%nat then u32 (rdi pbits (vmem s) (LStack (vsp s - args + fn_args f))) else 0).
Proof.
  intros pbits limit protect f args ret s s' FO E i Hi.
  destruct (c30_call_arguments _ _ _ _ _ _ _ _ FO E) as [_ [FB _]]. rewrite FB.
  destruct (call_fn_run _ _ _ _ _ _ _ _ E) as [L [-> _]]. cbn [vmem].
  rewrite wr_ne by (intros K; inversion K; lia).
  destruct (locals_init_spec pbits (fn_frame f) (zeros (vmem s) (vsp s) (fn_args f - args)) (vsp s - args + fn_args f)) as [_ [L2 _]].
  rewrite L2 by auto. f_equal. destruct (i =? 0)%nat; auto.
  unfold rdi. destruct (zeros_spec (fn_args f - args) (vmem s) (vsp s)) as [Z1 _]. rewrite Z1.
  destruct (vsp s <=? vsp s - args + fn_args f)%nat eqn:A; cbn [andb]; auto.
  destruct (vsp s - args + fn_args f <? vsp s + (fn_args f - args))%nat eqn:B; auto.
  apply Nat.ltb_lt in B. lia.
Qed.
(* C31 as stated is false: a function with one local and no parameters, called when the free slot
   holds 5, starts with its local equal to 5 *)
Theorem c31_refuted : forall pbits, exists f s s',
  frame_ok f /\ call_fn pbits 0 false f 0 0 s = Ok (Run s') /\ (0 < fn_frame f)%nat /\
  mv (vmem s') (LStack (vfb s' + fn_args f)) = VInt 5.
Proof.
  intros pbits. exists (mkFn 0 1 2 0).
  set (s := mkVm (mkMem (fun l => match l with LStack 0 => VInt 5 | _ => VInt 0 end) (fun _ => None) (fun _ _ => 0) 0) 0 0 0 None None 0).
  assert (E : exists s', call_fn pbits 0 false (mkFn 0 1 2 0) 0 0 s = Ok (Run s')) by (eexists; reflexivity).
  destruct E as [s' E]. exists s, s'. split; [reflexivity|]. split; [auto|]. split; [cbn; lia|].
  assert (FO : frame_ok (mkFn 0 1 2 0)) by reflexivity.
  pose proof (c31_locals_partial _ _ _ _ _ _ _ _ FO E 0%nat ltac:(cbn; lia)) as H.
  rewrite Nat.add_0_r in H. rewrite H. reflexivity.
Qed.

Section Whole.
Variable pbits : value -> Z.
Variable obj_hash : mem -> value -> Z.
Variable as_string : mem -> value -> list Z.
Variable trap : bool.
Variable hash_index : loc -> loc -> loc -> mem -> res mem.
Variable new_table : loc -> mem -> mem.
Variable lib_fn : Z -> option (nat -> nat -> mem -> res (mem * bool)).
Variable native_fn : Z -> option (nat -> nat -> mem -> res mem).
Variable ext : opcode -> vm -> res outcome.
Variable code : list Z.
Variable funs : list fn.
Variable base limit : nat.
Variable protect slices : bool.
Variable fuel : nat.
Notation step := (step pbits obj_hash as_string trap hash_index new_table lib_fn native_fn ext code funs base limit protect slices fuel).

Lemma decode_pos pc i n : decode code pc = Some (i, n) -> 0 <= pc.
Proof.
  unfold decode, rd8, nthZ. destruct (pc <? 0) eqn:E; [discriminate|]. intros _. apply Z.ltb_ge in E. lia.
Qed.

(* C30, a whole call: a call instruction with any number of arguments, any execution of the body up
   to its Return, and the push of the result.  What is required of the body is that it comes to its
   Return in the frame it was started in (same frame base, one value on top of the return vector,
   the return vector intact): see the certified-code theorems for code where this always holds. *)
Theorem c30_call_and_return_partial : forall s args idx ret f s1 n s2 n2 m1 d r s4,
  decode code (vpc s) = Some (ICall args idx, ret) -> nth_error funs idx = Some f -> frame_ok f ->
  step s = Ok (Run s1) ->
  steps step n s1 s2 ->
  decode code (vpc s2) = Some (IReturn, n2) ->
  vfb s2 = vfb s1 -> vsp s2 = S (vsp s1) ->
  mv (vmem s2) (LStack (vsp s1 - 1)) = mv (vmem s1) (LStack (vsp s1 - 1)) ->
  decode code ret = Some (IPushRet, r) ->
  deref pbits fuel (LStack (vsp s2 - 1)) (vmem s2) = Ok (d, m1) ->
  steps step 2 s2 s4 ->
  vpc s4 = r /\ vfb s4 = vfb s /\ vsp s4 = S (vsp s - args) /\
  mv (vmem s4) (LStack (vsp s - args)) = mv m1 d /\
  (forall l, under (vsp s - args) l -> l <> LTemp2 -> mv (vmem s4) l = mv (vmem s2) l).
Proof.
  intros s args idx ret f s1 n s2 n2 m1 d r s4 D1 F FO E1 _ D2 FB SP RV D3 DR E.
  unfold VmModel.step in E1. rewrite D1 in E1. cbn [exec] in E1. rewrite F in E1. unfold upd in E1. cbn [vpc vmem vsp vfb vslice] in E1.
  pose proof (decode_pos _ _ _ D3) as RP.
  destruct (c30_call_arguments _ _ _ _ _ _ _ _ FO E1) as [_ [A2 [A3 _]]]. cbn [vsp] in A2, A3.
  destruct (call_fn_run _ _ _ _ _ _ _ _ E1) as [L [Q _]]. cbn [vsp vfb vmem] in L, Q.
  assert (V : mv (vmem s1) (LStack (vsp s1 - 1)) = VRaw (vfb s) (Z.to_nat ret)).
  { rewrite Q. cbn [vsp vmem]. replace (S (vsp s - args + fn_args f + fn_frame f) - 1)%nat with (vsp s - args + fn_args f + fn_frame f)%nat by lia.
    apply wr_eq. }
  rewrite V in RV. clear Q V.
  set (p := (vsp s - args)%nat) in *.
  set (s2' := mkVm (vmem s2) n2 (vsp s2) (vfb s2) None None (vslice s2)).
  assert (RR : exists s3, do_return s2' = Ok (Run s3) /\ step s2 = Ok (Run s3)).
  { unfold VmModel.step. rewrite D2. cbn [exec vmem vpc vsp vfb vslice]. unfold upd. cbn [vmem vpc vsp vfb vslice].
    destruct (c30_return pbits s2' p (vfb s) (Z.to_nat ret) f (mv (vmem s2) (LStack (vsp s2 - 1)))) as [s3 [K _]];
      cbn [vfb vsp vmem s2']; try lia; auto.
    - rewrite <- RV. f_equal. f_equal. lia.
    - exists s3. auto. }
  destruct RR as [s3 [R1 R2]].
  destruct (c30_return pbits s2' p (vfb s) (Z.to_nat ret) f (mv (vmem s2) (LStack (vsp s2 - 1)))) as [s3' [K [M [PC [S3 [F3 REST]]]]]];
      cbn [vfb vsp vmem s2']; try lia; auto.
  { rewrite <- RV. f_equal. f_equal. lia. }
  rewrite R1 in K. injection K as <-.
  inversion E as [|? ? x ? G1 G2]; subst. rewrite R2 in G1. injection G1 as <-.
  inversion G2 as [|? ? x ? G3 G4]; subst. inversion G4; subst. clear G2 G4 E.
  unfold VmModel.step in G3. rewrite PC, Z2Nat.id, D3 in G3 by lia.
  set (s3r := mkVm (vmem s3) r (vsp s3) (vfb s3) (vr0 s3) (vr1 s3) (vslice s3)) in G3.
  assert (R1' : exec pbits obj_hash as_string trap hash_index new_table lib_fn native_fn ext code funs base limit protect slices fuel IPushRet s3
     = match exec pbits obj_hash as_string trap hash_index new_table lib_fn native_fn ext code funs base limit protect slices fuel IPushRet s3r with
       | Ok (Run x) => Ok (Run (mkVm (vmem x) (vpc s3) (vsp x) (vfb x) None None (vslice x)))
       | Ok (Failed e x) => Ok (Failed e (mkVm (vmem x) (vpc s3) (vsp x) (vfb x) None None (vslice x)))
       | y => y end).
  { cbn [exec upd vr0 vr1 vsp vmem s3r vfb vslice]. destruct (vr0 s3); auto.
    destruct (deref pbits fuel (next_loc l) (vmem s3)) as [[? ?]| |]; auto. cbn [bind]. unfold checked_run, upd. cbn [vsp].
    destruct (protect && (limit <=? S (vsp s3))%nat); reflexivity. }
  assert (PCR : vpc s4 = r).
  { revert G3. cbn [exec upd vr0 vr1 vsp vmem s3r vfb vslice]. destruct (vr0 s3); [|discriminate].
    destruct (deref pbits fuel (next_loc l) (vmem s3)) as [[? ?]| |]; cbn [bind]; try discriminate.
    unfold checked_run, upd. cbn [vsp]. destruct (protect && (limit <=? S (vsp s3))%nat); intros G3; inversion G3; reflexivity. }
  rewrite G3 in R1'.
  destruct (REST _ _ _ _ _ _ _ _ _ _ _ _ _ _ _ _ _ _ DR R1') as [T1 [T2 [T3 [T4 T5]]]].
  cbn [vsp vfb vmem s2'] in *. auto.
Qed.

(* ---- stack overflow detection (WRENCH_PROTECT_STACK_FROM_OVERFLOW) ---- *)
(* the instructions that grow the stack without looking at the limit (vm.cpp:745-768, 1322, 1462-1517) *)
Definition unchecked (i : instr) : bool :=
  match i with ILit _ false | IVarIndex _ _ _ false | IIndexSkip => true | _ => false end.

Theorem c51_checked_instructions_partial : forall i s s',
  protect = true -> unchecked i = false -> (forall o, i <> IExt o) ->
  (vfb s <= vsp s)%nat -> (vsp s < limit)%nat ->
  exec pbits obj_hash as_string trap hash_index new_table lib_fn native_fn ext code funs base limit protect slices fuel i s = Ok (Run s') ->
  (vsp s' < limit)%nat.
Proof.
  intros i s s' PR U NX FB SP E.
  assert (CK : forall x, checked_run limit protect x = Run s' -> (vsp s' < limit)%nat).
  { intros x. unfold checked_run. rewrite PR. cbn [andb]. destruct (limit <=? vsp x)%nat eqn:X; intros Q; inversion Q; subst.
    now apply Nat.leb_gt in X. }
  assert (FY : forall x, force_yield slices x = Run s' -> (vsp x < limit)%nat -> (vsp s' < limit)%nat).
  { intros x. unfold force_yield, do_yield. cbv zeta. destruct (_ && _); intros Q; inversion Q; subst; auto. }
  assert (RT : forall x, (vfb x < limit)%nat -> do_return x = Ok (Run s') -> (vsp s' < limit)%nat).
  { intros x L. unfold do_return, need. destruct (_ <? _)%nat; [discriminate|]. destruct (mv _ _); try discriminate.
    intros Q. inversion Q. auto. }
  destruct i; cbn [exec upd vr0 vr1 vsp vmem vfb vpc] in E; try discriminate; try (exfalso; eapply NX; reflexivity).
  all: unfold need, trapped in E.
  all: repeat match type of E with
    | bind ?x _ = _ => destruct x as [[? ?]| |] eqn:?; cbn [bind] in E; try discriminate
    | bind ?x _ = _ => destruct x eqn:?; cbn [bind] in E; try discriminate
    | Ok (checked_run limit protect _) = _ => injection E as E; apply CK in E; exact E
    | Ok (force_yield slices _) = _ => injection E as E; apply FY in E; [exact E|cbn; try (destruct b; cbn); lia]
    | Ok (Run _) = _ => injection E as E; subst s'; cbn; lia
    | do_return _ = _ => apply RT in E; [exact E|cbn; lia]
    | (if ?c then _ else _) = _ => destruct c eqn:?; try discriminate
    | Ok (if ?c then _ else _) = _ => destruct c eqn:?; try discriminate
    | match ?c with _ => _ end = _ => destruct c eqn:?; try discriminate
    end.
  all: try (injection E as E; subst s'; cbn; try (destruct b; cbn); lia).
  - destruct (call_fn_run _ _ _ _ _ _ _ _ E) as [_ [-> [_ A]]]. specialize (A PR). cbn [vsp upd] in A |- *. lia.
  - unfold do_switch in E. cbv zeta in E.
    repeat match type of E with match ?c with _ => _ end = _ => destruct c eqn:?; try discriminate end.
    injection E as <-. cbn. lia.
  - unfold do_switch_linear in E. cbv zeta in E.
    repeat match type of E with match ?c with _ => _ end = _ => destruct c eqn:?; try discriminate end.
    injection E as <-. cbn. lia.
Qed.

End Whole.

(* C51 as stated is false: 32-bit literals are pushed without a check, so the stack grows past any
   limit without an error *)
Definition lit32 : list Z := [byte_of O_LiteralInt32; 1; 2; 3; 4].
Lemma blocks_nth : forall n (blk : list Z) k j, (k < n)%nat -> (j < length blk)%nat ->
  nth_error (concat (repeat blk n)) (k * length blk + j) = nth_error blk j.
Proof.
  induction n; intros blk k j K J; [lia|]. cbn [repeat concat]. destruct k.
  - cbn [Nat.mul Nat.add]. now rewrite nth_error_app1.
  - rewrite nth_error_app2 by (cbn; lia). rewrite <- (IHn blk k j) by lia. f_equal. cbn. lia.
Qed.
Lemma lit32_decode n k : (k < n)%nat ->
  decode (concat (repeat lit32 n)) (5 * Z.of_nat k) = Some (ILit (VInt 67305985) false, 5 * Z.of_nat (S k)).
Proof.
  intros K.
  assert (N : forall j, (j < 5)%nat -> rd8 (concat (repeat lit32 n)) (5 * Z.of_nat k + Z.of_nat j) = nth_error lit32 j).
  { intros j J. unfold rd8, nthZ. replace (5 * Z.of_nat k + Z.of_nat j <? 0) with false by (symmetry; apply Z.ltb_ge; lia).
    rewrite <- (blocks_nth n lit32 k j) by auto. f_equal. cbn [length lit32]. lia. }
  pose proof (N 0%nat ltac:(lia)) as N0. pose proof (N 1%nat ltac:(lia)) as N1. pose proof (N 2%nat ltac:(lia)) as N2.
  pose proof (N 3%nat ltac:(lia)) as N3. pose proof (N 4%nat ltac:(lia)) as N4. cbn [nth_error lit32] in *.
  unfold decode. rewrite Z.add_0_r in N0. rewrite N0.
  replace (opcode_of (byte_of O_LiteralInt32)) with (Some O_LiteralInt32) by (vm_compute; reflexivity).
  cbn [decode_op]. unfold lInt32, rd32, rdu16.
  change (Z.of_nat 1) with 1 in N1. rewrite N1.
  replace (5 * Z.of_nat k + 1 + 1) with (5 * Z.of_nat k + Z.of_nat 2) by lia. rewrite N2.
  replace (5 * Z.of_nat k + 1 + 2) with (5 * Z.of_nat k + Z.of_nat 3) by lia. rewrite N3.
  replace (5 * Z.of_nat k + Z.of_nat 3 + 1) with (5 * Z.of_nat k + Z.of_nat 4) by lia. rewrite N4.
  f_equal. f_equal. lia.
Qed.
Theorem c51_refuted : forall pbits obj_hash as_string trap hash_index new_table lib_fn native_fn ext funs base slices fuel limit n,
  exists code s s', vsp s = base /\
  steps (step pbits obj_hash as_string trap hash_index new_table lib_fn native_fn ext code funs base limit true slices fuel) n s s' /\
  vsp s' = (base + n)%nat.
Proof.
  intros. exists (concat (repeat lit32 n)).
  set (stp := step _ _ _ _ _ _ _ _ _ _ _ _ _ _ _ _).
  set (m0 := mkMem (fun _ => VInt 0) (fun _ => None) (fun _ _ => 0) 0%nat).
  assert (H : forall j k m, (k + j = n)%nat -> exists s',
     steps stp j (mkVm m (5 * Z.of_nat k) (base + k) 0 None None 0) s' /\ vsp s' = (base + n)%nat).
  { induction j; intros k m J.
    - eexists. split; [constructor|]. cbn. lia.
    - destruct (IHj (S k) (wr m (LStack (base + k)) (VInt 67305985)) ltac:(lia)) as [s' [A B]].
      exists s'. split; auto. econstructor; [|exact A].
      unfold stp, step. cbn [vpc]. rewrite lit32_decode by lia.
      cbn [exec upd push vmem vsp vfb vpc vslice]. f_equal. f_equal. unfold push, upd. cbn [vmem vsp vfb vpc vslice]. f_equal. lia. }
  destruct (H n 0%nat m0 ltac:(lia)) as [s' [A B]].
  exists (mkVm m0 0 base 0 None None 0), s'. split; [reflexivity|]. split; auto.
  rewrite Nat.add_0_r in A. exact A.
Qed.

(* ---- examples: whole programs on concrete parameters ---- *)
Definition px_pbits (v : value) : Z := 0.
Definition px_step code funs := step px_pbits (fun _ _ => 0) (fun _ _ => []) true (fun _ _ _ m => Ok m) (fun _ m => m)
  (fun _ => None) (fun _ => None) (fun _ _ => UB) code funs 0 100 true false 10.
Definition px_run code funs n s := run px_pbits (fun _ _ => 0) (fun _ _ => []) true (fun _ _ _ m => Ok m) (fun _ m => m)
  (fun _ => None) (fun _ => None) (fun _ _ => UB) code funs 0 100 true false 10 n s.
Definition px_start := mkVm (mkMem (fun _ => VInt 0) (fun _ => None) (fun _ _ => 0) 0%nat) 0 0 0 None None 0.
(* global 0 and the stack height when the program stops *)
Definition px_shown (r : res outcome) := match r with Ok (Done s) => Some (mv (vmem s) (LGlobal 0), vsp s) | _ => None end.

(* function f( a, b ) { return a - b; }  g = f( args ); *)
Definition px_call (pushes : list Z) (args : Z) : list Z :=
  let main := pushes ++ [byte_of O_CallFunctionByIndex; args; 0; 2; 0; byte_of O_PushIndexFunctionReturnValue;
     byte_of O_AssignToGlobalAndPop; 0; byte_of O_LiteralZero; byte_of O_GlobalStop; byte_of O_Stop] in
  main ++ repeat 0 (40 - length main)
  ++ [byte_of O_LoadFromLocal; 1; byte_of O_LoadFromLocal; 0; byte_of O_BinarySubtraction; byte_of O_Return].
Definition lit8 (n : Z) : list Z := [byte_of O_LiteralInt8; n].
Definition px_f := mkFn 2 0 3 40.
Example c30_ex_exact : px_shown (px_run (px_call (lit8 10 ++ lit8 3) 2) [px_f] 50 px_start) = Some (VInt 7, 1%nat).
Proof. vm_compute. reflexivity. Qed.
Example c30_ex_missing : px_shown (px_run (px_call (lit8 10) 1) [px_f] 50 px_start) = Some (VInt 10, 1%nat).
Proof. vm_compute. reflexivity. Qed.
Example c30_ex_extra : px_shown (px_run (px_call (lit8 10 ++ lit8 3 ++ lit8 99 ++ lit8 98) 4) [px_f] 50 px_start) = Some (VInt 7, 1%nat).
Proof. vm_compute. reflexivity. Qed.

(* function f() { var x; return x; }  99; g = f();  gives 99: the literal popped before the call is
   still at the place of the local *)
Definition px_stale : list Z :=
  lit8 99 ++ [byte_of O_PopOne; byte_of O_CallFunctionByIndex; 0; 0; 2; 0; byte_of O_PushIndexFunctionReturnValue;
     byte_of O_AssignToGlobalAndPop; 0; byte_of O_LiteralZero; byte_of O_GlobalStop; byte_of O_Stop]
  ++ [byte_of O_LoadFromLocal; 0; byte_of O_Return].
Example c31_ex_refuted : px_shown (px_run px_stale [mkFn 0 1 2 14] 50 px_start) = Some (VInt 99, 1%nat).
Proof. vm_compute. reflexivity. Qed.
(* the hypotheses of c51_checked_instructions_partial *)
Example c51_ex : exists s', px_step (lit8 5) [] px_start = Ok (Run s') /\ (vsp s' < 100)%nat /\
  decode (lit8 5) 0 = Some (ILit (VInt 5) true, 2).
Proof. eexists. split; [lazy; reflexivity|]. split; [cbn; lia|reflexivity]. Qed.
Example c51_ex_caught : (match run px_pbits (fun _ _ => 0) (fun _ _ => []) true (fun _ _ _ m => Ok m) (fun _ m => m)
  (fun _ => None) (fun _ => None) (fun _ _ => UB) (lit8 1 ++ lit8 2 ++ lit8 3) [] 0 3 true false 10 9 px_start with
  | Ok (Failed E_stack_overflow s) => vsp s | _ => 0%nat end) = 3%nat.
Proof. vm_compute. reflexivity. Qed.

Print Assumptions c30_call_arguments.
Print Assumptions c30_return.
Print Assumptions c30_wide_frame_refuted.
Print Assumptions c30_call_and_return_partial.
Print Assumptions c31_locals_partial.
Print Assumptions c31_refuted.
Print Assumptions c51_checked_instructions_partial.
Print Assumptions c51_refuted.
