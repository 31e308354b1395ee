(* C33: the keyhole optimizer preserves behaviour. *)
From Verif Require Import Base BaseLemmas HashModel FloatModel OpsModel VmModel VmSpec EmitModel VmProofs JumpProofs FuseSpec FuseRules FuseChunks FuseProofs.

(* The compiler emits the instructions cs into a block whose opcode cache is empty (a new block, or a
   position a jump can reach).  What it appends, out, does on the machine what the instructions do one
   after the other: from every state from which they run through, to the same memory, stack and frame,
   whatever surrounds the two pieces of code.
   Partial: the runs are those on which the optimizer is right (tame, FuseSpec.v; each of its clauses is
   needed, see the refutations), the instructions are those between branches (branches fused with
   comparisons, Index and calls of script functions are missing), the unfused run ends normally, and the
   blocks are not assembled with appendBytecode. *)
Theorem c33_keyhole_partial cs b b' : Forall source cs -> negations_fit cs -> b_ops b = [] -> emit_all cs b = COk b' ->
  exists out, b_all b' = b_all b ++ out /\
  forall pbits obj_hash as_string trap hash_index new_table lib_fn native_fn ext funs base limit protect slices depth fw,
    local_fn obj_hash -> local_fn as_string -> lib_local lib_fn ->
  let goes code := goes pbits obj_hash as_string trap hash_index new_table lib_fn native_fn ext code funs base limit protect slices depth in
  forall code pre post code' pre' post' s t,
    code = pre ++ plain_bytes cs ++ post -> code' = pre' ++ out ++ post' -> vpc s = lenZ pre ->
    goes code (fun i u v => calm fw u /\ tame fw i u v) (lenZ (pre ++ plain_bytes cs)) s t -> calm fw t ->
    exists t', goes code' (fun _ _ _ => True) (lenZ (pre' ++ out)) (at_pc s (lenZ pre')) t' /\
               same (at_pc t (lenZ (pre' ++ out))) t'.
Proof.
  intros SC NF O H. destruct (emit_derives cs b b' SC NF O H) as [cs' [is [js [EB [R [SI [RJ D]]]]]]].
  exists (plain_bytes cs'). split; [exact EB|]. intros pbits obj_hash as_string trap hash_index new_table lib_fn native_fn ext funs base limit protect slices depth fw OH AS LL goes.
  intros code pre post code' pre' post' s t E E' V G C. eapply (derived_runs pbits obj_hash as_string trap hash_index new_table lib_fn native_fn ext funs base limit protect slices depth fw OH AS LL cs cs' is js code code' pre post pre' post'); eauto.
Qed.

(* ---- examples ---- *)
Definition h0 (m : mem) (v : value) : Z := 0.
Definition str0 (m : mem) (v : value) : list Z := [].
Definition step0 (code : list Z) : vm -> res outcome :=
  step (fun _ => 0) h0 str0 false (fun _ _ _ m => Ok m) (fun _ m => m) (fun _ => None) (fun _ => None) (fun _ _ => UB) code [] 0 100 false false 20.
Definition goes0 (code : list Z) := goes (fun _ => 0) h0 str0 false (fun _ _ _ m => Ok m) (fun _ m => m) (fun _ => None) (fun _ => None) (fun _ _ => UB) code [] 0 100 false false 20.
Fixpoint drive (n : nat) (code : list Z) (stop : Z) (s : vm) : option vm :=
  if vpc s =? stop then Some s else
  match n with
  | O => None
  | S k => match step0 code s with Ok (Run t) => drive k code stop t | _ => None end
  end.
Lemma drive_goes n code stop : forall s t, drive n code stop s = Some t -> goes0 code (fun _ _ _ => True) stop s t.
Proof.
  induction n as [|n IH]; intros s t H; cbn [drive] in H; destruct (vpc s =? stop) eqn:E; try discriminate;
  try (injection H as <-; constructor; now apply Z.eqb_eq).
  apply Z.eqb_neq in E. destruct (step0 code s) as [[u|?|?|?]| |] eqn:D; try discriminate.
  unfold step0, step in D. destruct (decode code (vpc s)) as [[i k]|] eqn:DC; [|discriminate].
  eapply (goes_step _ _ _ _ _ _ _ _ _ _ _ _ _ _ _ _ _ _ s u t i k 20); auto.
  - unfold step. rewrite DC. exact D.
  - apply IH. exact H.
Qed.

(* a = a - b; for the locals a and b *)
Definition ex_src : list chunk :=
  [(O_LoadFromLocal, [1]); (O_LoadFromLocal, [0]); (O_BinarySubtraction, []); (O_LoadFromLocal, [0]); (O_Assign, []); (O_PopOne, [])].
Definition ex_out : list Z := chunk_bytes (O_LLBinarySubtraction, [1; 0]) ++ chunk_bytes (O_AssignToLocalAndPop, [0]).
Definition m_of (f : loc -> value) : mem :=
  mkMem f (fun i => match i with 0%nat => Some (OChar [97] false) | 1%nat => Some (OChar [98] false) | _ => None end) (fun _ _ => 0) 2%nat.
Definition st_of (f : loc -> value) : vm := mkVm (m_of f) 0 2 0 None None 0.
Definition ex_m : mem := m_of (fun l => match l with LStack 0 => VInt 7 | LStack 1 => VInt 2 | _ => VInt 0 end).
Definition ex_m4 : mem := wr (wr (wr (wr ex_m (LStack 2) (VRef (LStack 1))) (LStack 3) (VRef (LStack 0))) (LStack 2) (VInt 5)) (LStack 3) (VRef (LStack 0)).
Definition ex_s : vm := mkVm ex_m 0 2 0 None None 0.
Definition ex_t : vm := mkVm (wr ex_m4 (LStack 0) (VInt 5)) 9 2 0 None None 0.
Lemma closed_wr sp m l v : closed sp m -> val_ok sp v -> closed sp (wr m l v).
Proof. intros C V x L. cbn. destruct (loc_eq_dec x l); auto. Qed.
Lemma closed_ints sp f : (forall l, type_of (f l) = TI) -> closed sp (m_of f).
Proof. intros H l _. specialize (H l). cbn. destruct (f l); cbn; auto; discriminate. Qed.
Lemma ex_closed sp : closed sp ex_m.
Proof. apply closed_ints. intros [|[|[|]]| | | |]; reflexivity. Qed.
Lemma ex_run : goes0 (plain_bytes ex_src) (fun i u v => calm 2 u /\ tame 2 i u v) 9 ex_s ex_t.
Proof.
  pose proof ex_closed as C0.
  assert (C1 : forall k, (3 <= k)%nat -> closed k (wr ex_m (LStack 2) (VRef (LStack 1)))) by (intros; apply closed_wr; auto; cbn; lia).
  assert (C2 : forall k, (3 <= k)%nat -> closed k (wr (wr ex_m (LStack 2) (VRef (LStack 1))) (LStack 3) (VRef (LStack 0)))) by (intros; apply closed_wr; auto; cbn; lia).
  assert (C3 : forall k, (3 <= k)%nat -> closed k (wr (wr (wr ex_m (LStack 2) (VRef (LStack 1))) (LStack 3) (VRef (LStack 0))) (LStack 2) (VInt 5))) by (intros; apply closed_wr; auto; exact I).
  assert (C4 : forall k, (3 <= k)%nat -> closed k ex_m4) by (intros; apply closed_wr; auto; cbn; lia).
  assert (C5 : forall k, (3 <= k)%nat -> closed k (wr ex_m4 (LStack 0) (VInt 5))) by (intros; apply closed_wr; auto; exact I).
  eapply (goes_step _ _ _ _ _ _ _ _ _ _ _ _ _ _ _ _ _ _ _ (mkVm (wr ex_m (LStack 2) (VRef (LStack 1))) 2 3 0 None None 0) _ _ _ 20); [discriminate|reflexivity|lia|reflexivity| |].
  { split; [split; [apply C0|cbn; lia]|cbn; lia]. }
  eapply (goes_step _ _ _ _ _ _ _ _ _ _ _ _ _ _ _ _ _ _ _ (mkVm (wr (wr ex_m (LStack 2) (VRef (LStack 1))) (LStack 3) (VRef (LStack 0))) 4 4 0 None None 0) _ _ _ 20); [discriminate|reflexivity|lia|reflexivity| |].
  { split; [split; [apply C1; cbn; lia|cbn; lia]|cbn; lia]. }
  eapply (goes_step _ _ _ _ _ _ _ _ _ _ _ _ _ _ _ _ _ _ _ (mkVm (wr (wr (wr ex_m (LStack 2) (VRef (LStack 1))) (LStack 3) (VRef (LStack 0))) (LStack 2) (VInt 5)) 5 3 0 None None 0) _ _ _ 20); [discriminate|reflexivity|lia|reflexivity| |].
  { split; [split; [apply C2; cbn; lia|cbn; lia]|]. split; [left; reflexivity|exact I]. }
  eapply (goes_step _ _ _ _ _ _ _ _ _ _ _ _ _ _ _ _ _ _ _ (mkVm ex_m4 7 4 0 None None 0) _ _ _ 20); [discriminate|reflexivity|lia|reflexivity| |].
  { split; [split; [apply C3; cbn; lia|cbn; lia]|cbn; lia]. }
  eapply (goes_step _ _ _ _ _ _ _ _ _ _ _ _ _ _ _ _ _ _ _ (mkVm (wr ex_m4 (LStack 0) (VInt 5)) 8 3 0 None None 0) _ _ _ 20); [discriminate|reflexivity|lia|reflexivity| |].
  { split; [split; [apply C4; cbn; lia|cbn; lia]|]. intros x E. injection E as <-. exact I. }
  eapply (goes_step _ _ _ _ _ _ _ _ _ _ _ _ _ _ _ _ _ _ _ ex_t _ _ _ 20); [discriminate|reflexivity|lia|reflexivity| |].
  { split; [split; [apply C5; cbn; lia|cbn; lia]|exact I]. }
  constructor. reflexivity.
Qed.
Lemma ex_calm : calm 2 ex_t.
Proof.
  split; [|cbn; lia]. intros l L. cbn [vmem ex_t vsp] in *. unfold ex_m4. cbn [mv wr].
  destruct (loc_eq_dec l (LStack 0)); [exact I|]. destruct (loc_eq_dec l (LStack 3)); [subst; cbn in L; lia|].
  destruct (loc_eq_dec l (LStack 2)); [exact I|]. apply ex_closed. exact L.
Qed.
Ltac bytes := repeat constructor; cbn; lia.
Ltac src := unfold source; split; [bytes|eexists; split; reflexivity].
Example c33_example :
  Forall source ex_src /\ negations_fit ex_src /\ emit_all ex_src empty_bc = COk (set_code empty_bc ex_out []) /\
  goes0 (plain_bytes ex_src) (fun i u v => calm 2 u /\ tame 2 i u v) (lenZ (plain_bytes ex_src)) ex_s ex_t /\ calm 2 ex_t /\
  mv (vmem ex_t) (LStack 0) = VInt 5 /\
  exists t', goes0 ex_out (fun _ _ _ => True) (lenZ ex_out) ex_s t' /\ mv (vmem t') (LStack 0) = VInt 5 /\ vsp t' = 2%nat.
Proof.
  assert (SC : Forall source ex_src) by (unfold ex_src; repeat (constructor; [src|]); constructor).
  assert (EM : emit_all ex_src empty_bc = COk (set_code empty_bc ex_out [])) by reflexivity.
  assert (NF : negations_fit ex_src) by (apply negations_none; reflexivity).
  split; [exact SC|]. split; [exact NF|]. split; [exact EM|]. split; [exact ex_run|]. split; [exact ex_calm|]. split; [reflexivity|].
  destruct (c33_keyhole_partial ex_src empty_bc _ SC NF eq_refl EM) as [out [EO H]].
  assert (out = ex_out) by (symmetry; exact EO). subst out.
  destruct (H (fun _ => 0) h0 str0 false (fun _ _ _ m => Ok m) (fun _ m => m) (fun _ => None) (fun _ => None) (fun _ _ => UB) [] 0%nat 100%nat false false 20%nat 2%nat
    ltac:(intros ? ? ? ? ? ? ?; reflexivity) ltac:(intros ? ? ? ? ? ? ?; reflexivity) ltac:(intros ? ? E; discriminate E)
    (plain_bytes ex_src) [] [] ex_out [] [] ex_s ex_t eq_refl eq_refl eq_refl ex_run ex_calm) as [t' [G S]].
  exists t'. split; [exact G|]. split; [|exact (same_sp _ _ S)].
  rewrite <- (ag_mv _ _ _ (same_mem _ _ S)); [reflexivity|cbn; lia].
Qed.

(* ---- where it is wrong ---- *)
(* From the state s of a function with two locals the instructions leave v in x, the code emitted for
   them leaves v'.  [look] reads the result: a variable, or the text it holds. *)
Definition shows {A} (cs : list chunk) (s : vm) (look : mem -> A) (v v' : A) : Prop :=
  exists b t t', Forall source cs /\ emit_all cs empty_bc = COk b /\ calm 2 s /\ vpc s = 0 /\
    goes0 (plain_bytes cs) (fun _ _ _ => True) (lenZ (plain_bytes cs)) s t /\ look (vmem t) = v /\
    goes0 (b_all b) (fun _ _ _ => True) (lenZ (b_all b)) s t' /\ vsp t' = vsp t /\ look (vmem t') = v'.
Lemma show_by {A} cs s (look : mem -> A) v v' b : Forall source cs -> emit_all cs empty_bc = COk b -> calm 2 s -> vpc s = 0 ->
  match drive 9 (plain_bytes cs) (lenZ (plain_bytes cs)) s, drive 9 (b_all b) (lenZ (b_all b)) s with
  | Some t, Some t' => look (vmem t) = v /\ vsp t' = vsp t /\ look (vmem t') = v'
  | _, _ => False
  end -> shows cs s look v v'.
Proof.
  intros SC E C V H. destruct (drive 9 (plain_bytes cs) _ s) as [t|] eqn:D; [|contradiction]. destruct (drive 9 (b_all b) _ s) as [t'|] eqn:D'; [|contradiction].
  apply drive_goes in D. apply drive_goes in D'. destruct H as [H1 [H2 H3]]. exists b, t, t'. auto 12.
Qed.
Definition at_loc (l : loc) (m : mem) : value := mv m l.
Definition text_at (l : loc) (m : mem) : list Z := match char_array m (mv m l) with Some (bs, _) => bs | None => [] end.
Ltac sources := repeat (constructor; [src|]); constructor.
Ltac calms := split; [|cbn; lia]; intros [[|]|[|[|[|]]]| | | |] L; cbn in *; try exact I; lia.
Ltac show := eapply show_by; [sources|reflexivity|calms|reflexivity|vm_compute; repeat split; reflexivity].

(* g + a, a global before a local, both strings: "a" + "b" becomes "b" + "a" *)
Theorem c33_concat_order_refuted :
  shows [(O_LoadFromGlobal, [0]); (O_LoadFromLocal, [0]); (O_BinaryAddition, [])]
    (st_of (fun l => match l with LStack 0 => VArr 0 | LGlobal 0 => VArr 1 | _ => VInt 0 end)) (text_at (LStack 2)) [97; 98] [98; 97].
Proof. show. Qed.
(* 1.5 < x for an int x: the variable itself turns into a float with the bits of the int *)
Theorem c33_compare_retags_refuted :
  shows [(O_LoadFromLocal, [0]); (O_LiteralFloat, [0; 0; 192; 63]); (O_CompareLT, [])]
    (st_of (fun l => match l with LStack 0 => VInt 1 | _ => VInt 0 end)) (at_loc (LStack 0)) (VInt 1) (VFlt 1).
Proof. show. Qed.
(* 1.19209 == x: the tolerance is relative to the left operand *)
Theorem c33_equal_refuted :
  shows [(O_LoadFromLocal, [0]); (O_LiteralFloat, [123; 150; 152; 63]); (O_CompareEQ, [])]
    (st_of (fun l => match l with LStack 0 => VFlt 1066964608 | _ => VInt 0 end)) (at_loc (LStack 2)) (VInt 0) (VInt 1).
Proof. show. Qed.
(* -0xFFFFFF80 *)
Theorem c33_negate_refuted :
  shows [(O_LiteralInt8, [128]); (O_Negate, [])] (st_of (fun _ => VInt 0)) (at_loc (LStack 2)) (VInt 128) (VInt 4294967168) /\
  shows [(O_LiteralInt16, [0; 128]); (O_Negate, [])] (st_of (fun _ => VInt 0)) (at_loc (LStack 2)) (VInt 32768) (VInt 4294934528).
Proof. split; show. Qed.
(* a = 5; for a parameter a that refers to a global: the global keeps its value *)
Theorem c33_assign_reference_refuted :
  shows [(O_LiteralInt8, [5]); (O_LoadFromLocal, [0]); (O_Assign, []); (O_PopOne, [])]
    (st_of (fun l => match l with LStack 0 => VRef (LGlobal 0) | _ => VInt 0 end)) (at_loc (LGlobal 0)) (VInt 5) (VInt 0).
Proof. show. Qed.
(* a++; likewise: the parameter stops referring to the global *)
Theorem c33_increment_reference_refuted :
  shows [(O_LoadFromLocal, [0]); (O_PostIncrement, []); (O_PopOne, [])]
    (st_of (fun l => match l with LStack 0 => VRef (LGlobal 0) | _ => VInt 0 end)) (at_loc (LStack 0)) (VRef (LGlobal 0)) (VInt 1).
Proof. show. Qed.
(* b & a for a float: no result; the expression has the value of whatever was in the stack slot *)
Theorem c33_no_result_refuted :
  shows [(O_LoadFromLocal, [0]); (O_LoadFromLocal, [1]); (O_BinaryAnd, [])]
    (st_of (fun l => match l with LStack 0 => VFlt 1069547520 | LStack 1 => VInt 3 | LStack 2 => VInt 77 | _ => VInt 0 end))
    (at_loc (LStack 2)) (VRef (LStack 0)) (VInt 77).
Proof. show. Qed.
(* c + (a + b): the optimizer reads the opcode cache below its first entry *)
Theorem c33_cache_underflow_refuted :
  exists cs, Forall source cs /\ emit_all cs empty_bc = CUB.
Proof.
  exists [(O_LoadFromLocal, [0]); (O_LoadFromLocal, [1]); (O_BinaryAddition, []); (O_LoadFromLocal, [2]); (O_BinaryAddition, [])].
  split; [sources|reflexivity].
Qed.

Print Assumptions c33_keyhole_partial.
Print Assumptions c33_example.
