(* C56: the code of an arithmetic expression leaves the expression's value on the stack.  The statement
   is in terms of EvalSpec (what an expression is worth), ExprNest.compile (the compiler) and the
   machine of VmModel. *)
From Coq Require Import String.
From Verif Require Import Base BaseLemmas HashModel FloatModel OpsModel VmModel VmSpec OpsLocal EmitModel JumpProofs ExprModel ExprEmit ExprSpec ExprNest ExprStack ExprProps VmProps
  FuseSpec FuseRules FuseChunks FuseProofs EvalSpec EvalProofs EvalRun EvalNest EvalBlock.
Open Scope string_scope. Open Scope list_scope. Open Scope Z_scope.

(* Wherever the code is in a program: run from its first byte, in a function whose parameters, locals
   and return vector take [fw] slots, it reaches the byte behind it with one more value on the stack,
   which is the integer [z] (or a variable that holds it), and nothing else in use has changed.
   Missing: floats, calls, indexing and assignments as operands; expressions the resolution or the
   keyhole optimizer gets wrong ([fine]); expressions whose blocks mislead the optimizer ([not_misled]). *)
Theorem c56_expression_partial t b : fine t -> not_misled t -> compile t = COk b ->
  forall pbits obj_hash as_string trap hash_index new_table lib_fn native_fn ext funs base limit protect slices fw,
    local_fn obj_hash -> local_fn as_string -> lib_local lib_fn ->
  let goes code := goes pbits obj_hash as_string trap hash_index new_table lib_fn native_fn ext code funs base limit protect slices 3 in
  forall pre post s z,
    vpc s = lenZ pre -> calm fw s -> expression_int trap (vmem s) (vfb s) fw t = Some z ->
    (tree_sum width t <= 255)%nat -> (protect = true -> (vsp s + tree_sum width t < limit)%nat) ->
  exists u, goes (pre ++ b_all b ++ post) (fun _ _ _ => True) (lenZ (pre ++ b_all b)) s u /\
    vsp u = S (vsp s) /\ vfb u = vfb s /\ vslice u = vslice s /\ agree (vsp s) (vmem s) (vmem u) /\
    holds (vmem u) (mv (vmem u) (LStack (vsp s))) z.
Proof.
  intros FN (b' & h & CB & CH & EH) CB' pbits obj_hash as_string trap hash_index new_table lib_fn native_fn ext funs base limit protect slices fw OH AS LL goes0 pre post s z VP CA EX W LIM.
  rewrite CB in CB'. injection CB' as ->. rewrite <- EH. clear EH CB b. unfold compile_honest in CH. set (n := S (tree_max depth t)) in *.
  assert (D : (tree_max depth t < n)%nat) by (subst n; lia). clearbody n.
  destruct (flat_value trap (vmem s) (vfb s) fw n t z FN D EX) as (f & RN & _). rewrite <- (flat_loads trap (vmem s) (vfb s) fw n t z FN D EX) in W, LIM.
  assert (NN : ~ In None [Some (z, f)]) by (intros [X|[]]; discriminate).
  destruct (actions_run pbits obj_hash as_string trap hash_index new_table lib_fn native_fn ext (pre ++ b_all h ++ post) funs base limit protect slices 3 fw
    (vsp s) (vfb s) (vmem s) (proj2 CA) (le_n 3) (proj1 CA) (flat n t) s [] [Some (z, f)] eq_refl) with (2 := RN) (3 := NN) as (SA & NH & SC & is & u & R & RU & Fu & Lu & IM).
  { constructor; [cbn; lia|apply agree_refl|]. intros [|k] v X; discriminate. }
  { cbn. exact W. }
  { cbn. intros X. specialize (LIM X). lia. }
  destruct (block_emitted n t h CH (conj SA (conj NH SC)) (negations_performed _ _ _ _ _ _ _ RN NN)) as (_ & is' & R' & cs & js & EB & _ & _ & RJ & DV & _).
  assert (is' = is) by (eapply reads_fun; eauto). subst is'. cbn [app] in EB.
  destruct (derives_fits pbits obj_hash as_string trap hash_index new_table lib_fn native_fn ext funs base limit protect slices 3 fw OH AS LL _ _ _ DV _ _ RU) as (v & RV & SM).
  eapply (runs_goes _ _ _ _ _ _ _ _ _ _ _ _ _ _ _ _ _ _ pre post) in RV; [|exact RJ|eapply derives_flat; exact DV].
  rewrite <- EB in RV. replace (at_pc s (lenZ pre)) with s in RV by (destruct s; cbn in *; subst; reflexivity).
  eexists. split; [exact RV|]. destruct SM as [S1 S2 S3 S4 S5]. destruct IM as [I1 I2 I3]. cbn [length] in I1. cbn [vsp vfb vslice vmem at_pc].
  destruct (I3 0%nat _ eq_refl) as (z' & g & E & _ & O & _). injection E as <- <-.
  replace (vsp u - 1 - 0)%nat with (vsp s) in O by lia.
  assert (AG : agree (vsp s) (vmem s) (vmem v)).
  { eapply agree_trans; [exact I2|]. eapply agree_mono; [|exact S5]. lia. }
  split; [lia|]. split; [congruence|]. split; [congruence|]. split; [exact AG|].
  rewrite <- (ag_mv _ _ _ S5) by (cbn; lia). eapply slot_holds; eauto.
Qed.

(* ---------------------------------------------------------------- a condition that is easy to check *)
(* no infix operator has two operands that are operators: then only the two operands on top are swapped *)
Fixpoint plain_par (e : expr) : Prop :=
  match e with
  | EPar t => shaped t /\ simple t /\ (length (text t) <= 255)%nat /\ ~ negates_edge t /\
              (fix all (t : tree expr) : Prop := match t with Atom e => plain_par e | Prefix _ t | Postfix _ _ t => all t | Infix _ l r => all l /\ all r end) t
  | _ => True
  end.
Theorem c56_fine_simple : forall t, plain_par (EPar t) -> fine t.
Proof.
  assert (K : forall n t, (tree_max depth t <= n)%nat -> plain_par (EPar t) -> fine t).
  { induction n as [|n IH]; intros t D (SH & SI & LT & NE & SUB); constructor; auto;
      try (intros acts PA; destruct (unit_run _ t SH LT) as (a & PA' & N); rewrite PA in PA'; injection PA' as <-; exact (N (simple_isimple _ _ SI)));
      intros u IN; pose proof (max_in depth t _ IN) as MX; cbn [depth] in MX; [lia|]. apply IH; [lia|].
    revert SUB IN. clear. induction t as [x|s t IHt|s x t IHt|s l IHl r IHr]; cbn [operands]; auto.
    - intros S [<-|[]]. exact S.
    - intros [Sl Sr] IN. apply in_app_or in IN. destruct IN; auto. }
  intros t. apply (K (tree_max depth t)). lia.
Qed.

(* ---------------------------------------------------------------- examples *)
Definition gv (n : Z) : tree expr := Atom (EVar SG n).
Definition lv (n : Z) : tree expr := Atom (EVar SL n).
Definition lit (z : Z) : tree expr := Atom (EInt z).
Definition par (t : tree expr) : tree expr := Atom (EPar t).
Ltac shape := repeat (cbn [shaped looseness]; first [split | exact I]); try (intros; discriminate); try (cbn; discriminate); try (vm_compute; first [reflexivity|discriminate|repeat split; first [reflexivity|discriminate]]).
Ltac no_edge := cbn; intuition (try discriminate).
Ltac is_fine := constructor; [shape|vm_compute; repeat constructor|let a := fresh in let E := fresh in intros a E; vm_compute in E; injection E as <-; cbn; intuition (try discriminate; try (match goal with H : ASwap2 _ _ = ASwap2 _ _ |- _ => injection H as <- <- end; lia))
   |no_edge|cbn [operands app]; intros ? IN; repeat (destruct IN as [IN|IN]; [first [discriminate IN|injection IN as <-]|]); try contradiction].
(* (a + b) * (c - 3 / d) | ~e, with locals a and b *)
Definition ex_tree : tree expr :=
  Infix "|" (Infix "*" (par (Infix "+" (lv 0) (lv 1))) (par (Infix "-" (gv 1) (Infix "/" (lit 3) (gv 2))))) (Prefix "~" (gv 3)).
Example c56_ex_fine : fine ex_tree.
Proof. is_fine; is_fine. Qed.
Example c56_ex_not_misled : not_misled ex_tree.
Proof. eexists _, _. split; [vm_compute; reflexivity|]. split; vm_compute; reflexivity. Qed.
Definition ex_mem : mem := mkMem (fun l => match l with LStack 0 => VInt 7 | LStack 1 => VInt 2 | LGlobal 1 => VInt 5 | LGlobal 2 => VInt 2 | LGlobal 3 => VInt 4294967290 | _ => VInt 0 end) (fun _ => None) (fun _ _ => 0) 0%nat.
Example c56_ex_value : expression_int true ex_mem 0 2 ex_tree = Some (Z.lor ((7 + 2) * (5 - 3 / 2)) (- (-6) - 1)) /\ tree_sum width ex_tree = 6%nat /\ calm 2 (mkVm ex_mem 0 2 0 None None 0).
Proof.
  split; [vm_compute; reflexivity|]. split; [reflexivity|]. split; [|cbn; lia]. intros l _. cbn. repeat match goal with |- context [match ?n with _ => _ end] => destruct n end; exact I.
Qed.

(* ---------------------------------------------------------------- where the compiler is misled *)
(* globals 1.. are set, the value of the expression goes to global 0 *)
Definition px_nested (l : list Z) (t : tree expr) : option (OpsModel.value * nat) :=
  match compile t with
  | COk b => px_shown (px_run (set_globals l ++ b_all b ++ [byte_of O_AssignToGlobalAndPop; 0; byte_of O_LiteralZero; byte_of O_GlobalStop; byte_of O_Stop]) [] 90 px_start)
  | _ => None
  end.
Definition globals_mem (l : list Z) : mem :=
  mkMem (fun x => match x with LGlobal k => VInt (nth k (0 :: l) 0) | _ => VInt 0 end) (fun _ => None) (fun _ _ => 0) 0%nat.
Example c56_ex_bytes : px_nested [7; 2; 3] (Infix "*" (gv 3) (par (Infix "-" (gv 1) (gv 2)))) = Some (VInt 15, 1%nat).
Proof. vm_compute. reflexivity. Qed.
(* -(a - b) * -5 and d == (a - b) && -5: the code between the parentheses becomes one instruction and
   the opcode of the literal before it seems to be the last one; the operator behind the parentheses is
   fused with it and changes the operands of that instruction *)
Definition neg_block : tree expr := Infix "*" (Prefix "-" (par (Infix "-" (gv 1) (gv 2)))) (Prefix "-" (lit 5)).
Definition eq_block : tree expr := Infix "&&" (Infix "==" (gv 3) (par (Infix "-" (gv 1) (gv 2)))) (Prefix "-" (lit 5)).
Theorem c56_misled_refuted :
  (fine neg_block /\ expression_int true (globals_mem [7; 2; 0]) 0 0 neg_block = Some 25 /\ px_nested [7; 2; 0] neg_block = Some (VInt 10, 1%nat)) /\
  (fine eq_block /\ expression_int true (globals_mem [6; 6; 0]) 0 0 eq_block = Some 1 /\ px_nested [6; 6; 0] eq_block = Some (VInt 0, 2%nat)).
Proof.
  split; (split; [|split; vm_compute; reflexivity]); is_fine; is_fine.
Qed.
(* c + (a - b): the optimizer reads the opcodes below the first one *)
Theorem c56_cache_underflow_refuted : fine (Infix "+" (gv 3) (par (Infix "-" (gv 1) (gv 2)))) /\ compile (Infix "+" (gv 3) (par (Infix "-" (gv 1) (gv 2)))) = CUB.
Proof. split; [is_fine; is_fine|vm_compute; reflexivity]. Qed.

Print Assumptions c56_expression_partial.
Print Assumptions c56_fine_simple.
Print Assumptions c56_misled_refuted.
Print Assumptions c56_cache_underflow_refuted.
