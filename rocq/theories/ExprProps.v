(* C32: what an expression evaluates to. *)
From Coq Require Import String.
From Verif Require Import Base HashModel OpsModel VmModel EmitModel ExprModel ExprSpec ExprProofs ExprStack ExprRun ExprText ExprEmit VmProps.
Open Scope string_scope. Open Scope list_scope. Open Scope Z_scope.

(* what is below the stack of an expression does not matter to it *)
Lemma exchange_below : forall V i j (st st' : list V) r, exchange i j st = Some st' -> exchange i j (st ++ r) = Some (st' ++ r).
Proof.
  intros V i j st st' r. unfold exchange. destruct (nth_error st i) as [x|] eqn:Ei; [|discriminate].
  destruct (nth_error st j) as [y|] eqn:Ej; [|discriminate]. intros [= <-].
  assert (Li : (i < length st)%nat) by (apply nth_error_Some; congruence).
  assert (Lj : (j < length st)%nat) by (apply nth_error_Some; congruence).
  rewrite !nth_error_app1 by assumption. rewrite Ei, Ej. f_equal.
  assert (U : forall (l : list V) k z, (k < length l)%nat -> Base.upd (l ++ r) k z = Base.upd l k z ++ r).
  { induction l as [|a l IH]; intros [|k] z Hk; cbn in *; try lia; [reflexivity|]. rewrite IH by lia; reflexivity. }
  rewrite U by exact Li. apply U. rewrite length_upd; exact Lj.
Qed.
Lemma perform_below : forall leaf V (val hash : leaf -> V) un bin a st st' r,
  perform val hash un bin a st = Some st' -> perform val hash un bin a (st ++ r) = Some (st' ++ r).
Proof.
  intros leaf V val hash un bin a st st' r. destruct a as [l|[|l|q x|]|n|n m|q x|c]; cbn [perform]; try discriminate.
  - intros [= <-]; reflexivity.
  - intros [= <-]; reflexivity.
  - destruct (n <? 1); [discriminate|]. apply exchange_below.
  - destruct ((n <? 1) || (m <? 1)); [discriminate|]. destruct (exchange 0 (Z.to_nat (n - 1)) st) as [s|] eqn:E; [|discriminate].
    rewrite (exchange_below _ _ _ _ _ r E). apply exchange_below.
  - destruct st as [|v st]; [discriminate|]. cbn [app]. destruct (o_type q); try (intros [= <-]; reflexivity);
      (destruct st as [|w st]; [discriminate|]; intros [= <-]; reflexivity).
  - destruct st as [|v [|w st]]; try discriminate. intros [= <-]; reflexivity.
Qed.
Lemma performs_below : forall leaf V (val hash : leaf -> V) un bin acts st st' r,
  performs val hash un bin acts st = Some st' -> performs val hash un bin acts (st ++ r) = Some (st' ++ r).
Proof.
  intros leaf V val hash un bin acts; induction acts as [|a acts IH]; intros st st' r; cbn [performs]; [intros [= <-]; reflexivity|].
  destruct (perform val hash un bin a st) as [s|] eqn:E; [|discriminate]. rewrite (perform_below _ _ _ _ _ _ _ _ _ r E). apply IH.
Qed.

(* ---------------------------------------------------------------- every expression is accepted *)
Lemma unit_lawful : @lawful unit (fun _ _ _ => tt). Proof. split; reflexivity. Qed.
Lemma unit_run : forall leaf (t : tree leaf), shaped t -> (length (text t) <= 255)%nat ->
  exists acts, parse_expression (text t) = COk acts /\ (isimple (tr t) -> forall n m, In (ASwap2 n m) acts -> n <= 2).
Proof.
  intros leaf t H L. pose proof (expression_text (fun _ : leaf => tt) (fun _ => tt) (fun _ _ _ => tt) (fun _ _ _ => tt) unit_lawful t H L) as R.
  assert (T : forall v w : unit, v = w) by (intros [] []; reflexivity).
  destruct (parse_expression (text t)) as [a| |]; [|contradiction|contradiction].
  exists a. split; [reflexivity|]. apply R. now right.
Qed.
Theorem c32_accepted : forall leaf (t : tree leaf), shaped t -> (length (text t) <= 255)%nat ->
  exists acts, parse_expression (text t) = COk acts.
Proof. intros leaf t H L. destruct (unit_run leaf t H L) as (a & E & _); eauto. Qed.

(* ---------------------------------------------------------------- and has the value of its tree *)
(* Run on any stack the code leaves that stack with the value of the tree on top.
   Missing: code with a SwapTwoToTop whose first operand is above 2, see the refutations; operands
   whose evaluation changes other operands. *)
Theorem c32_expression_value_partial : forall leaf V (val hash : leaf -> V) un bin (t : tree leaf) acts,
  lawful bin -> shaped t -> (length (text t) <= 255)%nat ->
  parse_expression (text t) = COk acts -> (forall n m, In (ASwap2 n m) acts -> n <= 2) ->
  exists v, value val hash un bin t = Some v /\
  forall st, performs val hash un bin acts st = Some (v :: st).
Proof.
  intros leaf V val hash un bin t acts Lw H L E N. pose proof (expression_text val hash un bin Lw t H L) as R. rewrite E in R.
  destruct (R (or_introl N)) as [(v & R1 & R2) _]. exists v. split; [exact R1|]. intros st.
  exact (performs_below _ _ _ _ _ _ _ _ _ st R2).
Qed.

(* no infix operator has two operands that are themselves compound *)
Fixpoint simple {leaf} (t : tree leaf) : Prop :=
  match t with
  | Atom _ => True
  | Prefix _ t | Postfix _ _ t => simple t
  | Infix _ l r => ((exists x, l = Atom x) \/ (exists x, r = Atom x)) /\ simple l /\ simple r
  end.
Lemma simple_isimple : forall leaf (t : tree leaf), simple t -> isimple (tr t).
Proof.
  intros leaf; induction t as [l|s t IH|s x t IH|s l IHl r IHr]; cbn [simple tr isimple]; auto.
  intros (D & Sl & Sr). split; [|split; auto]. destruct D as [(x & ->)|(x & ->)]; [left|right]; exact I.
Qed.
Theorem c32_simple_operands : forall leaf V (val hash : leaf -> V) un bin (t : tree leaf),
  lawful bin -> shaped t -> simple t -> (length (text t) <= 255)%nat ->
  exists acts v, parse_expression (text t) = COk acts /\ value val hash un bin t = Some v /\
  forall st, performs val hash un bin acts st = Some (v :: st).
Proof.
  intros leaf V val hash un bin t Lw H Hs L. destruct (unit_run leaf t H L) as (a & E & N). specialize (N (simple_isimple _ _ Hs)).
  destruct (c32_expression_value_partial leaf V val hash un bin t a Lw H L E N) as (v & R1 & R2). eauto.
Qed.

(* ---------------------------------------------------------------- examples *)
(* integers: an operand is its value *)
Definition zb (b : bool) : Z := if b then 1 else 0.
Definition zbin (c : opcode) (x y : Z) : Z :=
  match c with
  | O_BinaryMultiplication => x * y | O_BinaryAddition => x + y | O_BinarySubtraction => x - y
  | O_CompareEQ => zb (x =? y) | O_CompareNE => zb (negb (x =? y))
  | O_CompareLT => zb (x <? y) | O_CompareGT => zb (y <? x) | O_CompareLE => zb (x <=? y) | O_CompareGE => zb (y <=? x)
  | O_LogicalAnd => zb (negb (x =? 0) && negb (y =? 0)) | O_LogicalOr => zb (negb (x =? 0) || negb (y =? 0))
  | O_BinaryOr => Z.lor x y | O_BinaryAnd => Z.land x y | O_BinaryXOR => Z.lxor x y
  | O_Assign => 2 * x + y     (* stands for any operator that tells its operands apart *)
  | _ => 0
  end.
Definition zun (c : opcode) (x : list Z) (y : Z) : Z := match c with O_Negate => - y | O_Index => y + 10 * hd 0 x | _ => y end.
Example zbin_lawful : lawful zbin.
Proof.
  split.
  - intros c x y H. cbn in H.
    repeat (destruct H as [<-|H]; [cbn; try lia; try (rewrite Z.eqb_sym; reflexivity); try (rewrite andb_comm; reflexivity);
      try (rewrite orb_comm; reflexivity); try apply Z.lor_comm; try apply Z.land_comm; try apply Z.lxor_comm|]). destruct H.
  - intros c d x y H. cbn in H. repeat (destruct H as [[= <- <-]|H]; [reflexivity|]). destruct H.
Qed.
Definition zrun (t : tree Z) : option (list Z) :=
  match parse_expression (text t) with COk a => performs (fun z => z) (fun z => z) zun zbin a [] | _ => None end.
Definition zval (t : tree Z) : option Z := value (fun z => z) (fun z => z) zun zbin t.
Definition a' (z : Z) : tree Z := Atom z.
(* 7 + 2 * 3 - 4 *)
Definition ex_chain := Infix "-" (Infix "+" (a' 7) (Infix "*" (a' 2) (a' 3))) (a' 4).
Example c32_ex_chain : shaped ex_chain /\ simple ex_chain /\ zval ex_chain = Some 9 /\ zrun ex_chain = Some [9].
Proof. repeat split; cbn; try lia; eauto; try reflexivity; try (intros; discriminate). Qed.
(* x = y = z groups from the right *)
Definition ex_assign := Infix "=" (a' 5) (Infix "=" (a' 3) (a' 1)).
Example c32_ex_assign : shaped ex_assign /\ simple ex_assign /\ zval ex_assign = Some 17 /\ zrun ex_assign = Some [17].
Proof. repeat split; cbn; try lia; eauto; try reflexivity; try (intros; discriminate). Qed.
(* - a * b[2] < c - 1 *)
Definition ex_unary := Infix "<" (Infix "*" (Prefix "-" (a' 5)) (Postfix "@[]" [2] (a' 3))) (Infix "-" (a' 9) (a' 1)).
Example c32_ex_unary : shaped ex_unary /\ zval ex_unary = Some 1 /\ zrun ex_unary = Some [1].
Proof. repeat split; cbn; try lia; eauto; try reflexivity; try (intros; discriminate); discriminate. Qed.
Example c32_ex_unary_code : forall acts, parse_expression (text ex_unary) = COk acts -> forall n m, In (ASwap2 n m) acts -> n <= 2.
Proof. intros acts E n m. vm_compute in E. injection E as <-. cbn. intros H. repeat (destruct H as [H|H]; [try discriminate H; injection H; lia|]). destruct H. Qed.

(* ---------------------------------------------------------------- where it goes wrong *)
(* a*b < c+d && e*f is computed as (a*b < e*f) && (c+d): 3*1 < 2+3 && 2*1 is false *)
Definition bad_and {leaf} (x : Z -> leaf) : tree leaf :=
  Infix "&&" (Infix "<" (Infix "*" (Atom (x 1)) (Atom (x 2))) (Infix "+" (Atom (x 3)) (Atom (x 4)))) (Infix "*" (Atom (x 5)) (Atom (x 6))).
(* a*b + c*d + e*f - g*h is computed as a*b + c*d + g*h - e*f *)
Definition bad_minus {leaf} (x : Z -> leaf) : tree leaf :=
  Infix "-" (Infix "+" (Infix "+" (Infix "*" (Atom (x 1)) (Atom (x 2))) (Infix "*" (Atom (x 3)) (Atom (x 4)))) (Infix "*" (Atom (x 5)) (Atom (x 6))))
            (Infix "*" (Atom (x 7)) (Atom (x 8))).
Definition sample (l : list Z) (i : Z) : Z := nth (Z.to_nat (i - 1)) l 0.
Theorem c32_and_refuted : exists t : tree Z, shaped t /\ zval t = Some 1 /\ zrun t = Some [0].
Proof.
  exists (bad_and (sample [3; 1; 2; 3; 2; 1])).
  repeat split; cbn; try lia; try reflexivity; intros; discriminate.
Qed.
Theorem c32_minus_refuted : exists t : tree Z, shaped t /\ zval t = Some 5 /\ zrun t = Some [1].
Proof.
  exists (bad_minus (sample [1; 1; 1; 2; 3; 1; 1; 1])).
  repeat split; cbn; try lia; try reflexivity; intros; discriminate.
Qed.

(* the same two expressions as bytes on the machine of VmModel: globals 1.. are set, the value of the
   expression goes to global 0 *)
Definition set_globals (l : list Z) : list Z :=
  flat_map (fun p => [byte_of O_LiteralInt8; snd p; byte_of O_AssignToGlobalAndPop; fst p]) (combine (map Z.of_nat (seq 1 (length l))) l).
Definition gvar (n : Z) : term := mkTerm 0 (OVar SG n).
Definition px_expr (l : list Z) (t : tree term) : option (OpsModel.value * nat) :=
  match expression_code (text t) with
  | COk b => px_shown (px_run (set_globals l ++ b_all b ++ [byte_of O_AssignToGlobalAndPop; 0; byte_of O_LiteralZero; byte_of O_GlobalStop; byte_of O_Stop]) [] 90 px_start)
  | _ => None
  end.
Example c32_ex_bytes : px_expr [7; 2; 3; 4] (Infix "-" (Infix "+" (Atom (gvar 1)) (Infix "*" (Atom (gvar 2)) (Atom (gvar 3)))) (Atom (gvar 4))) = Some (VInt 9, 1%nat).
Proof. vm_compute. reflexivity. Qed.
Theorem c32_bytes_refuted :
  px_expr [3; 1; 2; 3; 2; 1] (bad_and gvar) = Some (VInt 0, 1%nat) /\      (* 3*1 < 2+3 && 2*1 *)
  px_expr [1; 1; 1; 2; 3; 1; 1; 1] (bad_minus gvar) = Some (VInt 1, 1%nat). (* 1*1 + 1*2 + 3*1 - 1*1 *)
Proof. split; vm_compute; reflexivity. Qed.

Print Assumptions c32_accepted.
Print Assumptions c32_expression_value_partial.
Print Assumptions c32_simple_operands.
Print Assumptions c32_and_refuted.
Print Assumptions c32_minus_refuted.
Print Assumptions c32_bytes_refuted.
