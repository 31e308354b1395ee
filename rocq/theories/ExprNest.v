(* Expressions with parentheses (cc/expression.cpp:361-438): what is between the parentheses is parsed
   and compiled as an expression of its own, and its code becomes an operand.  Simplifications: as in
   ExprEmit, labels are already looked up and literals are integers; the operands of . are no
   parentheses. *)
From Coq Require Import String.
From Verif Require Import Base HashModel OpsModel VmModel EmitModel ExprModel ExprEmit ExprSpec.
Open Scope string_scope. Open Scope list_scope. Open Scope Z_scope.

Inductive expr :=
| EInt (z : Z)
| EVar (s : space) (n : Z)
| EPar (t : tree expr).

(* the largest, and the sum, of a number over the operands of a tree *)
Section Fold.
Context {leaf : Type} (f : leaf -> nat).
Fixpoint tree_max (t : tree leaf) : nat :=
  match t with Atom l => f l | Prefix _ t | Postfix _ _ t => tree_max t | Infix _ l r => Nat.max (tree_max l) (tree_max r) end.
Fixpoint tree_sum (t : tree leaf) : nat :=
  match t with Atom l => f l | Prefix _ t | Postfix _ _ t => tree_sum t | Infix _ l r => tree_sum l + tree_sum r end.
End Fold.
(* how deep the parentheses are *)
Fixpoint depth (e : expr) : nat := match e with EPar t => S (tree_max depth t) | _ => 0 end.

(* cc.cpp:984-1033, expression.cpp:361-438 *)
Definition simple_term (e : expr) : term :=
  mkTerm 0 (match e with EInt z => OInt z | EVar s n => OVar s n | EPar _ => OInt 0 end).
Definition term_action (a : action expr) : action term :=
  match a with
  | ALoad e => ALoad (simple_term e)
  | AHash _ => AHash KNone
  | ASwap n => ASwap n
  | ASwap2 n m => ASwap2 n m
  | AOp q x => AOp q (map simple_term x)
  | AAlt c => AAlt c
  end.
Section Emit.
Variable append : bcode -> bcode -> cres bcode.
Definition emit_nested (block : tree expr -> cres bcode) (a : action expr) (b : bcode) : cres bcode :=
  match a with
  | ALoad (EPar t) => c <~ block t ;; append b c
  | _ => emit_action (term_action a) b
  end.
Fixpoint emit_all_nested (block : tree expr -> cres bcode) (l : list (action expr)) (b : bcode) : cres bcode :=
  match l with [] => COk b | a :: r => b1 <~ emit_nested block a b ;; emit_all_nested block r b1 end.
Fixpoint block (fuel : nat) (t : tree expr) : cres bcode :=
  match fuel with
  | O => CErr E_fuel
  | S n => a <~ parse_expression (text t) ;; emit_all_nested (block n) a empty_bc
  end.
End Emit.
(* the fuel is enough for the parentheses there are *)
Definition compile (t : tree expr) : cres bcode := block append_bytecode (S (tree_max depth t)) t.
