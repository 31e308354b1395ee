(* What an arithmetic expression over integers is worth, independently of the compiler and of the
   machine: 32-bit two's complement integers, the operators as in C (but both sides of && and || are
   evaluated), None where C++ leaves the result undefined or the operator is not one on integers. *)
From Coq Require Import String.
From Verif Require Import Base OpsModel VmModel VmSpec EmitModel ExprModel ExprEmit ExprSpec ExprNest FuseSpec.
Open Scope string_scope. Open Scope list_scope. Open Scope Z_scope.

Definition int_min : Z := -2147483648.
Definition truth (b : bool) : option Z := Some (if b then 1 else 0).
(* [trap]: the machine is built to stop at a division by zero; otherwise that gives 0 *)
Definition divide (trap : bool) (x y : Z) : option Z :=
  if y =? 0 then (if trap then None else Some 0)
  else if (x =? int_min) && (y =? -1) then None else Some (Z.quot x y).
Definition remainder (x y : Z) : option Z :=
  if (y =? 0) || ((x =? int_min) && (y =? -1)) then None else Some (Z.rem x y).
Definition shift (f : Z -> Z -> Z) (x y : Z) : option Z :=
  if (0 <=? y) && (y <? 32) then Some (f x y) else None.
Definition int_infixes (trap : bool) : list (string * (Z -> Z -> option Z)) :=
  [("*", fun x y => Some (s32 (x * y))); ("/", divide trap); ("+", fun x y => Some (s32 (x + y)));
   ("-", fun x y => Some (s32 (x - y))); ("%", remainder);
   (">>", shift (fun x y => x / 2 ^ y)); ("<<", shift (fun x y => s32 (x * 2 ^ y)));
   ("<", fun x y => truth (x <? y)); ("<=", fun x y => truth (x <=? y));
   (">", fun x y => truth (y <? x)); (">=", fun x y => truth (y <=? x));
   ("==", fun x y => truth (x =? y)); ("!=", fun x y => truth (negb (x =? y)));
   ("&", fun x y => Some (Z.land x y)); ("^", fun x y => Some (Z.lxor x y)); ("|", fun x y => Some (Z.lor x y));
   ("&&", fun x y => truth (negb (x =? 0) && negb (y =? 0))); ("||", fun x y => truth (negb (x =? 0) || negb (y =? 0)))].
Definition int_prefixes : list (string * (Z -> option Z)) :=
  [("-", fun x => Some (s32 (- x))); ("!", fun x => truth (x =? 0)); ("~", fun x => Some (- x - 1))].

Section Value.
Context {leaf : Type} (trap : bool) (env : leaf -> option Z).
Fixpoint int_value (t : tree leaf) : option Z :=
  match t with
  | Atom x => env x
  | Prefix s t => match look int_prefixes s, int_value t with Some f, Some x => f x | _, _ => None end
  | Postfix _ _ _ => None
  | Infix s l r => match look (int_infixes trap) s, int_value l, int_value r with
                   | Some f, Some x, Some y => f x y | _, _, _ => None end
  end.
End Value.
(* an operand in the frame at [fb] of [fw] slots: a literal, a variable that holds an integer, or an
   expression in parentheses *)
Definition variable_int (m : mem) (fb fw : nat) (q : space) (n : Z) : option Z :=
  if (0 <=? n) && (n <? 256) && (match q with SL => (Z.to_nat n <? fw)%nat | SG => true end) then
    match mv m (vloc fb q (Z.to_nat n)) with
    | VInt u => if (0 <=? u) && (u <? 4294967296) then Some (s32 u) else None
    | _ => None
    end
  else None.
Fixpoint operand_int (trap : bool) (m : mem) (fb fw : nat) (e : expr) : option Z :=
  match e with
  | EInt z => if (int_min <=? z) && (z <=? 2147483647) then Some z else None
  | EVar q n => variable_int m fb fw q n
  | EPar t => int_value trap (operand_int trap m fb fw) t
  end.
Definition expression_int (trap : bool) (m : mem) (fb fw : nat) (t : tree expr) : option Z :=
  int_value trap (operand_int trap m fb fw) t.

(* literals and variables in the expression *)
Fixpoint width (e : expr) : nat := match e with EPar t => tree_sum width t | _ => 1 end.
Fixpoint operands {leaf} (t : tree leaf) : list leaf :=
  match t with Atom x => [x] | Prefix _ t | Postfix _ _ t => operands t | Infix _ l r => operands l ++ operands r end.

(* - applied to the literal -128 or -32768: its negation does not fit in the literal's width *)
Fixpoint edge_literal (e : expr) : Prop :=
  match e with
  | EInt z => z = -128 \/ z = -32768
  | EPar (Atom e) => edge_literal e
  | _ => False
  end.
Fixpoint negates_edge (t : tree expr) : Prop :=
  match t with
  | Atom _ => False
  | Prefix s t => match t with Atom e => s = "-" /\ edge_literal e | _ => negates_edge t end
  | Postfix _ _ t => negates_edge t
  | Infix _ l r => negates_edge l \/ negates_edge r
  end.
(* what the resolution of expressions (C32) and the keyhole optimizer (C33) get right, at every level of
   parentheses: the tree is the one that precedence gives to its text, the operands that are swapped
   are the two on top, no literal is negated that does not fit *)
Inductive fine : tree expr -> Prop :=
| fine_intro t : shaped t -> (length (text t) <= 255)%nat ->
    (forall acts, parse_expression (text t) = COk acts -> forall n m, In (ASwap2 n m) acts -> n <= 2) ->
    ~ negates_edge t -> (forall u, In (EPar u) (operands t) -> fine u) -> fine t.

(* The compiler keeps the opcodes it emitted last, to fuse them with the next one.  A block that was
   fused into one instruction has none left; appended to other code, the opcodes of that code seem to
   be the last ones.  This is the same compiler, that forgets them: it keeps the opcodes from before
   the block if the last instruction of the block is an operator, or the block is one literal or
   variable. *)
Definition operand_size (o : opcode) : Z :=
  match o with
  | O_LiteralZero => 1
  | O_LiteralInt8 | O_LoadFromLocal | O_LoadFromGlobal => 2
  | O_LiteralInt16 => 3
  | O_LiteralInt32 | O_LiteralFloat => 5
  | _ => 0
  end.
Definition accounted (c : bcode) : bool :=
  match b_ops c with
  | [] => false
  | o :: r => negb (looks_below o) || ((match r with [] => true | _ => false end) && (lenZ (b_all c) =? operand_size o))
  end.
Definition append_honest (b c : bcode) : cres bcode :=
  match b_all c, b_ops c with
  | [_], [O_LiteralZero] => append_bytecode b c
  | [_], _ => CErr E_compiler_panic
  | _, _ => b1 <~ append_bytecode b c ;; COk (if accounted c then b1 else set_code b1 (b_all b1) [])
  end.
Definition compile_honest (t : tree expr) : cres bcode := block append_honest (S (tree_max depth t)) t.
(* the compiler's opcodes did not mislead it *)
Definition not_misled (t : tree expr) : Prop :=
  exists b h, compile t = COk b /\ compile_honest t = COk h /\ b_all h = b_all b.

(* a value on the stack that is the integer, or a reference to a variable that holds it *)
Definition holds (m : mem) (v : OpsModel.value) (z : Z) : Prop := v = VInt (u32 z) \/ exists x, v = VRef x /\ mv m x = VInt (u32 z).
