(* What an expression means, independently of how it is resolved: a tree whose shape follows the
   precedence of the operators, and its value.  And a machine with a stack of values, on which the
   code of an expression runs. *)
From Coq Require Import String.
From Verif Require Import Base HashModel OpsModel VmModel EmitModel ExprModel.
Open Scope string_scope. Open Scope list_scope. Open Scope Z_scope.

Section Spec.
Context {leaf : Type}.

Inductive tree :=
| Atom (l : leaf)
| Prefix (s : string) (t : tree)
| Postfix (s : string) (x : list leaf) (t : tree)   (* t++, t[x] *)
| Infix (s : string) (l r : tree).

(* the text of a tree, without parentheses *)
Fixpoint text (t : tree) : list (item leaf) :=
  match t with
  | Atom l => [IAtom l]
  | Prefix s t => ISym s [] :: text t
  | Postfix s x t => text t ++ [ISym s x]
  | Infix s l r => text l ++ ISym s [] :: text r
  end.

(* the operators and the instructions that perform them *)
Definition prefixes : list (string * opcode) :=
  [("++", O_PreIncrement); ("--", O_PreDecrement); ("!", O_LogicalNot); ("~", O_BitwiseNOT); ("-", O_Negate);
   ("@i", O_ToInt); ("@f", O_ToFloat)].
Definition postfixes : list (string * opcode) :=
  [("++", O_PostIncrement); ("--", O_PostDecrement); ("@[]", O_Index); ("@init", O_InitArray);
   ("._count", O_CountOf); ("._hash", O_HashOf); ("._remove", O_Remove); ("._exists", O_HashEntryExists)].
(* infix operators: how loosely they bind, whether a chain of them groups from the left *)
Definition infixes : list (string * (Z * bool * opcode)) :=
  [(".", (1, true, O_HASH_PLACEHOLDER));
   ("*", (3, true, O_BinaryMultiplication)); ("/", (3, true, O_BinaryDivision));
   ("+", (4, true, O_BinaryAddition)); ("-", (4, true, O_BinarySubtraction)); ("%", (4, true, O_BinaryMod));
   (">>", (5, true, O_BinaryRightShift)); ("<<", (5, true, O_BinaryLeftShift));
   ("<", (6, true, O_CompareLT)); ("<=", (6, true, O_CompareLE)); (">", (6, true, O_CompareGT)); (">=", (6, true, O_CompareGE));
   ("==", (7, true, O_CompareEQ)); ("!=", (7, true, O_CompareNE));
   ("&", (8, true, O_BinaryAnd)); ("^", (8, true, O_BinaryXOR));
   ("|", (9, true, O_BinaryOr));
   ("&&", (10, true, O_LogicalAnd));
   ("||", (11, true, O_LogicalOr));
   ("+=", (12, true, O_AddAssign)); ("-=", (12, true, O_SubtractAssign)); ("%=", (12, true, O_ModAssign));
   ("*=", (12, true, O_MultiplyAssign)); ("/=", (12, true, O_DivideAssign)); ("|=", (12, true, O_ORAssign));
   ("&=", (12, true, O_ANDAssign)); ("^=", (12, true, O_XORAssign));
   ("=", (13, false, O_Assign)); (">>=", (13, false, O_RightShiftAssign)); ("<<=", (13, false, O_LeftShiftAssign))].
Definition look {A} (l : list (string * A)) (s : string) : option A :=
  option_map snd (find (fun p => String.eqb s (fst p)) l).

(* 0 operand, 1 postfix and member, 2 prefix, 3.. infix *)
Definition looseness (t : tree) : Z :=
  match t with
  | Atom _ => 0
  | Prefix _ _ => 2
  | Postfix _ _ _ => 1
  | Infix s _ _ => match look infixes s with Some (n, _, _) => n | None => 0 end
  end.
(* the tree is the one that precedence gives to its own text *)
Fixpoint shaped (t : tree) : Prop :=
  match t with
  | Atom _ => True
  | Prefix s t => look prefixes s <> None /\ looseness t <= 1 /\ shaped t
  | Postfix s _ t => look postfixes s <> None /\ looseness t <= 1 /\ shaped t
  | Infix s l r =>
    shaped l /\ shaped r /\
    (s = "." -> exists x, r = Atom x) /\
    match look infixes s with
    | Some (n, true, _) => looseness l <= n /\ looseness r < n
    | Some (n, false, _) => looseness l < n /\ looseness r <= n
    | None => False
    end
  end.

(* values *)
Context {V : Type} (val hash : leaf -> V) (un : opcode -> list leaf -> V -> V) (bin : opcode -> V -> V -> V).
Definition app1 (o : option opcode) (x : list leaf) (v : option V) : option V :=
  match o, v with Some c, Some v => Some (un c x v) | _, _ => None end.
Definition app2 (o : option opcode) (v w : option V) : option V :=
  match o, v, w with Some c, Some v, Some w => Some (bin c v w) | _, _, _ => None end.
Fixpoint value (t : tree) : option V :=
  match t with
  | Atom l => Some (val l)
  | Prefix s t => app1 (look prefixes s) [] (value t)
  | Postfix s x t => app1 (look postfixes s) x (value t)
  | Infix s l r =>
    app2 (option_map snd (look infixes s)) (value l)
         (if String.eqb s "." then match r with Atom x => Some (hash x) | _ => None end else value r)
  end.

(* operators whose operands may be exchanged, and pairs that mirror one another *)
Definition commuting : list opcode :=
  [O_CompareEQ; O_CompareNE; O_LogicalAnd; O_LogicalOr; O_BinaryMultiplication; O_BinaryOr; O_BinaryAnd; O_BinaryXOR].
Definition mirrored : list (opcode * opcode) :=
  [(O_CompareLT, O_CompareGT); (O_CompareGT, O_CompareLT); (O_CompareLE, O_CompareGE); (O_CompareGE, O_CompareLE)].
Definition lawful : Prop :=
  (forall c x y, In c commuting -> bin c x y = bin c y x) /\
  (forall c d x y, In (c, d) mirrored -> bin c x y = bin d y x).

(* the machine: top of the stack first; an infix instruction has its left operand on top *)
Definition exchange (i j : nat) (st : list V) : option (list V) :=
  match nth_error st i, nth_error st j with
  | Some x, Some y => Some (Base.upd (Base.upd st i y) j x)
  | _, _ => None
  end.
Definition perform (a : action leaf) (st : list V) : option (list V) :=
  match a, st with
  | ALoad l, _ => Some (val l :: st)
  | AHash (KLeaf l), _ => Some (hash l :: st)
  | AHash _, _ => None
  | ASwap n, _ => if n <? 1 then None else exchange 0 (Z.to_nat (n - 1)) st
  | ASwap2 n m, _ => if (n <? 1) || (m <? 1) then None
                     else match exchange 0 (Z.to_nat (n - 1)) st with Some s => exchange 1 (Z.to_nat (m - 1)) s | None => None end
  | AOp q x, v :: r =>
    match o_type q with
    | Pre | Post => Some (un (o_code q) x v :: r)
    | _ => match r with w :: r => Some (bin (o_code q) v w :: r) | [] => None end
    end
  | AAlt c, v :: w :: r => Some (bin c v w :: r)
  | _, _ => None
  end.
Fixpoint performs (l : list (action leaf)) (st : list V) : option (list V) :=
  match l with
  | [] => Some st
  | a :: l => match perform a st with Some s => performs l s | None => None end
  end.
End Spec.
Arguments tree : clear implicits.
