(* Expressions with names, their tokens, and the variables that the names denote (C59), independently of the
   parser.  The spelling of tokens, and what may stand between them, is TokenSpec. *)
From Coq Require Import String.
From Verif Require Import Base HashModel OpsModel VmModel EmitModel ExprModel ExprSpec ExprNest EvalSpec TokenModel TokenSpec.
Open Scope list_scope. Open Scope Z_scope.

(* operands: an integer, x, ::x, an expression in parentheses *)
Inductive sexpr := SInt (z : Z) | SName (n : list Z) | SGlobal (n : list Z) | SPar (t : tree sexpr).

(* ---------------------------------------------------------------- tokens *)
Definition sign (s : string) : tok := mkTok (TokenModel.text s) NoVal false.
(* an operator is one token, a cast three *)
Definition prefix_tokens (s : string) : list tok :=
  if String.eqb s "@i" then [sign "("; sign "int"; sign ")"]
  else if String.eqb s "@f" then [sign "("; sign "float"; sign ")"]
  else [sign s].
Inductive tree_tokens {leaf} (P : leaf -> list tok -> Prop) : tree leaf -> list tok -> Prop :=
| TT_atom : forall x l, P x l -> tree_tokens P (Atom x) l
| TT_prefix : forall s t l, In s (map fst prefixes) -> tree_tokens P t l -> tree_tokens P (Prefix s t) (prefix_tokens s ++ l)
| TT_postfix : forall s t l, In s ["++"; "--"; "._count"; "._hash"]%string -> tree_tokens P t l -> tree_tokens P (Postfix s [] t) (l ++ [sign s])
| TT_infix : forall s t u l r, In s (map fst infixes) -> tree_tokens P t l -> tree_tokens P u r -> tree_tokens P (Infix s t u) (l ++ sign s :: r).
(* A literal may be spelled in any way (decimal, hexadecimal, a character, a constant, ...): the token has its value. *)
Inductive operand_tokens : sexpr -> list tok -> Prop :=
| OT_int : forall w v quoted, operand_tokens (SInt (s32 v)) [mkTok w (IntVal v) quoted]
| OT_name : forall n, operand_tokens (SName n) [mkTok n NoVal false]
| OT_global : forall n, operand_tokens (SGlobal n) [mkTok (58 :: 58 :: n) NoVal false]
| OT_par : forall t l, tree_tokens operand_tokens t l -> operand_tokens (SPar t) (sign "(" :: l ++ [sign ")"]).
Definition tokens : tree sexpr -> list tok -> Prop := tree_tokens operand_tokens.
(* what may follow an expression *)
Definition closers : list string := [";"; ")"; "}"; ","; "]"]%string.

(* ---------------------------------------------------------------- names *)
Definition words_of_the_language : list (list Z) := map TokenModel.text
  ["break"; "blank"; "case"; "continue"; "default"; "do"; "else"; "enum"; "export"; "false"; "float"; "for"; "function"; "goto"; "if";
   "int"; "new"; "null"; "return"; "struct"; "switch"; "true"; "unit"; "var"; "while"]%string.
Definition identifier (n : list Z) : Prop :=
  exists c s, n = c :: s /\ (letter c \/ c = 95) /\ Forall word s /\ ~ In n words_of_the_language.

(* the first place of a name in a list *)
Inductive place_of (n : list Z) : list (list Z) -> Z -> Prop :=
| PL_here : forall l, place_of n (n :: l) 0
| PL_later : forall x l i, x <> n -> place_of n l i -> place_of n (x :: l) (1 + i).
(* [locals]: the parameters and locals of the function, None outside of functions *)
Inductive denotes_variable (locals : option (list (list Z))) (globals : list (list Z)) : sexpr -> space -> Z -> Prop :=
| V_local : forall ls n i, locals = Some ls -> place_of n ls i -> denotes_variable locals globals (SName n) SL i
| V_global : forall n i, (forall ls, locals = Some ls -> ~ In n ls) -> place_of n globals i -> denotes_variable locals globals (SName n) SG i
| V_qualified : forall n i, place_of n globals i -> denotes_variable locals globals (SGlobal n) SG i.
Inductive tree_rel {A B} (R : A -> B -> Prop) : tree A -> tree B -> Prop :=
| TR_atom : forall x y, R x y -> tree_rel R (Atom x) (Atom y)
| TR_prefix : forall s t u, tree_rel R t u -> tree_rel R (Prefix s t) (Prefix s u)
| TR_postfix : forall s t u, tree_rel R t u -> tree_rel R (Postfix s [] t) (Postfix s [] u)
| TR_infix : forall s t u t' u', tree_rel R t t' -> tree_rel R u u' -> tree_rel R (Infix s t u) (Infix s t' u').
Inductive operand_denotes (locals : option (list (list Z))) (globals : list (list Z)) : sexpr -> expr -> Prop :=
| D_int : forall z, operand_denotes locals globals (SInt z) (EInt z)
| D_variable : forall x q i, denotes_variable locals globals x q i ->
    (forall n, x = SName n \/ x = SGlobal n -> identifier n) -> operand_denotes locals globals x (EVar q i)
| D_par : forall t u, tree_rel (operand_denotes locals globals) t u -> operand_denotes locals globals (SPar t) (EPar u).
(* the expression with the variables that its names denote *)
Definition denotes (locals : option (list (list Z))) (globals : list (list Z)) : tree sexpr -> tree expr -> Prop :=
  tree_rel (operand_denotes locals globals).

(* Names are compared by a hash of 32 bits: no two of these have the same one, with or without :: before them. *)
Definition no_clash (hash : list Z -> Z) (l : list (list Z)) : Prop :=
  forall x y, In x l -> In y l -> (hash x = hash y -> x = y) /\ (hash (58 :: 58 :: x) = hash (58 :: 58 :: y) -> x = y).
(* everything in parentheses is compiled too *)
Inductive compiles : tree expr -> Prop :=
| compiles_intro : forall t b, compile t = COk b ->
    (forall u, In (EPar u) (EvalSpec.operands t) -> compiles u) ->
    compiles t.
