(* How programs are spelled (C60), independently of the parser: the tokens of the source text of a program
   whose expressions are given by their code (CcModel.tok, CtlSpec, C35, C57), with the variables that are
   declared on the way. *)
From Coq Require Import String.
From Verif Require Import Base HashModel OpsModel VmModel EmitModel ExprModel ExprSpec ExprNest EvalSpec.
From Verif Require Import CcModel.
From Verif Require Import TokenModel TokenSpec ParseModel ParseSpec.
From Verif Require ProgSpec.
Open Scope list_scope. Open Scope Z_scope.

(* a name is known by its hash, a global by the hash of the name with :: before it *)
Definition qualified (n : list Z) : Z := name_hash (58 :: 58 :: n).
Definition word_token (n : list Z) : tok := mkTok n NoVal false.
Definition word_or_sign : list (CcModel.tok * string) :=
  [(T_semi, ";"); (T_lparen, "("); (T_rparen, ")"); (T_comma, ","); (T_return, "return"); (T_if, "if"); (T_else, "else");
   (T_while, "while"); (T_do, "do"); (T_for, "for"); (T_switch, "switch"); (T_break, "break"); (T_continue, "continue")]%string.
Fixpoint comma_names (l : list (list Z)) : list tok :=
  match l with [] => [] | [n] => [word_token n] | n :: r => word_token n :: sign "," :: comma_names r end.
(* x = e *)
Definition assignment (q : space) (i : Z) (e : tree expr) : tree expr := Infix "=" (Atom (EVar q i)) e.

(* The arguments of a call: expressions whose names are declared, compiled to code that does not end in an
   index; commas between them. *)
Definition argument (locals : option (list (list Z))) (g : list (list Z)) (e : tree expr) (ts : list tok) : Prop :=
  exists t c, tokens t ts /\ denotes locals g t e /\ compiles e /\ compile e = COk c /\ ends_in_index c = false.
Fixpoint commas (l : list (list tok)) : list tok :=
  match l with [] => [] | [ts] => ts | ts :: r => ts ++ sign "," :: commas r end.
(* what the result of a call is assigned to: nothing, or a variable *)
Inductive target_tokens (locals : option (list (list Z))) (g : list (list Z)) : option (space * Z) -> list tok -> Prop :=
| TG_none : target_tokens locals g None []
| TG_variable : forall x q i l, operand_denotes locals g x (EVar q i) -> operand_tokens x l -> target_tokens locals g (Some (q, i)) (l ++ [sign "="]).

Section Spells.
Variable names : list (list Z).       (* the names of the program *)
(* Where a text stands: the globals declared before it; None outside of functions, or the parameters and
   locals declared before it in its function and how many braces are open there. *)
Definition place := option (list (list Z) * nat).
Definition locals_of (f : place) : option (list (list Z)) := option_map fst f.
Definition braced (f : place) : place := option_map (fun '(ls, d) => (ls, S d)) f.
(* [spells g f l w g' us]: where the globals g are declared and in the place f, the program l is spelled by
   the tokens w.  In the end the globals g' are declared; us are the parameters and locals of the functions
   that end here. *)
Inductive spells : list (list Z) -> place -> list CcModel.tok -> list tok -> list (list Z) -> list (list (list Z)) -> Prop :=
| SP_end : forall g, spells g None [] [] g []
| SP_sign : forall g f k s l w g' us, In (k, s) word_or_sign -> spells g f l w g' us -> spells g f (k :: l) (sign s :: w) g' us
| SP_open : forall g f l w g' us, spells g (braced f) l w g' us -> spells g f (T_lbrace :: l) (sign "{" :: w) g' us
| SP_close : forall g f l w g' us, spells g f l w g' us -> spells g (braced f) (T_rbrace :: l) (sign "}" :: w) g' us
| SP_close_function : forall g ls l w g' us, spells g None l w g' us -> spells g (Some (ls, O)) (T_rbrace :: l) (sign "}" :: w) g' (ls :: us)
| SP_case : forall g f v t q l w g' us, spells g f l w g' us ->
    spells g f (T_case (u32 v) :: l) (sign "case" :: mkTok t (IntVal v) q :: sign ":" :: w) g' us
| SP_case_string : forall g f t l w g' us, spells g f l w g' us ->
    spells g f (T_case (name_hash t) :: l) (sign "case" :: mkTok t TextVal true :: sign ":" :: w) g' us
| SP_default : forall g f l w g' us, spells g f l w g' us -> spells g f (T_default :: l) (sign "default" :: sign ":" :: w) g' us
(* an expression whose names are declared *)
| SP_expression : forall g f t ts e b l w g' us, tokens t ts -> denotes (locals_of f) g t e -> compiles e -> compile e = COk b ->
    spells g f l w g' us -> spells g f (T_expr b :: l) (ts ++ w) g' us
(* n( arguments ) or x = n( arguments ), where n is not yield *)
| SP_call : forall g f to tt n args tss b l w g' us, target_tokens (locals_of f) g to tt -> identifier n -> name_hash n <> name_hash (TokenModel.text "yield") ->
    Forall2 (argument (locals_of f) g) args tss -> ProgSpec.compile_call_to to (name_hash n) args = COk b ->
    spells g f l w g' us -> spells g f (T_expr b :: l) (tt ++ word_token n :: sign "(" :: commas tss ++ sign ")" :: w) g' us
(* var x = e; where x is new: x is the next global, or the next local *)
| SP_var_global : forall g x t ts e b l w g' us, identifier x -> In x names -> ~ In x g ->
    tokens t ts -> denotes None g t e -> compiles e -> fine e -> looseness e <= 11 -> compile (assignment SG (lenZ g) e) = COk b ->
    spells (g ++ [x]) None l w g' us ->
    spells g None (T_expr b :: T_semi :: l) (sign "var" :: word_token x :: sign "=" :: ts ++ sign ";" :: w) g' us
| SP_var_local : forall g ls d x t ts e b l w g' us, identifier x -> In x names -> ~ In x ls ->
    tokens t ts -> denotes (Some ls) g t e -> compiles e -> fine e -> looseness e <= 11 -> compile (assignment SL (lenZ ls) e) = COk b ->
    spells g (Some (ls ++ [x], d)) l w g' us ->
    spells g (Some (ls, d)) (T_expr b :: T_semi :: l) (sign "var" :: word_token x :: sign "=" :: ts ++ sign ";" :: w) g' us
(* var x = n( arguments ); likewise *)
| SP_var_call_global : forall g x n args tss b l w g' us, identifier x -> In x names -> ~ In x g ->
    identifier n -> name_hash n <> name_hash (TokenModel.text "yield") -> Forall2 (argument None g) args tss -> ProgSpec.compile_call_to (Some (SG, lenZ g)) (name_hash n) args = COk b ->
    spells (g ++ [x]) None l w g' us ->
    spells g None (T_expr b :: T_semi :: l) (sign "var" :: word_token x :: sign "=" :: word_token n :: sign "(" :: commas tss ++ sign ")" :: sign ";" :: w) g' us
| SP_var_call_local : forall g ls d x n args tss b l w g' us, identifier x -> In x names -> ~ In x ls ->
    identifier n -> name_hash n <> name_hash (TokenModel.text "yield") -> Forall2 (argument (Some ls) g) args tss -> ProgSpec.compile_call_to (Some (SL, lenZ ls)) (name_hash n) args = COk b ->
    spells g (Some (ls ++ [x], d)) l w g' us ->
    spells g (Some (ls, d)) (T_expr b :: T_semi :: l) (sign "var" :: word_token x :: sign "=" :: word_token n :: sign "(" :: commas tss ++ sign ")" :: sign ";" :: w) g' us
(* function n( params ) { *)
| SP_function : forall g n params l w g' us, identifier n -> Forall identifier params -> NoDup params -> Forall (fun p => In p names) params ->
    spells g (Some (params, O)) l w g' us ->
    spells g None (T_function (name_hash n) (map name_hash params) :: T_lbrace :: l)
           (sign "function" :: word_token n :: sign "(" :: comma_names params ++ sign ")" :: sign "{" :: w) g' us.
End Spells.

(* Names are compared by hashes of 32 bits: no two different names of the program, with or without ::
   before them, have the same one. *)
Definition all_different (names : list (list Z)) : Prop :=
  no_clash name_hash names /\ forall x y, In x names -> In y names -> name_hash x <> name_hash (58 :: 58 :: y).
(* the same code, with other names in the space of the unit *)
Definition named_space (l : list Z) (b : bcode) : bcode := mkB (b_all b) (b_ops b) l (b_fns b) (b_objs b) (b_jumps b) (b_gotos b).
Definition named_unit (l : list Z) (u : cunit) : cunit := mkU (u_hash u) (u_args u) (u_export u) (named_space l (u_code u)).
(* as many { as } *)
Definition is_open (t : CcModel.tok) : bool := match t with T_lbrace => true | _ => false end.
Definition is_close (t : CcModel.tok) : bool := match t with T_rbrace => true | _ => false end.
Definition balanced (l : list CcModel.tok) : Prop := length (filter is_open l) = length (filter is_close l).
