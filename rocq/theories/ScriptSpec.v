(* How the source file of a program over integers is written (C61): which tokens say a statement of ProgSpec,
   and which variable of the program a name is.  Independent of the compiler. *)
From Coq Require Import String.
From Verif Require Import Base HashModel OpsModel VmModel EmitModel ExprModel ExprSpec ExprNest EvalSpec ProgSpec.
From Verif Require Import CcModel LinkModel LinkSpec.
From Verif Require Import TokenModel TokenSpec ParseModel ParseSpec TextModel TextSpec.
From Verif Require CtlSpec CtlSem.
Open Scope list_scope. Open Scope Z_scope.

(* the tokens of an expression whose names are declared: the globals g, and in a function its parameters
   and locals f *)
Definition says (g : list (list Z)) (f : option (list (list Z))) (e : tree expr) (ts : list tok) : Prop :=
  exists t, tokens t ts /\ denotes f g t e /\ compiles e.
(* x = e, x += e, ++x, ... with commas between them *)
Inductive settings_say (g : list (list Z)) (f : option (list (list Z))) : list setting -> list tok -> Prop :=
| SS_none : settings_say g f [] []
| SS_one : forall a ts, says g f (setting_tree a) ts -> settings_say g f [a] ts
| SS_more : forall a b l ts w, says g f (setting_tree a) ts -> settings_say g f (b :: l) w -> settings_say g f (a :: b :: l) (ts ++ sign "," :: w).
Definition option_says (g : list (list Z)) (f : option (list (list Z))) (e : option (tree expr)) (ts : list tok) : Prop :=
  match e with Some e => says g f e ts | None => ts = [] end.

Section Reads.
Variable names : list (list Z).       (* the names of the program *)
(* [statement_says g f s w g' f']: where the globals g and, in a function, the parameters and locals f are
   declared, the tokens w say s; afterwards g' and f' are declared *)
Inductive statement_says : list (list Z) -> option (list (list Z)) -> prog -> list tok -> list (list Z) -> option (list (list Z)) -> Prop :=
| TS_nothing : forall g f, statement_says g f PSkip [] g f
| TS_sequence : forall g f a b v w g1 f1 g2 f2, statement_says g f a v g1 f1 -> statement_says g1 f1 b w g2 f2 ->
    statement_says g f (PSeq a b) (v ++ w) g2 f2
| TS_set : forall g f a ts, says g f (setting_tree a) ts -> statement_says g f (PSet a) (ts ++ [sign ";"]) g f
(* var x = e; declares the next global, or the next local of the function *)
| TS_var_global : forall g x e ts, identifier x -> In x names -> ~ In x g -> says g None e ts ->
    statement_says g None (PSet (Sets SG (lenZ g) e)) (sign "var" :: word_token x :: sign "=" :: ts ++ [sign ";"]) (g ++ [x]) None
| TS_var_local : forall g ls x e ts, identifier x -> In x names -> ~ In x ls -> says g (Some ls) e ts ->
    statement_says g (Some ls) (PSet (Sets SL (lenZ ls) e)) (sign "var" :: word_token x :: sign "=" :: ts ++ [sign ";"]) g (Some (ls ++ [x]))
(* n( arguments ); and x = n( arguments ); *)
| TS_call : forall g f to tt n args tss, target_tokens f g to tt -> identifier n -> name_hash n <> name_hash (TokenModel.text "yield") -> Forall2 (argument f g) args tss ->
    statement_says g f (PCall to (name_hash n) args) (tt ++ word_token n :: sign "(" :: commas tss ++ [sign ")"; sign ";"]) g f
(* var x = n( arguments ); *)
| TS_var_call_global : forall g x n args tss, identifier x -> In x names -> ~ In x g ->
    identifier n -> name_hash n <> name_hash (TokenModel.text "yield") -> Forall2 (argument None g) args tss ->
    statement_says g None (PCall (Some (SG, lenZ g)) (name_hash n) args)
      (sign "var" :: word_token x :: sign "=" :: word_token n :: sign "(" :: commas tss ++ [sign ")"; sign ";"]) (g ++ [x]) None
| TS_var_call_local : forall g ls x n args tss, identifier x -> In x names -> ~ In x ls ->
    identifier n -> name_hash n <> name_hash (TokenModel.text "yield") -> Forall2 (argument (Some ls) g) args tss ->
    statement_says g (Some ls) (PCall (Some (SL, lenZ ls)) (name_hash n) args)
      (sign "var" :: word_token x :: sign "=" :: word_token n :: sign "(" :: commas tss ++ [sign ")"; sign ";"]) g (Some (ls ++ [x]))
| TS_if : forall g f c s ts w g1 f1, says g f c ts -> statement_says g f s w g1 f1 ->
    statement_says g f (PIf c s) (sign "if" :: sign "(" :: ts ++ sign ")" :: w) g1 f1
| TS_if_else : forall g f c a b ts v w g1 f1 g2 f2, says g f c ts -> statement_says g f a v g1 f1 -> statement_says g1 f1 b w g2 f2 ->
    statement_says g f (PIfElse c a b) (sign "if" :: sign "(" :: ts ++ sign ")" :: v ++ sign "else" :: w) g2 f2
| TS_while : forall g f c s ts w g1 f1, says g f c ts -> statement_says g f s w g1 f1 ->
    statement_says g f (PWhile c s) (sign "while" :: sign "(" :: ts ++ sign ")" :: w) g1 f1
| TS_do : forall g f c s ts w g1 f1, statement_says g f s w g1 f1 -> says g1 f1 c ts ->
    statement_says g f (PDo s c) (sign "do" :: w ++ sign "while" :: sign "(" :: ts ++ [sign ")"; sign ";"]) g1 f1
| TS_for : forall g f i c p s ti tc tp w g1 f1, settings_say g f i ti -> option_says g f c tc -> settings_say g f p tp -> statement_says g f s w g1 f1 ->
    statement_says g f (PFor i c p s) (sign "for" :: sign "(" :: ti ++ sign ";" :: tc ++ sign ";" :: tp ++ sign ")" :: w) g1 f1
| TS_break : forall g f, statement_says g f PBreak [sign "break"; sign ";"] g f
| TS_continue : forall g f, statement_says g f PContinue [sign "continue"; sign ";"] g f
| TS_return : forall g f e ts, option_says g f e ts -> statement_says g f (PReturn e) (sign "return" :: ts ++ [sign ";"]) g f
| TS_switch : forall g f e s ts w g1 f1, says g f e ts -> statement_says g f s w g1 f1 ->
    statement_says g f (PSwitch e s) (sign "switch" :: sign "(" :: ts ++ sign ")" :: sign "{" :: w ++ [sign "}"]) g1 f1
| TS_case : forall g f t v q, statement_says g f (PCase (s32 v)) [sign "case"; mkTok t (IntVal v) q; sign ":"] g f
| TS_default : forall g f, statement_says g f PDefault [sign "default"; sign ":"] g f
| TS_braces : forall g f s w g1 f1, statement_says g f s w g1 f1 -> statement_says g f (PBraces s) (sign "{" :: w ++ [sign "}"]) g1 f1.
(* [file_says g l w g' us]: where the globals g are declared, the tokens w say the file l; g' are the globals
   in the end, us the parameters and locals of its functions *)
Inductive file_says : list (list Z) -> list pitem -> list tok -> list (list Z) -> list (list (list Z)) -> Prop :=
| FS_end : forall g, file_says g [] [] g []
| FS_outside : forall g s v g1 l w g2 us, statement_says g None s v g1 None -> file_says g1 l w g2 us -> file_says g (PGlobal s :: l) (v ++ w) g2 us
| FS_function : forall g n params s v ls l w g2 us, identifier n -> Forall identifier params -> NoDup params -> Forall (fun p => In p names) params ->
    statement_says g (Some params) s v g (Some ls) -> file_says g l w g2 us ->
    file_says g (PFunction (name_hash n) (map name_hash params) s :: l)
      (sign "function" :: word_token n :: sign "(" :: comma_names params ++ sign ")" :: sign "{" :: v ++ sign "}" :: w) g2 (ls :: us).
End Reads.

(* how the compiler is set up *)
Record setup := mkSetup {
  u_bits : Z;                            (* the size of a C long *)
  u_atof : list Z -> Z;                  (* what atof returns *)
  u_consts0 : list (list Z * tval);       (* the constants of the libraries *)
  u_consts : list (list Z * tval);
  u_strict : bool }.                     (* variables must be declared *)
Definition text_compiles (a : setup) (n : nat) (src : list Z) (g : bcode) (us : list cunit) : Prop :=
  compile_text (u_bits a) (u_atof a) (u_consts0 a) (u_consts a) (u_strict a) n src = POk (g, us).
(* src is a text of the source file l; img is the image that the compiler and the linker make of src; and c is
   the context that img is loaded into *)
Definition built_from_text (a : setup) (wide : nat) (l : list pitem) (src : list Z) (globals : list (list Z)) (locals : list (list (list Z))) (img : list Z) (c : ctx) : Prop :=
  32 <= u_bits a /\ (forall c v, In (c, v) (u_consts0 a ++ u_consts a) -> name c) /\
  exists names words, all_different names /\ file_says names [] l words globals locals /\
    written (u_bits a) (u_atof a) (u_consts0 a ++ u_consts a) words src /\
  (* the program is one of C57 that the compiler accepts *)
  exists items n r, Forall2 (item_for wide) l items /\ compile_units n (CtlSem.source items) = COk r /\
  exists g us flags symbols text, text_compiles a n src g us /\
    link g us flags symbols text = COk img /\ create_context img = Some c /\
    0 <= flags < 256 /\ lenZ text < 2147483648 /\ lenZ img <= 65535 /\ Forall unit_fits us /\
    Forall (fun u => lenZ (b_all (u_code u)) < 32768) us /\ lenZ (b_all g) < 32768 /\
    (forall h ps s, In (h, ps, s) (routines l) -> h <> yield_hash).
