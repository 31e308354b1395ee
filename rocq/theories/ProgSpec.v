(* Programs over integer variables (C57, with calls C58): their syntax, and what they compute, without reference to the
   compiler or to the machine.  Expressions are the trees of ExprNest and have the values of EvalSpec. *)
From Coq Require Import String.
From Verif Require Import Base OpsModel VmModel VmSpec EmitModel CcModel ExprModel ExprSpec ExprNest LinkModel LinkSpec FuseSpec EvalSpec.
From Verif Require CtlSpec CtlSem.
Open Scope string_scope. Open Scope list_scope. Open Scope Z_scope.

(* x is the global or the local number n *)
Inductive setting :=
| Sets (q : space) (n : Z) (e : tree expr)               (* x = e *)
| Changes (s : string) (q : space) (n : Z) (e : tree expr)   (* x += e, and the other nine: s is the operator *)
| Steps (s : string) (after : bool) (q : space) (n : Z).     (* ++x or --x; with after, x++ or x-- *)
Inductive prog :=
| PSkip                                                  (* nothing *)
| PSeq (a b : prog)                                      (* a, then b *)
| PSet (a : setting)                                     (* x = e; *)
| PIf (c : tree expr) (s : prog)                         (* if( c ) s *)
| PIfElse (c : tree expr) (a b : prog)                   (* if( c ) a else b *)
| PWhile (c : tree expr) (s : prog)                      (* while( c ) s *)
| PDo (s : prog) (c : tree expr)                         (* do s while( c ); *)
| PFor (i : list setting) (c : option (tree expr)) (p : list setting) (s : prog)   (* for( x = e,..; c; y = f,.. ) s *)
| PBreak | PContinue                                     (* break; continue; *)
| PReturn (e : option (tree expr))                       (* return e; *)
| PSwitch (e : tree expr) (s : prog)                     (* switch( e ) { s } *)
| PCase (z : Z) | PDefault                               (* case z: default: *)
| PBraces (s : prog)                                     (* { s } *)
| PCall (to : option (space * Z)) (h : Z) (args : list (tree expr)).   (* f( e,.. );  or x = f( e,.. );  h is the hash of the name f *)

(* ---------------------------------------------------------------- meaning *)
(* the variables that hold integers *)
Definition variables := space -> Z -> option Z.
Definition space_eqb (a b : space) : bool := match a, b with SL, SL | SG, SG => true | _, _ => false end.
Definition set (env : variables) (q : space) (n z : Z) : variables :=
  fun q' n' => if space_eqb q q' && (n =? n') then Some z else env q' n'.

(* the part of a switch that a value selects: from the case with that value, else from default, else nothing *)
Fixpoint parts (s : prog) : list prog := match s with PSkip => [] | PSeq a b => parts a ++ parts b | s => [s] end.
Fixpoint after_case (z : Z) (l : list prog) : option (list prog) :=
  match l with [] => None | PCase x :: r => if x =? z then Some r else after_case z r | _ :: r => after_case z r end.
Fixpoint after_default (l : list prog) : option (list prog) :=
  match l with [] => None | PDefault :: r => Some r | _ :: r => after_default r end.
Definition chosen (z : Z) (s : prog) : list prog :=
  match after_case z (parts s) with
  | Some r => r
  | None => match after_default (parts s) with Some r => r | None => [] end
  end.
Fixpoint in_order (l : list prog) : prog := match l with [] => PSkip | s :: r => PSeq s (in_order r) end.

(* the operators that change a variable: as in C, except that x *= e, ++x and --x must not overflow (C48) *)
Definition int_changes (trap : bool) : list (string * (Z -> Z -> option Z)) :=
  [("+=", fun x y => Some (s32 (x + y))); ("-=", fun x y => Some (s32 (x - y))); ("%=", remainder);
   ("*=", fun x y => if (int_min <=? x * y) && (x * y <=? 2147483647) then Some (x * y) else None); ("/=", divide trap);
   ("|=", fun x y => Some (Z.lor x y)); ("&=", fun x y => Some (Z.land x y)); ("^=", fun x y => Some (Z.lxor x y));
   (">>=", shift (fun x y => x / 2 ^ y)); ("<<=", shift (fun x y => s32 (x * 2 ^ y)))].
Definition int_steps : list (string * Z) := [("++", 1); ("--", -1)].

(* the values of the globals *)
Definition values := Z -> option Z.
Definition with_globals (env : variables) (g : values) : variables := fun q n => match q with SG => g n | SL => env SL n end.
Section Meaning.
Variable trap : bool.       (* is a division by zero an error? *)
(* [invoke h zs g z g1]: called with the arguments zs while the globals are g, the function with hash h
   ends with the result z and the globals g1 *)
Variable invoke : Z -> list Z -> values -> Z -> values -> Prop.
Fixpoint operand_value (env : variables) (e : expr) : option Z :=
  match e with
  | EInt z => if (int_min <=? z) && (z <=? 2147483647) then Some z else None
  | EVar q n => env q n
  | EPar t => int_value trap (operand_value env) t
  end.
Definition value_of (env : variables) (t : tree expr) : option Z := int_value trap (operand_value env) t.

(* only a variable that holds an integer is assigned to *)
Inductive assigns : setting -> variables -> variables -> Prop :=
| A_set : forall q n e env old z, env q n = Some old -> value_of env e = Some z -> assigns (Sets q n e) env (set env q n z)
| A_change : forall s f q n e env old y z, look (int_changes trap) s = Some f -> env q n = Some old -> value_of env e = Some y -> f old y = Some z ->
    assigns (Changes s q n e) env (set env q n z)
| A_step : forall s d after q n env old, look int_steps s = Some d -> env q n = Some old -> int_min <= old + d <= 2147483647 ->
    assigns (Steps s after q n) env (set env q n (old + d)).
Inductive assigns_all : list setting -> variables -> variables -> Prop :=
| A_nil : forall env, assigns_all [] env env
| A_cons : forall a l env env1 env2, assigns a env env1 -> assigns_all l env1 env2 -> assigns_all (a :: l) env env2.
Definition holds_true (env : variables) (c : tree expr) : Prop := exists z, value_of env c = Some z /\ z <> 0.
Definition holds_false (env : variables) (c : tree expr) : Prop := value_of env c = Some 0.
Definition goes_in (env : variables) (c : option (tree expr)) : Prop := match c with Some c => holds_true env c | None => True end.

(* what becomes of the result of a call *)
Inductive receives : option (space * Z) -> Z -> variables -> variables -> Prop :=
| T_drop : forall z env, receives None z env env
| T_set : forall q n z env old, env q n = Some old -> receives (Some (q, n)) z env (set env q n z).

(* [computes s env o env1]: started with the variables env, s ends as o says with the variables env1 *)
Notation oc := (CtlSpec.oc Z).
Notation ONormal := CtlSpec.ONormal. Notation OBreak := CtlSpec.OBreak. Notation OCont := CtlSpec.OCont. Notation ORet := CtlSpec.ORet.
Inductive computes : prog -> variables -> oc -> variables -> Prop :=
| E_skip : forall m, computes PSkip m ONormal m
| E_case : forall z m, computes (PCase z) m ONormal m
| E_default : forall m, computes PDefault m ONormal m
| E_seq : forall a b m m1 o m2, computes a m ONormal m1 -> computes b m1 o m2 -> computes (PSeq a b) m o m2
| E_seq_exit : forall a b m o m1, computes a m o m1 -> o <> ONormal -> computes (PSeq a b) m o m1
| E_braces : forall s m o m1, computes s m o m1 -> computes (PBraces s) m o m1
| E_set : forall a m m1, assigns a m m1 -> computes (PSet a) m ONormal m1
| E_if : forall c s m o m1, holds_true m c -> computes s m o m1 -> computes (PIf c s) m o m1
| E_if_not : forall c s m, holds_false m c -> computes (PIf c s) m ONormal m
| E_then : forall c a b m o m1, holds_true m c -> computes a m o m1 -> computes (PIfElse c a b) m o m1
| E_else : forall c a b m o m1, holds_false m c -> computes b m o m1 -> computes (PIfElse c a b) m o m1
| E_while_end : forall c s m, holds_false m c -> computes (PWhile c s) m ONormal m
| E_while : forall c s m o m1 o' m2, holds_true m c -> computes s m o m1 -> (o = ONormal \/ o = OCont) ->
    computes (PWhile c s) m1 o' m2 -> computes (PWhile c s) m o' m2
| E_while_break : forall c s m m1, holds_true m c -> computes s m OBreak m1 -> computes (PWhile c s) m ONormal m1
| E_while_ret : forall c s m z m1, holds_true m c -> computes s m (ORet z) m1 -> computes (PWhile c s) m (ORet z) m1
| E_do_end : forall c s m o m1, computes s m o m1 -> (o = ONormal \/ o = OCont) -> holds_false m1 c -> computes (PDo s c) m ONormal m1
| E_do : forall c s m o m1 o' m2, computes s m o m1 -> (o = ONormal \/ o = OCont) -> holds_true m1 c ->
    computes (PDo s c) m1 o' m2 -> computes (PDo s c) m o' m2
| E_do_break : forall c s m m1, computes s m OBreak m1 -> computes (PDo s c) m ONormal m1
| E_do_ret : forall c s m z m1, computes s m (ORet z) m1 -> computes (PDo s c) m (ORet z) m1
| E_for_init : forall a i c p s m m1 o m2, assigns a m m1 -> computes (PFor i c p s) m1 o m2 -> computes (PFor (a :: i) c p s) m o m2
| E_for_end : forall c p s m, holds_false m c -> computes (PFor [] (Some c) p s) m ONormal m
| E_for : forall c p s m o m1 m2 o' m3, goes_in m c -> computes s m o m1 -> (o = ONormal \/ o = OCont) ->
    assigns_all p m1 m2 -> computes (PFor [] c p s) m2 o' m3 -> computes (PFor [] c p s) m o' m3
| E_for_break : forall c p s m m1, goes_in m c -> computes s m OBreak m1 -> computes (PFor [] c p s) m ONormal m1
| E_for_ret : forall c p s m z m1, goes_in m c -> computes s m (ORet z) m1 -> computes (PFor [] c p s) m (ORet z) m1
| E_break : forall m, computes PBreak m OBreak m
| E_continue : forall m, computes PContinue m OCont m
| E_ret : forall e m z, value_of m e = Some z -> computes (PReturn (Some e)) m (ORet z) m
| E_ret_none : forall m, computes (PReturn None) m (ORet 0) m
| E_switch : forall e s m z o m1, value_of m e = Some z -> computes (in_order (chosen z s)) m o m1 ->
    (o = ONormal \/ o = OBreak) -> computes (PSwitch e s) m ONormal m1
| E_switch_exit : forall e s m z o m1, value_of m e = Some z -> computes (in_order (chosen z s)) m o m1 ->
    (o = OCont \/ exists x, o = ORet x) -> computes (PSwitch e s) m o m1
| E_call : forall to h args m zs z g m1, Forall2 (fun e x => value_of m e = Some x) args zs ->
    invoke h zs (m SG) z g -> receives to z (with_globals m g) m1 -> computes (PCall to h args) m ONormal m1.
End Meaning.

(* ---------------------------------------------------------------- the compiler's input *)
(* the tree of x = e, x += e, ++x, x++ *)
Definition setting_tree (a : setting) : tree expr :=
  match a with
  | Sets q n e => Infix "=" (Atom (EVar q n)) e
  | Changes s q n e => Infix s (Atom (EVar q n)) e
  | Steps s false q n => Prefix s (Atom (EVar q n))
  | Steps s true q n => Postfix s [] (Atom (EVar q n))
  end.
Definition compile_setting (a : setting) : cres bcode := compile (setting_tree a).
Fixpoint compile_settings (l : list setting) : cres (list bcode) :=
  match l with [] => COk [] | a :: r => b <~ compile_setting a ;; bs <~ compile_settings r ;; COk (b :: bs) end.
Definition compile_option (e : option (tree expr)) : cres (option bcode) :=
  match e with Some t => b <~ compile t ;; COk (Some b) | None => COk None end.
(* cc.cpp:1420-1546 parseCallFunction, without a library prefix: the code of the arguments, one after the
   other, then a place of six bytes which the linker completes.  Simplification: the arguments contain no
   calls and do not end in an index, so the function space of the block is empty before (1506-1517) and
   there is nothing to dereference (1451-1467). *)
Fixpoint compile_args (l : list (tree expr)) (b : bcode) : cres bcode :=
  match l with [] => COk b | e :: r => c <~ compile e ;; b1 <~ append_bytecode b c ;; compile_args r b1 end.
Definition compile_call (h : Z) (args : list (tree expr)) : cres bcode :=
  b <~ compile_args args empty_bc ;;
  b1 <~ push_opcode O_FUNCTION_CALL_PLACEHOLDER (mkB (b_all b) (b_ops b) (b_locals b) [(h, [size b])] (b_objs b) (b_jumps b) (b_gotos b)) ;;
  COk (push_data [u8 (lenZ args); 88; 88; 88; 88] b1).
(* The call is an operand of the expression it stands in (expression.cpp:361-378): it is parsed where a
   parenthesis would be, and its code takes the place of the code of that parenthesis. *)
Definition call_operand : tree expr := Atom (EPar (Atom (EInt 0))).
Definition call_tree (to : option (space * Z)) : tree expr :=
  match to with Some (q, n) => setting_tree (Sets q n call_operand) | None => call_operand end.
Definition compile_call_to (to : option (space * Z)) (h : Z) (args : list (tree expr)) : cres bcode :=
  a <~ parse_expression (text (call_tree to)) ;; emit_all_nested append_bytecode (fun _ => compile_call h args) a empty_bc.
(* the statement with the code of its expressions, which the compiler of statements takes (CtlSpec, C35) *)
Fixpoint statement (s : prog) : cres CtlSpec.stmt :=
  match s with
  | PSkip => COk CtlSpec.Skip
  | PSeq a b => x <~ statement a ;; y <~ statement b ;; COk (CtlSpec.Seq x y)
  | PSet a => b <~ compile_setting a ;; COk (CtlSpec.Exp b)
  | PIf c s => b <~ compile c ;; x <~ statement s ;; COk (CtlSpec.If b x)
  | PIfElse c s t => b <~ compile c ;; x <~ statement s ;; y <~ statement t ;; COk (CtlSpec.IfElse b x y)
  | PWhile c s => b <~ compile c ;; x <~ statement s ;; COk (CtlSpec.While b x)
  | PDo s c => x <~ statement s ;; b <~ compile c ;; COk (CtlSpec.Do x b)
  | PFor i c p s => bi <~ compile_settings i ;; bc <~ compile_option c ;; bp <~ compile_settings p ;; x <~ statement s ;;
                    COk (CtlSpec.For bi bc bp x)
  | PBreak => COk CtlSpec.Break
  | PContinue => COk CtlSpec.Continue
  | PReturn e => b <~ compile_option e ;; COk (CtlSpec.Ret b)
  | PSwitch e s => b <~ compile e ;; x <~ statement s ;; COk (CtlSpec.Switch b x)
  | PCase z => COk (CtlSpec.Case (u32 z))    (* the hash of an integer is the integer *)
  | PDefault => COk CtlSpec.Default
  | PBraces s => x <~ statement s ;; COk (CtlSpec.Braces x)
  | PCall to h args => b <~ compile_call_to to h args ;; COk (CtlSpec.Exp b)
  end.

(* ---------------------------------------------------------------- the programs of the theorem *)
(* as EvalSpec.not_misled, with the instruction that follows the expression *)
Definition not_misled_before (op : opcode) (t : tree expr) : Prop :=
  exists b h b1 h1, compile t = COk b /\ compile_honest t = COk h /\ b_all h = b_all b /\
    push_opcode op b = COk b1 /\ push_opcode op h = COk h1 /\ b_all h1 = b_all b1.
(* operators on integers, 32 bit literals, variables with byte indexes *)
Section Arithmetic.
Context {leaf : Type} (P : leaf -> Prop).
Fixpoint of_integers (t : tree leaf) : Prop :=
  match t with
  | Atom x => P x
  | Prefix s t => look int_prefixes s <> None /\ of_integers t
  | Postfix _ _ _ => False
  | Infix s l r => look (int_infixes true) s <> None /\ of_integers l /\ of_integers r
  end.
End Arithmetic.
Fixpoint integer_operand (e : expr) : Prop :=
  match e with
  | EInt z => int_min <= z <= 2147483647
  | EVar _ n => 0 <= n < 256
  | EPar t => of_integers integer_operand t
  end.
Definition arithmetic (t : tree expr) : Prop := of_integers integer_operand t.
Section Usable.
Variable ret : opcode.      (* the instruction of return *)
Variable wide : nat.        (* how many operands an expression has at most *)
(* an expression that is followed by the instruction op *)
Definition usable (op : opcode) (t : tree expr) : Prop := fine t /\ arithmetic t /\ not_misled_before op t /\ (tree_sum width t <= wide)%nat.
Definition usable_setting (a : setting) : Prop :=
  match a with
  | Sets q n e | Changes _ q n e =>
  0 <= n < 256 /\ fine e /\ arithmetic e /\ looseness e <= 11 /\ (length (text (setting_tree a)) <= 255)%nat /\ not_misled_before O_PopOne (setting_tree a) /\ (tree_sum width e <= wide)%nat
  | Steps _ _ q n => 0 <= n < 256
  end /\ match a with Sets _ _ _ => True | Changes s _ _ _ => look (int_changes true) s <> None | Steps s _ _ _ => look int_steps s <> None end.
(* An argument is an expression, and not just a variable: that is passed by reference, so that the parameter
   changes when the variable does (refuted: c58_reference_refuted). *)
Fixpoint a_variable (e : expr) : Prop := match e with EInt _ => False | EVar _ _ => True | EPar (Atom x) => a_variable x | EPar _ => False end.
Definition usable_argument (n : nat) (t : tree expr) : Prop :=
  fine t /\ arithmetic t /\ not_misled t /\ (n + tree_sum width t <= wide)%nat /\ (forall e, t = Atom e -> ~ a_variable e).
Definition usable_call (to : option (space * Z)) (h : Z) (args : list (tree expr)) : Prop :=
  match to with Some (_, n) => 0 <= n < 256 | None => True end /\ 0 <= h < 4294967296 /\ h <> yield_hash /\
  Forall (usable_argument (length args)) args.
Fixpoint usable_prog (s : prog) : Prop :=
  match s with
  | PSkip | PBreak | PContinue | PDefault => True
  | PCase z => int_min <= z <= 2147483647 /\ z <> -1
  | PSeq a b => usable_prog a /\ usable_prog b
  | PSet a => usable_setting a
  | PIf c s => usable O_BZ c /\ usable_prog s
  | PIfElse c a b => usable O_BZ c /\ usable_prog a /\ usable_prog b
  | PWhile c s | PDo s c => usable O_BZ c /\ usable_prog s
  | PFor i c p s => Forall usable_setting i /\ match c with Some c => usable O_BZ c | None => True end /\ Forall usable_setting p /\ usable_prog s
  | PReturn (Some e) => usable ret e
  | PReturn None => True
  | PSwitch e s => (fine e /\ arithmetic e /\ not_misled e /\ (tree_sum width e <= wide)%nat) /\ usable_prog s
  | PBraces s => usable_prog s
  | PCall to h args => usable_call to h args
  end.
End Usable.

(* ---------------------------------------------------------------- variables in the machine *)
(* [fb]: the frame of the function; [nl]: how many locals and parameters it has *)
Definition stored_at (env : variables) (fb nl : nat) (l : loc) : option Z :=
  match l with
  | LGlobal n => env SG (Z.of_nat n)
  | LStack k => if (fb <=? k)%nat && (k <? fb + nl)%nat then env SL (Z.of_nat (k - fb)) else None
  | _ => None
  end.
(* the memory m, except that the variables have these values *)
Definition stored (env : variables) (fb nl : nat) (m : mem) : mem :=
  mkMem (fun l => match stored_at env fb nl l with Some z => VInt (u32 z) | None => mv m l end) (mo m) (mraw m) (mnext m).
(* the variables exist: byte indexes, locals of the function, and 32 bit integers *)
Definition exist (env : variables) (nl : nat) : Prop :=
  forall q n z, env q n = Some z -> 0 <= n < 256 /\ int_min <= z <= 2147483647 /\ (q = SL -> n < Z.of_nat nl).

(* in the memory m the variables have these values *)
Definition has (env : variables) (fb : nat) (m : mem) : Prop :=
  forall q n z, env q n = Some z -> mv m (vloc fb q (Z.to_nat n)) = VInt (u32 z).

(* ---------------------------------------------------------------- source files *)
(* a body, started with the variables env, ends with the result z: 0 if there is no return *)
Definition finishes (trap : bool) (invoke : Z -> list Z -> values -> Z -> values -> Prop) (s : prog) (env : variables) (z : Z) (env1 : variables) : Prop :=
  computes trap invoke s env (CtlSpec.ORet z) env1 \/ z = 0 /\ computes trap invoke s env CtlSpec.ONormal env1.
(* A body that ends without a return although the last instruction compiled for it is one is not covered
   (refuted: c37_refuted). *)
Definition proper_end (trap : bool) (invoke : Z -> list Z -> values -> Z -> values -> Prop) (w : CtlSpec.place) (s : prog) (env : variables) (z : Z) (env1 : variables) : Prop :=
  forall c, statement s = COk c -> CtlSpec.tail w c = Some CtlSpec.LReturn -> computes trap invoke s env (CtlSpec.ORet z) env1.
(* statements outside functions, and functions (hash of the name, hashes of the parameters, body) *)
Inductive pitem := PGlobal (s : prog) | PFunction (h : Z) (params : list Z) (s : prog).
Definition body_of (i : pitem) : prog := match i with PGlobal s | PFunction _ _ s => s end.
Definition outside (l : list pitem) : prog := in_order (flat_map (fun i => match i with PGlobal s => [s] | _ => [] end) l).
Definition routines (l : list pitem) : list (Z * list Z * prog) :=
  flat_map (fun i => match i with PFunction h ps s => [(h, ps, s)] | _ => [] end) l.
(* the item with the code of its expressions *)
Inductive item_for (wide : nat) : pitem -> CtlSem.item -> Prop :=
| IF_global : forall s c, usable_prog O_GlobalStop wide s -> statement s = COk c -> CtlSpec.tidy CtlSpec.Body c ->
    item_for wide (PGlobal s) (CtlSem.Global c)
| IF_function : forall h ps s c, usable_prog O_Return wide s -> statement s = COk c -> CtlSpec.tidy CtlSpec.InBlock c ->
    item_for wide (PFunction h ps s) (CtlSem.Function h ps c).
(* The variables of a function with np parameters and nl locals that is called with the integers zs while
   the globals are genv: its parameters are the arguments, 0 if there are too few; its locals are 0, except
   that the first one is whatever is left at its place (C31). *)
Definition called (genv : values) (np nl : nat) (zs : list Z) (first : Z) : variables :=
  fun q n => match q with
  | SG => genv n
  | SL => if (n <? 0) || (Z.of_nat (np + nl) <=? n) then None
          else if n <? Z.of_nat np then Some (nth (Z.to_nat n) zs 0)
          else Some (if n =? Z.of_nat np then first else 0)
  end.

(* ---------------------------------------------------------------- calls *)
Definition int32 (z : Z) : Prop := int_min <= z <= 2147483647.
(* the function with hash h is the first of that name: number i of the file *)
Definition function_is (l : list pitem) (h : Z) (i : nat) (ps : list Z) (s : prog) : Prop :=
  nth_error (routines l) i = Some (h, ps, s) /\ forall j ps' s', (j < i)%nat -> nth_error (routines l) j <> Some (h, ps', s').
Section Calls.
Variable trap : bool.
Variable l : list pitem.              (* the file *)
Variable locals : nat -> nat.         (* how many locals its functions have *)
(* What a call does, if calls are nested at most d deep.  What is left in the place of the first local must
   not matter. *)
Fixpoint invokes (d : nat) (h : Z) (zs : list Z) (g : values) (z : Z) (g1 : values) : Prop :=
  match d with
  | O => False
  | S d => exists i ps s, function_is l h i ps s /\ forall first, int32 first ->
      exists env1, let env := called g (length ps) (locals i) zs first in
        finishes trap (invokes d) s env z env1 /\ proper_end trap (invokes d) CtlSpec.InBlock s env z env1 /\ forall n, env1 SG n = g1 n
  end.
End Calls.
(* how many locals the functions have in a loaded file, besides their parameters *)
Definition locals_of (c : ctx) (i : nat) : nat := match nth_error (vm_funs c) i with Some f => fn_frame f | None => O end.
(* nothing is called *)
Definition no_calls (h : Z) (zs : list Z) (g : values) (z : Z) (g1 : values) : Prop := False.

(* ---------------------------------------------------------------- the setting *)
(* img is the linked image of the source file l, and c the context it is loaded into *)
Definition built (wide : nat) (l : list pitem) (img : list Z) (c : ctx) : Prop :=
  exists items n g us flags symbols text, Forall2 (item_for wide) l items /\ compile_units n (CtlSem.source items) = COk (g, us) /\
    link g us flags symbols text = COk img /\ create_context img = Some c /\
    0 <= flags < 256 /\ lenZ text < 2147483648 /\ lenZ img <= 65535 /\ Forall unit_fits us /\
    Forall (fun u => lenZ (b_all (u_code u)) < 32768) us /\ lenZ (b_all g) < 32768 /\
    (forall h ps s, In (h, ps, s) (routines l) -> h <> yield_hash).
(* the machine: what objects hash to and print as, and what library functions do, does not depend on the
   free part of the stack *)
Definition sane (k : CtlSem.config) (wide : nat) (c : ctx) : Prop :=
  (3 <= CtlSem.k_fuel k)%nat /\ local_fn (CtlSem.k_obj_hash k) /\ local_fn (CtlSem.k_as_string k) /\ lib_local (CtlSem.k_lib k) /\ (wide <= 254)%nat /\ CtlSem.k_funs k = vm_funs c.
(* the integers zs, from position p of the stack on *)
Definition integers (m : mem) (p : nat) (zs : list Z) : Prop :=
  forall j z, nth_error zs j = Some z -> int_min <= z <= 2147483647 /\ mv m (LStack (p + j)) = VInt (u32 z).
(* arrays, structs and strings are untouched *)
Definition heap_kept (m m' : mem) : Prop := (forall i, mo m' i = mo m i) /\ (forall b i, mraw m' b i = mraw m b i) /\ mnext m' = mnext m.
(* these globals hold these integers *)
Definition globals_are (genv : values) (m : mem) : Prop :=
  forall n z, genv n = Some z -> 0 <= n < 256 /\ int32 z /\ mv m (LGlobal (Z.to_nat n)) = VInt (u32 z).
(* The value v of x is kept.  LAuto 0 is no part of the state: it is the variable of the C++ function that
   performs x += y (operations_non_compact.cpp), and a number may be left in it. *)
Definition kept_at (x : loc) (v v' : OpsModel.value) : Prop := v' = v \/ x = LAuto 0 /\ exists u, v' = VInt u.
(* what is not one of these globals, and is not on the stack from position p on, is as it was *)
Definition rest_kept (genv : values) (p : nat) (m m' : mem) : Prop :=
  (forall x, live p x -> (forall n z, genv n = Some z -> x <> LGlobal (Z.to_nat n)) -> kept_at x (mv m x) (mv m' x)) /\ heap_kept m m'.
