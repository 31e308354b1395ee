(* Structured statements: their syntax, their tokens, and what they mean, without reference to the
   compiler.  An expression is the block of code [bcode] the expression compiler makes of it; what
   evaluating one does is a parameter. *)
From Verif Require Import Base OpsModel VmModel EmitModel CcModel JumpSpec VmSpec LinkSpec.

Inductive stmt :=
| Skip                                    (* nothing *)
| Seq (a b : stmt)                        (* a, then b *)
| Exp (e : bcode)                         (* e; *)
| If (c : bcode) (s : stmt)               (* if( c ) s *)
| IfElse (c : bcode) (a b : stmt)         (* if( c ) a else b *)
| While (c : bcode) (s : stmt)            (* while( c ) s *)
| Do (s : stmt) (c : bcode)               (* do s while( c ); *)
| For (i : list bcode) (c : option bcode) (p : list bcode) (s : stmt)   (* for( i,..; c; p,.. ) s *)
| Break | Continue                        (* break; continue; *)
| Ret (e : option bcode)                  (* return e; *)
| Switch (e : bcode) (s : stmt)           (* switch( e ) { s } *)
| Case (h : Z) | Default                  (* case v: (h is its hash)  default: *)
| Braces (s : stmt).                      (* { s } *)

(* ---- the source text ---- *)
Fixpoint comma (l : list bcode) : list tok :=
  match l with [] => [] | [e] => [T_expr e] | e :: r => T_expr e :: T_comma :: comma r end.
Fixpoint tk (s : stmt) : list tok :=
  match s with
  | Skip => []
  | Seq a b => tk a ++ tk b
  | Exp e => [T_expr e; T_semi]
  | If c s => T_if :: T_lparen :: T_expr c :: T_rparen :: tk s
  | IfElse c a b => T_if :: T_lparen :: T_expr c :: T_rparen :: tk a ++ T_else :: tk b
  | While c s => T_while :: T_lparen :: T_expr c :: T_rparen :: tk s
  | Do s c => T_do :: tk s ++ [T_while; T_lparen; T_expr c; T_rparen; T_semi]
  | For i c p s => T_for :: T_lparen :: comma i ++ T_semi :: match c with Some c => [T_expr c] | None => [] end
                   ++ T_semi :: comma p ++ T_rparen :: tk s
  | Break => [T_break; T_semi]
  | Continue => [T_continue; T_semi]
  | Ret None => [T_return; T_semi]
  | Ret (Some e) => [T_return; T_expr e; T_semi]
  | Switch e s => T_switch :: T_lparen :: T_expr e :: T_rparen :: T_lbrace :: tk s ++ [T_rbrace]
  | Case h => [T_case h]
  | Default => [T_default]
  | Braces s => T_lbrace :: tk s ++ [T_rbrace]
  end.

(* Which texts the statements of this file speak about.  Left out, because the compiler does something
   else with them (see the refuted theorems): empty statements, a block directly inside a block, and
   break or continue that is the whole body of an if or a loop without braces. *)
(* an if whose else is missing at the end *)
Fixpoint closed_if (s : stmt) : bool :=
  match s with
  | If _ _ => false | IfElse _ _ b => closed_if b | While _ s => closed_if s | For _ _ _ s => closed_if s | _ => true
  end.
Inductive place := InBlock | InSwitch | Body.
(* what the last instruction emitted for a statement is: None, there is no code *)
Inductive last_instr := LJump | LReturn | LOther.
Fixpoint tail (w : place) (s : stmt) : option last_instr :=
  match s with
  | Skip | Case _ | Default => None
  | Seq a b => match tail w b with Some x => Some x | None => tail w a end
  | Braces s => tail InBlock s
  | If _ s => match tail Body s with Some x => Some x | None => Some LOther end
  | IfElse _ a b => match tail Body b with Some x => Some x | None => Some LJump end
  | While _ _ | Do _ _ | For _ _ _ _ => Some LJump
  | Break | Continue => match w with InSwitch => Some LJump | _ => Some LOther end
  | Ret _ => Some LReturn
  | _ => Some LOther
  end.
(* the spine of a sequence *)
Fixpoint items (s : stmt) : list stmt := match s with Skip => [] | Seq a b => items a ++ items b | s => [s] end.
Definition jumps_away (s : stmt) : bool := match s with Break | Continue => true | _ => false end.
(* The jump over the selection table is left out if the last instruction emitted is a jump.  That is
   harmless only when the switch ends with break or continue.  There is some code in the switch. *)
Definition ends_well (s : stmt) : Prop :=
  match tail InSwitch s with
  | None => False
  | Some LJump => jumps_away (last (items s) Skip) = true
  | _ => True
  end.
(* distinct case values; the value 0xFFFFFFFF is not one of them *)
Fixpoint labels (s : stmt) : list Z := match s with Seq a b => labels a ++ labels b | Case h => [h] | _ => [] end.
Fixpoint tidy (w : place) (s : stmt) : Prop :=
  match s with
  | Skip => w <> Body
  | Seq a b => w <> Body /\ tidy w a /\ tidy w b
  | Exp e => True
  | If c s => tidy Body s
  | IfElse c a b => tidy Body a /\ tidy Body b /\ closed_if a = true
  | While _ s | For _ _ _ s | Do s _ => tidy Body s
  | Break | Continue => w <> Body
  | Ret e => True
  | Switch e s =>
    tidy InSwitch s /\ Forall (fun h => 0 <= h < 4294967295) (labels s) /\ ends_well s
  | Case _ | Default => w = InSwitch
  | Braces s => w <> InBlock /\ tidy InBlock s
  end.

(* ---- meaning ---- *)
(* how a statement ends; [V] is what a return may deliver *)
Inductive oc (V : Type) := ONormal | OBreak | OCont | ORet (v : V).
Arguments ONormal {V}. Arguments OBreak {V}. Arguments OCont {V}. Arguments ORet {V}.

(* the part of a switch a value selects: from the case with that hash, else from default, else nothing *)
Fixpoint from_case (h : Z) (l : list stmt) : option (list stmt) :=
  match l with [] => None | Case h' :: r => if h' =? h then Some r else from_case h r | _ :: r => from_case h r end.
Fixpoint from_default (l : list stmt) : option (list stmt) :=
  match l with [] => None | Default :: r => Some r | _ :: r => from_default r end.
Definition selected (h : Z) (s : stmt) : list stmt :=
  match from_case h (items s) with
  | Some r => r
  | None => match from_default (items s) with Some r => r | None => [] end
  end.
Fixpoint seq_of (l : list stmt) : stmt := match l with [] => Skip | s :: r => Seq s (seq_of r) end.

Section Meaning.
(* what expressions do to the states [M] of the program: as a statement; as a condition; as the value of
   a switch (its hash); as the value of a return *)
Variables M V : Type.
Variable run_e : bcode -> M -> M -> Prop.
Variable cond_e : bcode -> M -> bool -> M -> Prop.
Variable sel_e : bcode -> M -> Z -> M -> Prop.
Variable ret_e : option bcode -> M -> V -> Prop.

Inductive runs : list bcode -> M -> M -> Prop :=
| R_nil : forall m, runs [] m m
| R_cons : forall e l m m1 m2, run_e e m m1 -> runs l m1 m2 -> runs (e :: l) m m2.

(* how a loop goes on after its body *)
Definition goes_on (o : oc V) : Prop := o = ONormal \/ o = OCont.
Inductive exec : stmt -> M -> oc V -> M -> Prop :=
| X_skip : forall m, exec Skip m ONormal m
| X_case : forall h m, exec (Case h) m ONormal m
| X_default : forall m, exec Default m ONormal m
| X_seq : forall a b m m1 o m2, exec a m ONormal m1 -> exec b m1 o m2 -> exec (Seq a b) m o m2
| X_seq_exit : forall a b m o m1, exec a m o m1 -> o <> ONormal -> exec (Seq a b) m o m1
| X_braces : forall s m o m1, exec s m o m1 -> exec (Braces s) m o m1
| X_exp : forall e m m1, run_e e m m1 -> exec (Exp e) m ONormal m1
| X_if : forall c s m m1 o m2, cond_e c m true m1 -> exec s m1 o m2 -> exec (If c s) m o m2
| X_if_not : forall c s m m1, cond_e c m false m1 -> exec (If c s) m ONormal m1
| X_then : forall c a b m m1 o m2, cond_e c m true m1 -> exec a m1 o m2 -> exec (IfElse c a b) m o m2
| X_else : forall c a b m m1 o m2, cond_e c m false m1 -> exec b m1 o m2 -> exec (IfElse c a b) m o m2
| X_while_end : forall c s m m1, cond_e c m false m1 -> exec (While c s) m ONormal m1
| X_while : forall c s m m1 o m2 o' m3, cond_e c m true m1 -> exec s m1 o m2 -> goes_on o ->
    exec (While c s) m2 o' m3 -> exec (While c s) m o' m3
| X_while_break : forall c s m m1 m2, cond_e c m true m1 -> exec s m1 OBreak m2 -> exec (While c s) m ONormal m2
| X_while_ret : forall c s m m1 o m2, cond_e c m true m1 -> exec s m1 (ORet o) m2 -> exec (While c s) m (ORet o) m2
| X_do_end : forall c s m o m1 m2, exec s m o m1 -> goes_on o -> cond_e c m1 false m2 -> exec (Do s c) m ONormal m2
| X_do : forall c s m o m1 m2 o' m3, exec s m o m1 -> goes_on o -> cond_e c m1 true m2 ->
    exec (Do s c) m2 o' m3 -> exec (Do s c) m o' m3
| X_do_break : forall c s m m1, exec s m OBreak m1 -> exec (Do s c) m ONormal m1
| X_do_ret : forall c s m o m1, exec s m (ORet o) m1 -> exec (Do s c) m (ORet o) m1
| X_for_init : forall e i c p s m m1 o m2, run_e e m m1 -> exec (For i c p s) m1 o m2 -> exec (For (e :: i) c p s) m o m2
| X_for_end : forall c p s m m1, cond_e c m false m1 -> exec (For [] (Some c) p s) m ONormal m1
| X_for : forall c p s m m1 o m2 m3 o' m4,
    match c with Some c => cond_e c m true m1 | None => m1 = m end -> exec s m1 o m2 -> goes_on o ->
    runs p m2 m3 -> exec (For [] c p s) m3 o' m4 -> exec (For [] c p s) m o' m4
| X_for_break : forall c p s m m1 m2,
    match c with Some c => cond_e c m true m1 | None => m1 = m end -> exec s m1 OBreak m2 ->
    exec (For [] c p s) m ONormal m2
| X_for_ret : forall c p s m m1 o m2,
    match c with Some c => cond_e c m true m1 | None => m1 = m end -> exec s m1 (ORet o) m2 ->
    exec (For [] c p s) m (ORet o) m2
| X_break : forall m, exec Break m OBreak m
| X_continue : forall m, exec Continue m OCont m
| X_ret : forall e m o, ret_e e m o -> exec (Ret e) m (ORet o) m
| X_switch : forall e s m h m1 o m2, sel_e e m h m1 -> exec (seq_of (selected h s)) m1 o m2 ->
    (o = ONormal \/ o = OBreak) -> exec (Switch e s) m ONormal m2
| X_switch_exit : forall e s m h m1 o m2, sel_e e m h m1 -> exec (seq_of (selected h s)) m1 o m2 ->
    (o = OCont \/ exists x, o = ORet x) -> exec (Switch e s) m o m2.
End Meaning.

(* ---- how the blocks of expressions behave in the emitter ---- *)
(* The opcode cache in front of an expression: what a statement leaves there. *)
Definition inert (o : opcode) : bool :=
  match o with
  | O_PopOne | O_Return | O_ReturnZero | O_GlobalStop | O_RelativeJump | O_FUNCTION_CALL_PLACEHOLDER
  | O_CallLibFunctionAndPop | O_AssignAndPop | O_PreIncrementAndPop | O_PreDecrementAndPop
  | O_AssignToGlobalAndPop | O_SubtractAssignAndPop | O_AddAssignAndPop | O_ModAssignAndPop
  | O_MultiplyAssignAndPop | O_DivideAssignAndPop | O_ORAssignAndPop | O_ANDAssignAndPop | O_XORAssignAndPop
  | O_RightShiftAssignAndPop | O_LeftShiftAssignAndPop | O_Switch | O_SwitchLinear
  | O_BZ | O_LocalBZ | O_GlobalBZ | O_BLA | O_BLO
  | O_CompareBEQ | O_CompareBNE | O_CompareBGE | O_CompareBLE | O_CompareBGT | O_CompareBLT
  | O_GSCompareEQBZ | O_LSCompareEQBZ | O_GSCompareNEBZ | O_LSCompareNEBZ | O_GSCompareGEBZ | O_LSCompareGEBZ
  | O_GSCompareLEBZ | O_LSCompareLEBZ | O_GSCompareGTBZ | O_LSCompareGTBZ | O_GSCompareLTBZ | O_LSCompareLTBZ
  | O_LLCompareLTBZ | O_LLCompareGTBZ | O_LLCompareLEBZ | O_LLCompareGEBZ | O_LLCompareEQBZ | O_LLCompareNEBZ
  | O_GGCompareLTBZ | O_GGCompareGTBZ | O_GGCompareLEBZ | O_GGCompareGEBZ | O_GGCompareEQBZ | O_GGCompareNEBZ => true
  | _ => false
  end.
Definition ctx_ok (ops : list opcode) : Prop := match ops with [] => True | o :: _ => inert o = true end.

(* bytes the linker rewrites: calls, yields and object tables *)
Definition patched (b : bcode) (i : Z) : Prop := Exists (fun x => inside x i) (intervals b).
(* these places lie in the code l, apart from each other; a place does not look like the instruction that
   the linker looks for behind a call; the names are 32 bit hashes *)
Definition sites_within (b : bcode) (l : list Z) : Prop :=
  Forall (fun x => 0 <= fst x /\ fst x + snd x <= lenZ l /\ nthZ l (fst x) <> Some (byte_of O_NewObjectTable)) (intervals b) /\
  ForallOrdPairs disjoint (intervals b) /\ names_fit b.
(* the places of [b] that call the function named [h], or use the object named [h] *)
Definition refers (b : bcode) (fn : bool) (h r : Z) : Prop :=
  exists rs, In (h, rs) (if fn then b_fns b else b_objs b) /\ In r rs.
(* an image, and what is known of the places the linker has written: [linked fn h q args drop], the bytes
   from q on are what it writes for a call of h (or an object h), where the compiled code had the number
   of arguments [args] and, behind the call, [drop], the byte that says whether the value is used *)
Record image := Image { bytes :> list Z; linked : bool -> Z -> Z -> option Z -> option Z -> Prop }.
(* byte k of a call at r of the code l *)
Definition site_byte (l : list Z) (fn : bool) (h r k : Z) : option Z :=
  if fn && (k <? call_len h) then nthZ l (r + k) else None.
(* code [l] of block [e] at position [p] of the image *)
Definition placed (C : image) (p : Z) (l : list Z) (e : bcode) : Prop :=
  (forall i, 0 <= i < lenZ l -> ~ patched e i -> nthZ C (p + i) = nthZ l i) /\
  (forall fn h r, refers e fn h r -> linked C fn h (p + r) (site_byte l fn h r 1) (site_byte l fn h r 5)).

(* the last instruction is not a jump or a return *)
Definition ends_plain (b : bcode) : Prop :=
  last_op_is O_RelativeJump b = false /\ last_op_is O_Return b = false /\ last_op_is O_ReturnZero b = false /\
  last_op_is O_GlobalStop b = false.
(* an expression has no labels of its own *)
Definition plain (e : bcode) : Prop := b_jumps e = [] /\ b_gotos e = [].
(* "e;" is compiled to the code P, wherever it stands *)
Definition pops (e : bcode) (P : list Z) : Prop :=
  plain e /\ sites_within e P /\
  forall b, ctx_ok (b_ops b) -> exists b1, (b0 <~ append_bytecode b e ;; push_opcode O_PopOne b0) = COk b1 /\
    b_all b1 = b_all b ++ P /\ ctx_ok (b_ops b1) /\ ends_plain b1.
(* a condition: code Q with a branch instruction at offset k-1, taken when it is false *)
Definition branches (c : bcode) (Q : list Z) (k : Z) : Prop :=
  plain c /\ sites_within c (firstn (Z.to_nat (k - 1)) Q) /\ 0 < k /\
  (exists kd t, jump_at (Q ++ [9; 9]) (k - 1) = Some (kd, t, lenZ Q + 2)) /\
  forall b, ctx_ok (b_ops b) -> exists b1 o rest, (b0 <~ append_bytecode b c ;; push_opcode O_BZ b0) = COk b1 /\
    b_all b1 = b_all b ++ Q /\ b_ops b1 = o :: rest /\ inert o = true /\ ends_plain b1 /\
    lenZ Q - source_back o = k.
(* a value *)
Definition pushes (e : bcode) (P : list Z) : Prop :=
  plain e /\ sites_within e P /\
  forall b, ctx_ok (b_ops b) -> exists b1, append_bytecode b e = COk b1 /\ b_all b1 = b_all b ++ P.
(* "return e;" *)
Definition returns (ret : opcode) (e : option bcode) (P : list Z) : Prop :=
  match e with Some e => plain e /\ sites_within e P | None => True end /\
  forall b, ctx_ok (b_ops b) ->
    exists b1, (b0 <~ match e with Some e => append_bytecode b e | None => push_opcode O_LiteralZero b end ;;
                push_opcode ret b0) = COk b1 /\
    b_all b1 = b_all b ++ P /\ P <> [] /\ ctx_ok (b_ops b1) /\ last_op_is O_RelativeJump b1 = false.
(* the clauses of a for: compiled with their PopOne before they are appended *)
Definition clause (e : bcode) (P : list Z) : Prop :=
  plain e /\ sites_within e P /\
  exists e1, push_opcode O_PopOne e = COk e1 /\
  forall b, ctx_ok (b_ops b) -> exists b1, append_bytecode b e1 = COk b1 /\ b_all b1 = b_all b ++ P /\ ctx_ok (b_ops b1).
Fixpoint post_block (l : list bcode) (post : bcode) : cres bcode :=
  match l with [] => COk post | e :: r => e1 <~ push_opcode O_PopOne e ;; b <~ append_bytecode post e1 ;; post_block r b end.
Definition clauses (l : list bcode) (Ps : list (list Z)) : Prop :=
  Forall2 clause l Ps /\
  exists b0, post_block l empty_bc = COk b0 /\
  forall b, ctx_ok (b_ops b) -> exists b1, append_bytecode b b0 = COk b1 /\ b_all b1 = b_all b ++ concat Ps /\ ctx_ok (b_ops b1).
(* at [p] of the image stands the code of the condition [c] and its branch: on to [r], or to [f] *)
Definition cond_at (C : image) (c : bcode) (p r f : Z) : Prop :=
  exists Q k kd t0, branches c Q k /\ r = p + lenZ Q + 2 /\ placed C p (firstn (Z.to_nat (k - 1)) Q) c /\
    jump_at (Q ++ [9; 9]) (k - 1) = Some (kd, t0, lenZ Q + 2) /\ jump_at C (p + (k - 1)) = Some (kd, f, r).
(* all expressions of a statement have these forms; a switch contains some code *)
Fixpoint weighs (s : stmt) : Prop :=
  match s with
  | Skip | Case _ | Default => False
  | Seq a b => weighs a \/ weighs b
  | Exp e => exists P, pops e P /\ P <> []
  | Ret _ => True
  | Braces s => weighs s
  | _ => True
  end.
Fixpoint good (ret : opcode) (s : stmt) : Prop :=
  match s with
  | Skip | Case _ | Default | Break | Continue => True
  | Seq a b => good ret a /\ good ret b
  | Exp e => exists P, pops e P
  | If c s => (exists Q k, branches c Q k) /\ good ret s
  | IfElse c a b => (exists Q k, branches c Q k) /\ good ret a /\ good ret b
  | While c s | Do s c => (exists Q k, branches c Q k) /\ good ret s
  | For i c p s =>
    Forall (fun e => exists P, clause e P) i /\
    match c with Some c => exists Q k, branches c Q k | None => True end /\
    (exists Ps, clauses p Ps) /\ good ret s
  | Ret e => exists P, returns ret e P
  | Switch e s => (exists P, pushes e P) /\ weighs s /\ good ret s
  | Braces s => good ret s
  end.
