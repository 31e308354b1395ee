(* Expressions: the operator table (cc/cc.h:64-130), operatorFound, loadExpressionContext, swapWithTop,
   pushToStack, resolveExpressionEx and resolveExpression (cc/cc.cpp:968-1390, cc/cc.h:292-341).

   These functions only append to the byte code of the expression and never read it, so here they
   return the list of what they append (actions); [emit] puts actions into a block.
   Simplifications: an expression is the list of its operands and operators, as parseExpression
   (cc/expression.cpp:60-560) leaves it in WRExpression::context; an operand is a literal, a label, a
   call or a sub-expression with its own block.  [leaf] stands for these operands.  The text of an
   operator is a string; what its own block holds besides the opcode (the index of a[i], for one) is
   a list of operands.  The assert in swapWithTop is the outcome UB. *)
From Coq Require Import String.
From Verif Require Import Base HashModel OpsModel VmModel EmitModel.
Open Scope string_scope. Open Scope list_scope. Open Scope Z_scope.

(* cc.h:28-40 WROperationType *)
Inductive optype := Pre | Binary | Commute | Post.
(* cc.h:43-51 WROperation; alt = None is O_LAST *)
Record oper := mkO { o_tok : string; o_prec : Z; o_code : opcode; o_l2r : bool; o_type : optype; o_alt : option opcode }.
(* cc.h:64-128 *)
Definition c_operations : list oper := [
  mkO "==" 10 O_CompareEQ true Commute None;
  mkO "!=" 10 O_CompareNE true Commute None;
  mkO ">=" 9 O_CompareGE true Binary (Some O_CompareLE);
  mkO "<=" 9 O_CompareLE true Binary (Some O_CompareGE);
  mkO ">" 9 O_CompareGT true Binary (Some O_CompareLT);
  mkO "<" 9 O_CompareLT true Binary (Some O_CompareGT);
  mkO "&&" 14 O_LogicalAnd true Commute None;
  mkO "||" 15 O_LogicalOr true Commute None;
  mkO "++" 3 O_PreIncrement true Pre None;
  mkO "++" 2 O_PostIncrement true Post None;
  mkO "--" 3 O_PreDecrement true Pre None;
  mkO "--" 2 O_PostDecrement true Post None;
  mkO "." 2 O_HASH_PLACEHOLDER true Binary None;
  mkO "!" 3 O_LogicalNot false Pre None;
  mkO "~" 3 O_BitwiseNOT false Pre None;
  mkO "-" 3 O_Negate false Pre None;
  mkO "+" 6 O_BinaryAddition true Binary None;
  mkO "-" 6 O_BinarySubtraction true Binary None;
  mkO "*" 5 O_BinaryMultiplication true Commute None;
  mkO "/" 5 O_BinaryDivision true Binary None;
  mkO "%" 6 O_BinaryMod true Binary None;
  mkO "|" 13 O_BinaryOr true Commute None;
  mkO "&" 11 O_BinaryAnd true Commute None;
  mkO "^" 11 O_BinaryXOR true Commute None;
  mkO ">>" 7 O_BinaryRightShift true Binary None;
  mkO "<<" 7 O_BinaryLeftShift true Binary None;
  mkO "+=" 16 O_AddAssign true Binary None;
  mkO "-=" 16 O_SubtractAssign true Binary None;
  mkO "%=" 16 O_ModAssign true Binary None;
  mkO "*=" 16 O_MultiplyAssign true Binary None;
  mkO "/=" 16 O_DivideAssign true Binary None;
  mkO "|=" 16 O_ORAssign true Binary None;
  mkO "&=" 16 O_ANDAssign true Binary None;
  mkO "^=" 16 O_XORAssign true Binary None;
  mkO ">>=" 16 O_RightShiftAssign false Binary None;
  mkO "<<=" 16 O_LeftShiftAssign false Binary None;
  mkO "=" 16 O_Assign false Binary None;
  mkO "@i" 3 O_ToInt false Pre None;
  mkO "@f" 3 O_ToFloat false Pre None;
  mkO "@[]" 2 O_Index true Post None;
  mkO "@init" 2 O_InitArray true Post None;
  mkO "@macroBegin" 0 O_LAST true Post None;
  mkO "._count" 2 O_CountOf true Post None;
  mkO "._hash" 2 O_HashOf true Post None;
  mkO "._remove" 2 O_Remove true Post None;
  mkO "._exists" 2 O_HashEntryExists true Post None ].
Definition c_highestPrecedence : Z := 17.

Section Expr.
Context {leaf : Type}.

(* cc.h:134-145 WRExpressionType; an operator carries the block of its index or argument list *)
Inductive kind := KNone | KLeaf (l : leaf) | KOp (o : oper) (x : list leaf) | KResolved.
(* cc.h:212-268 WRExpressionContext *)
Record ectx := mkE { e_kind : kind; e_pos : Z }.

(* cc.cpp:1393-1417 operatorFound; [prev] is context[depth-1] *)
Definition binary_type (t : optype) : bool := match t with Binary | Commute => true | _ => false end.
Definition operator_found (tok : string) (prev : option ectx) : option oper :=
  find (fun o => String.eqb tok (o_tok o) &&
                 match o_type o, prev with
                 | Pre, Some e => match e_kind e with KOp q _ => binary_type (o_type q) | _ => false end
                 | _, _ => true
                 end) c_operations.

(* what is appended to the byte code *)
Inductive action :=
| ALoad (l : leaf)          (* the code of an operand *)
| AHash (k : kind)          (* the hash of the token after a '.' *)
| ASwap (n : Z)             (* StackSwap n *)
| ASwap2 (a b : Z)          (* SwapTwoToTop a b *)
| AOp (o : oper) (x : list leaf)   (* the block of an operator *)
| AAlt (c : opcode).        (* its mirrored form *)

(* cc.h:292-341 pushToStack *)
Definition set_pos (e : ectx) (p : Z) : ectx := mkE (e_kind e) p.
Fixpoint mapi {A B} (f : nat -> A -> B) (i : nat) (l : list A) : list B :=
  match l with [] => [] | x :: r => f i x :: mapi f (S i) r end.
Fixpoint compact (n : nat) (h : Z) (cs : list ectx) : list ectx :=
  match n with
  | O => cs
  | S n' => if existsb (fun e => e_pos e =? h) cs then compact n' (h + 1) cs
            else compact n' h (map (fun e => if h <? e_pos e then set_pos e (e_pos e - 1) else e) cs)
  end.
Definition push_to_stack (i : nat) (cs : list ectx) : list ectx :=
  let cs1 := mapi (fun j e => if Nat.eqb j i then set_pos e 0
                              else if e_pos e =? -1 then e else set_pos e (e_pos e + 1)) 0 cs in
  let highest := fold_left (fun h e => Z.max h (e_pos e)) cs1 0 in
  compact (Z.to_nat highest) 0 cs1.

(* cc.cpp:1050-1082 swapWithTop: the bookkeeping *)
Definition swap_with_top (p : Z) (cs : list ectx) : cres (list ectx) :=
  if p =? 0 then COk cs
  else if existsb (fun e => e_pos e =? p) cs && existsb (fun e => e_pos e =? 0) cs then
    COk (map (fun e => if e_pos e =? 0 then set_pos e p else if e_pos e =? p then set_pos e 0 else e) cs)
  else CUB.
(* and the instruction; the operand is an unsigned char *)
Definition swap_code (p : Z) : list action := if p =? 0 then [] else [ASwap (u8 (p + 1))].

(* cc.cpp:968-1047 loadExpressionContext( expression, depth, operation ) *)
Definition pos_of (cs : list ectx) (i : nat) : Z := match nth_error cs i with Some e => e_pos e | None => -1 end.
Definition is_hash (cs : list ectx) (o : nat) : bool :=
  match nth_error cs o with
  | Some e => match e_kind e with KOp q _ => op_eqb (o_code q) O_HASH_PLACEHOLDER | _ => false end
  | None => false
  end.
Definition load_code (cs : list ectx) (i o : nat) : list action :=
  match nth_error cs i with
  | Some e => if ((0 <? o) && (o <? i))%nat && is_hash cs o then [AHash (e_kind e)]
              else match e_kind e with KLeaf l => [ALoad l] | _ => [] end
  | None => []
  end.
Definition load (i : nat) (cs : list ectx) : list ectx :=
  mapi (fun j e => if Nat.eqb j i then mkE KResolved (e_pos e) else e) 0 (push_to_stack i cs).
Definition remove_at (i n : nat) (cs : list ectx) : list ectx := firstn i cs ++ skipn (i + n) cs.

(* context[i] past the end appends an empty context (utils/simple_containers.h: operator[]) *)
Definition grown (i : nat) (cs : list ectx) : list ectx := if (i <? length cs)%nat then cs else cs ++ [mkE KNone (-1)].

(* cc.cpp:1143-1390 resolveExpressionEx: the new contexts, what is emitted, the return value *)
Definition resolved := (list ectx * list action * Z)%type.
Definition unary (q : oper) (x : list leaf) (o arg : nat) (cs : list ectx) : cres resolved :=
  let p := pos_of cs arg in
  '(cs1, a) <~ (if p =? -1 then COk (load arg cs, load_code cs arg (match o_type q with Post => o | _ => O end))
                else cs1 <~ swap_with_top p cs ;; COk (cs1, swap_code p)) ;;
  COk (push_to_stack (match o_type q with Post => (o - 1)%nat | _ => o end) (remove_at o 1 cs1), a ++ [AOp q x], 1).

(* the two operands to positions 0 and 1; the boolean is useAlt *)
Definition two_to_top (f s : Z) (code : list action) (cs : list ectx) (first : nat) : cres (list ectx * list action * bool) :=
  cs1 <~ swap_with_top s cs ;;
  cs2 <~ swap_with_top 1 cs1 ;;
  cs3 <~ swap_with_top (pos_of cs2 first) cs2 ;;
  COk (cs3, code, false).
Definition commute_operands (o : nat) (cs : list ectx) : cres (list ectx * list action * bool) :=
  let second := S o in let first := (o - 1)%nat in
  let s := pos_of cs second in let f := pos_of cs first in
  if s =? -1 then
    '(cs1, a) <~ (if f =? -1 then COk (load first cs, load_code cs first o)
                  else cs1 <~ swap_with_top f cs ;; COk (cs1, swap_code f)) ;;
    COk (load second cs1, a ++ load_code cs1 second o, false)
  else if f =? -1 then
    cs1 <~ swap_with_top s cs ;; COk (load first cs1, swap_code s ++ load_code cs1 first o, false)
  else if s =? 1 then cs1 <~ swap_with_top f cs ;; COk (cs1, swap_code f, false)
  else if f =? 1 then cs1 <~ swap_with_top s cs ;; COk (cs1, swap_code s, false)
  else two_to_top f s [ASwap2 (u8 (f + 1)) (u8 (s + 1))] cs first.
Definition binary_operands (q : oper) (o : nat) (cs : list ectx) : cres (list ectx * list action * bool) :=
  let second := S o in let first := (o - 1)%nat in
  let s := pos_of cs second in let f := pos_of cs first in
  if s =? -1 then
    if f =? -1 then
      let cs1 := load second cs in
      COk (load first cs1, load_code cs second o ++ load_code cs1 first o, false)
    else
      cs1 <~ swap_with_top f cs ;;
      let cs2 := load second cs1 in
      let a := swap_code f ++ load_code cs1 second o in
      match o_alt q with
      | None => cs3 <~ swap_with_top 1 cs2 ;; COk (cs3, a ++ swap_code 1, false)
      | Some _ => COk (cs2, a, true)
      end
  else if f =? -1 then
    cs1 <~ swap_with_top s cs ;; COk (load first cs1, swap_code s ++ load_code cs1 first o, false)
  else if s =? 1 then cs1 <~ swap_with_top f cs ;; COk (cs1, swap_code f, false)
  else if s =? 0 then
    if f =? 1 then cs1 <~ swap_with_top 1 cs ;; COk (cs1, swap_code 1, false)
    else
      cs1 <~ swap_with_top 1 cs ;;
      cs2 <~ swap_with_top (pos_of cs1 first) cs1 ;;
      COk (cs2, [ASwap2 (u8 (f + 1)) 2], false)
  else two_to_top f s [ASwap2 (u8 (f + 1)) (u8 (s + 1))] cs first.

Definition resolve_ex (o : nat) (cs : list ectx) : cres resolved :=
  match nth_error cs o with
  | Some (mkE (KOp q x) _) =>
    match o_type q with
    | Pre => unary q x o (S o) (grown (S o) cs)
    | Post => if Nat.eqb o 0 then CErr E_bad_expression else unary q x o (o - 1) cs
    | t =>
      if Nat.eqb o 0 then CErr E_bad_expression
      else
        '(cs1, a, alt) <~ (match t with Commute => commute_operands o | _ => binary_operands q o end) (grown (S o) cs) ;;
        let op := if alt : bool then match o_alt q with Some c => [AAlt c] | None => [] end else [AOp q x] in
        COk (push_to_stack (o - 1) (remove_at (o - 1) 2 cs1), a ++ op, 2)
    end
  | _ => CUB
  end.

(* cc.cpp:1085-1140 resolveExpression *)
Definition due (p : Z) (l2r : bool) (e : ectx) : bool :=
  match e_kind e with KOp q _ => (o_prec q <=? p) && Bool.eqb (o_l2r q) l2r | _ => false end.
Fixpoint find_first (f : ectx -> bool) (i : nat) (cs : list ectx) : option nat :=
  match cs with [] => None | e :: r => if f e then Some i else find_first f (S i) r end.
Fixpoint find_last (f : ectx -> bool) (i : nat) (cs : list ectx) : option nat :=
  match cs with [] => None | e :: r => match find_last f (S i) r with Some j => Some j | None => if f e then Some i else None end end.
(* one of the two inner loops; each turn resolves one operator, [n] bounds their number *)
Fixpoint resolve_phase (n : nat) (p : Z) (l2r : bool) (cs : list ectx) (a : list action) (r : Z) : cres resolved :=
  match (if l2r then find_first else find_last) (due p l2r) O cs with
  | None => COk (cs, a, r)
  | Some o =>
    match n with
    | O => CErr E_fuel
    | S n' => '(cs1, a1, k) <~ resolve_ex o cs ;; resolve_phase n' p l2r cs1 (a ++ a1) (r + k)
    end
  end.
Fixpoint resolve_levels (n : nat) (p : Z) (cs : list ectx) (a : list action) (r : Z) : cres resolved :=
  match n with
  | O => COk (cs, a, r)
  | S n' =>
    if (length cs <=? 1)%nat then COk (cs, a, r)
    else
      '(cs1, a1, r1) <~ resolve_phase (length cs) p true cs a r ;;
      '(cs2, a2, r2) <~ resolve_phase (length cs1) p false cs1 a1 r1 ;;
      resolve_levels n' (p + 1) cs2 a2 r2
  end.
Definition resolve_expression (cs : list ectx) : cres (list action) :=
  match cs with
  | [_] => COk (load_code cs 0 0)
  | _ =>
    '(_, a, r) <~ resolve_levels (Z.to_nat c_highestPrecedence) 0 cs [] 1 ;;
    if negb (lenZ cs =? 0) && negb (r =? lenZ cs) then CErr E_bad_expression else COk a
  end.

(* expression.cpp:66-560: the contexts of a list of operands and operator texts.  An operand directly
   after an operand is an error (for labels and literals there, for all here). *)
Inductive item := IAtom (l : leaf) | ISym (s : string) (x : list leaf).
Fixpoint contexts (l : list item) (prev : option ectx) : cres (list ectx) :=
  match l with
  | [] => COk []
  | i :: r =>
    e <~ match i with
         | ISym s a => match operator_found s prev with Some q => COk (mkE (KOp q a) (-1)) | None => CErr E_bad_expression end
         | IAtom x => match prev with
                      | Some (mkE (KLeaf _) _) => CErr E_bad_expression
                      | _ => COk (mkE (KLeaf x) (-1))
                      end
         end ;;
    es <~ contexts r (Some e) ;; COk (e :: es)
  end.
Definition parse_expression (l : list item) : cres (list action) :=
  cs <~ contexts l None ;; resolve_expression cs.
End Expr.
Arguments kind : clear implicits. Arguments ectx : clear implicits. Arguments action : clear implicits.
Arguments item : clear implicits.
