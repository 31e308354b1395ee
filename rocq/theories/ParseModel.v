(* Source text to the code of an expression: WRCompilationContext::parseExpression
   (cc/expression.cpp:60-616) on the characters of the source, with isValidLabel (cc/cc.cpp:193-258),
   isNamedEnumMember (812-831), addLocalSpaceLoad and addGlobalSpaceLoad (834-966), the tokenizer of
   TokenModel and the resolution of ExprModel.
   Simplifications: an error is an error however it is reported (m_err is set and the compilation fails in
   the end: the functions here fail at once).  POutside marks what is not modelled: string and float
   literals, calls of members and of libraries, indexes, initializers, new, blank variables, goto labels,
   constants of libraries; no debug symbols are compiled in (m_addDebugSymbols). *)
From Coq Require Import String Ascii.
From Verif Require Import Base HashModel OpsModel VmModel EmitModel ExprModel ExprEmit TokenModel.
Open Scope list_scope. Open Scope Z_scope.

Inductive pres (A : Type) := POk (a : A) | PErr | PUB | PFuel | POutside.
Arguments POk {A}. Arguments PErr {A}. Arguments PUB {A}. Arguments PFuel {A}. Arguments POutside {A}.
Definition pbind {A B} (r : pres A) (f : A -> pres B) : pres B :=
  match r with POk a => f a | PErr => PErr | PUB => PUB | PFuel => PFuel | POutside => POutside end.
Notation "x <<- e ;; f" := (pbind e (fun x => f)) (at level 100, e at next level, right associativity).
Notation "' p <<- e ;; f" := (pbind e (fun p => f)) (at level 100, p pattern, e at next level, right associativity).
Definition lift {A} (r : cres A) : pres A := match r with COk a => POk a | CErr E_fuel => PFuel | CErr _ => PErr | CUB => PUB end.

(* an operand with its token (cc.h:212-268): a number, a name (with isGlobal and varSeen), the code of what
   stands in parentheses *)
Inductive pleaf := LInt (t : list Z) (z : Z) | LName (t : list Z) (global var : bool) | LCode (t : list Z) (b : bcode).
Definition leaf_text (l : pleaf) : list Z := match l with LInt t _ | LName t _ _ | LCode t _ => t end.
(* the characters of a token as a string of the operator table *)
Fixpoint string_of (t : list Z) : string :=
  match t with [] => EmptyString | c :: r => String (ascii_of_nat (Z.to_nat c)) (string_of r) end.
Definition is (t : list Z) (s : string) : bool := same_text t (text s).

(* wr_hash, wr_hashStr (lib/std.cpp:48-93): the same for names (C06) *)
Definition name_hash (t : list Z) : Z := wr_hash t 0.
(* cc.cpp:30-57 *)
Definition reserved : list (list Z) := map text
  ["enum"; "break"; "case"; "continue"; "default"; "do"; "else"; "false"; "float"; "for"; "if"; "int"; "return"; "switch"; "true";
   "function"; "while"; "new"; "null"; "struct"; "goto"; "export"; "unit"; "blank"]%string.
Definition colons (t : list Z) : bool := match t with a :: b :: _ => (a =? 58) && (b =? 58) | _ => false end.
(* cc.cpp:193-258 isValidLabel; a :: behind a name makes it the constant of a library *)
Inductive label := NoLabel | Label (global : bool) | LibLabel.
Definition valid_label (t : list Z) : label :=
  let body := if colons t then skipn 2 t else t in
  match t with
  | [] => NoLabel
  | c :: _ =>
    if negb (c_alpha c) && negb (c =? 95) && negb (c =? 58) then NoLabel
    else if (c =? 58) && negb (colons t && (2 <? length t)%nat) then NoLabel
    else if existsb (same_text t) reserved then NoLabel
    else if forallb (fun c => c_alnum c || (c =? 95)) body then Label (colons t)
    else if existsb (Z.eqb 58) body then LibLabel
    else NoLabel
  end.

Section Parse.
Variable lbits : Z.
Variable atof : list Z -> Z.
Variable consts0 consts : list (list Z * tval).
(* m_needVar, m_unitTop = 0, isStructSpace, m_parsingFor *)
Variable need_var top struct parsing_for : bool.

(* cc.cpp:812-831: what follows the first :: of the label of a constant *)
Fixpoint behind_colons (t : list Z) : option (list Z) :=
  match t with
  | [] => None
  | a :: r => if colons t then Some (skipn 2 t) else behind_colons r
  end.
Definition named_enum_member (t : list Z) : bool :=
  existsb (fun c => match behind_colons (fst c) with Some m => same_text m t | None => false end) (consts0 ++ consts).

Fixpoint index_of (h : Z) (l : list Z) : option Z :=
  match l with [] => None | x :: r => if x =? h then Some 0 else option_map (Z.add 1) (index_of h r) end.
Definition load_variable (s : space) (i : Z) (b : bcode) : pres bcode :=
  b1 <<- lift (push_opcode (match s with SL => O_LoadFromLocal | SG => O_LoadFromGlobal end) b) ;; POk (push_data [u8 i] b1).
(* cc.cpp:889-896, 942-949: the name of a function stands for its hash *)
Definition load_hash (t : list Z) (allow : bool) (b : bcode) (g : list Z) : pres (bcode * list Z) :=
  if allow && negb (named_enum_member t)
  then b1 <<- lift (push_opcode O_LiteralInt32 b) ;; POk (push_data (wr_pack32 (name_hash t)) b1, g)
  else PErr.
Definition global_name (t : list Z) : list Z := if colons t then t else [58; 58] ++ t.
(* cc.cpp:916-966 addGlobalSpaceLoad, with addOnly = false.  [g] is m_units[0].bytecode.localSpace *)
Definition add_global (t : list Z) (var allow : bool) (b : bcode) (g : list Z) : pres (bcode * list Z) :=
  let h := name_hash (global_name t) in
  match index_of h g with
  | Some i => b1 <<- load_variable SG i b ;; POk (b1, g)
  | None => if need_var && negb var then load_hash t allow b g
            else b1 <<- load_variable SG (lenZ g) b ;; POk (b1, g ++ [h])
  end.
(* cc.cpp:834-913 addLocalSpaceLoad, with addOnly = false *)
Definition add_local (t : list Z) (var allow : bool) (b : bcode) (g : list Z) : pres (bcode * list Z) :=
  if top then add_global t var allow b g
  else
    let h := name_hash t in
    match index_of h (b_locals b) with
    | Some i => b1 <<- load_variable SL i b ;; POk (b1, g)
    | None =>
      match (if negb struct || var then index_of (name_hash (if var then t else global_name t)) g else None) with
      | Some j => b1 <<- load_variable SG j b ;; POk (b1, g)
      | None => if need_var && negb var then load_hash t allow b g
                else b1 <<- load_variable SL (lenZ (b_locals b))
                             (mkB (b_all b) (b_ops b) (b_locals b ++ [h]) (b_fns b) (b_objs b) (b_jumps b) (b_gotos b)) ;; POk (b1, g)
      end
    end.

(* cc.cpp:968-1047 *)
Definition leaf_term (l : pleaf) : term := mkTerm (name_hash (leaf_text l)) (OInt 0).
Definition text_kind (k : kind pleaf) : kind term :=
  match k with KNone => KNone | KLeaf l => KLeaf (leaf_term l) | KOp o x => KOp o (map leaf_term x) | KResolved => KResolved end.
Definition text_action (a : action pleaf) : action term :=
  match a with
  | ALoad l => ALoad (leaf_term l)
  | AHash k => AHash (text_kind k)
  | ASwap n => ASwap n
  | ASwap2 n m => ASwap2 n m
  | AOp q x => AOp q (map leaf_term x)
  | AAlt c => AAlt c
  end.
Definition emit_named (allow : bool) (a : action pleaf) (b : bcode) (g : list Z) : pres (bcode * list Z) :=
  match a with
  | ALoad (LInt _ z) => b1 <<- lift (push_literal z b) ;; POk (b1, g)
  | ALoad (LName t global var) => if global then add_global t var allow b g else add_local t var allow b g
  | ALoad (LCode _ c) => b1 <<- lift (append_bytecode b c) ;; POk (b1, g)
  | _ => b1 <<- lift (emit_action (text_action a) b) ;; POk (b1, g)
  end.
Fixpoint emit_names (allow : bool) (l : list (action pleaf)) (b : bcode) (g : list Z) : pres (bcode * list Z) :=
  match l with [] => POk (b, g) | a :: r => ' (b1, g1) <<- emit_named allow a b g ;; emit_names allow r b1 g1 end.

(* m_source + m_pos, the token handed back, m_units[0].bytecode.localSpace *)
Record pst := mkP { p_src : list Z; p_loaded : option tok; p_globals : list Z }.
(* token.cpp:36-611 *)
Definition next (st : pst) : pres (tok * pst) :=
  match get_token lbits atof consts0 consts (S (length (p_src st))) (p_loaded st) None (p_src st) with
  | Ok (Some t, rest, _) => POk (t, mkP rest None (p_globals st))
  | Ok (None, _, _) => PErr
  | UB => PUB
  | OutOfFuel => PFuel
  end.
Definition hand_back (t : tok) (st : pst) : pst := mkP (p_src st) (Some t) (p_globals st).

Definition prev_of (cs : list (ectx pleaf)) : option (ectx pleaf) := match rev cs with [] => None | e :: _ => Some e end.
Definition label_or_literal (p : option (ectx pleaf)) : bool :=
  match p with Some (mkE (KLeaf (LInt _ _)) _) | Some (mkE (KLeaf (LName _ _ _)) _) => true | _ => false end.
Definition is_label (p : option (ectx pleaf)) : bool := match p with Some (mkE (KLeaf (LName _ _ _)) _) => true | _ => false end.
(* ._remove and ._exists, whose argument follows in parentheses *)
Definition takes_argument (p : option (ectx pleaf)) : bool :=
  match p with Some (mkE (KOp q _) _) => op_eqb (o_code q) O_Remove || op_eqb (o_code q) O_HashEntryExists | _ => false end.
Definition ends (t : list Z) : bool := existsb (is t) [";"; ")"; "}"; ","; "]"; ":"]%string.
Definition operator (s : string) (cs : list (ectx pleaf)) : kind pleaf :=
  match operator_found s (prev_of cs) with Some q => KOp q [] | None => KNone end.

(* expression.cpp:566-616: the end of the expression *)
Definition finish (locals : list Z) (allow : bool) (cs : list (ectx pleaf)) (st : pst) : pres (bcode * pst) :=
  a <<- lift (resolve_expression cs) ;;
  ' (b, g) <<- emit_names allow a (mkB [] [] locals [] [] [] []) (p_globals st) ;;
  POk (b, mkP (p_src st) (p_loaded st) g).

(* cc.cpp:1451-1467: an argument that ends in an index is dereferenced *)
Definition ends_in_index (b : bcode) : bool :=
  match b_ops b with
  | o :: _ => existsb (op_eqb o) [O_Index; O_IndexSkipLoad; O_IndexLiteral8; O_IndexLiteral16; O_IndexLocalLiteral8; O_IndexGlobalLiteral8;
                                  O_IndexLocalLiteral16; O_IndexGlobalLiteral16]
  | [] => false
  end.
Definition dereferenced (b : bcode) : bcode :=
  if ends_in_index b then mkB (b_all b ++ [byte_of O_Dereference]) (O_Dereference :: b_ops b) (b_locals b) (b_fns b) (b_objs b) (b_jumps b) (b_gotos b) else b.
(* cc.cpp:1431-1480: the arguments of a call, with parseExpression as [parse]: the text of the last token
   that is read here, the number of arguments, their code.  [m] bounds the arguments. *)
Fixpoint call_args (parse : pst -> pres (Z * bcode * pst)) (m : nat) (count : Z) (b : bcode) (st : pst) : pres (list Z * Z * bcode * pst) :=
  match m with
  | O => PFuel
  | S m' =>
    ' (t, st1) <<- next st ;;
    if negb (t_quoted t) && is (t_text t) ")" then POk (t_text t, count, b, st1)
    else
      ' (e, c, st2) <<- parse (hand_back t st1) ;;
      b1 <<- lift (append_bytecode b (dereferenced c)) ;;
      if e =? 41 then POk (t_text t, count + 1, b1, st2)
      else if e =? 44 then call_args parse m' (count + 1) b1 st2
      else PErr
  end.
(* cc.cpp:1505-1517 *)
Fixpoint add_reference (h pos : Z) (l : list (Z * list Z)) : list (Z * list Z) :=
  match l with
  | [] => [(h, [pos])]
  | (h', ps) :: r => if h' =? h then (h', ps ++ [pos]) :: r else (h', ps) :: add_reference h pos r
  end.
(* cc.cpp:1502-1545: the place that the linker completes; yield has an instruction *)
Definition call_code (t : list Z) (count : Z) (b : bcode) : pres bcode :=
  let b0 := mkB (b_all b) (b_ops b) (b_locals b) (add_reference (name_hash t) (size b) (b_fns b)) (b_objs b) (b_jumps b) (b_gotos b) in
  if name_hash t =? name_hash (text "yield")
  then b1 <<- lift (push_opcode O_Yield b0) ;; POk (push_data [u8 count] b1)
  else b1 <<- lift (push_opcode O_FUNCTION_CALL_PLACEHOLDER b0) ;; POk (push_data [u8 count; 88; 88; 88; 88] b1).
Definition label_text (p : option (ectx pleaf)) : list Z := match p with Some (mkE (KLeaf l) _) => leaf_text l | _ => [] end.

(* expression.cpp:60-616.  [cs] are the contexts so far, [var] whether var stands before the next token,
   [allow] is allowFunctionNameHashLiteral; the result is the character that ends the expression, and its
   code.  [n] bounds the tokens. *)
Fixpoint parse_loop (n : nat) (locals : list Z) (cs : list (ectx pleaf)) (var allow : bool) (st : pst) : pres (Z * bcode * pst) :=
  match n with
  | O => PFuel
  | S k =>
    ' (t, st1) <<- next st ;;
    let prev := prev_of cs in
    let add (x : kind pleaf) (st : pst) := parse_loop k locals (cs ++ [mkE x (-1)]) false allow st in
    match t_val t with
    | IntVal v => if label_or_literal prev then PErr else add (KLeaf (LInt (t_text t) (s32 v))) st1       (* 79-100 *)
    | FloatVal _ | TextVal => if label_or_literal prev then PErr else POutside
    | NoVal =>
      if ends (t_text t) then                                                                             (* 102-106 *)
        ' (b, st2) <<- finish locals allow cs st1 ;; POk (nth O (t_text t) 0, b, st2)
      else if is (t_text t) "var" then parse_loop k locals cs true true st1                               (* 110-115 *)
      else if is (t_text t) "blank" || is (t_text t) "{" then POutside
      else
        match operator_found (string_of (t_text t)) prev with                                             (* 141-145 *)
        | Some q => add (KOp q []) st1
        | None =>
          if is (t_text t) "new" then POutside
          else if is (t_text t) "(" then                                                                  (* 361-448 *)
            if is_label prev then                                                                         (* 365-377, cc.cpp:1420-1546 *)
              ' (t2, count, c, st2) <<- call_args (parse_loop k locals [] false true) k 0 (mkB [] [] [] [] [] [] []) st1 ;;
              b <<- call_code (label_text prev) count c ;;
              parse_loop k locals (removelast cs ++ [mkE (KLeaf (LCode t2 b)) (-1)]) false allow st2
            else
              ' (t2, st2) <<- next st1 ;;
              if is (t_text t2) ")" then PErr
              else if is (t_text t2) "int" || is (t_text t2) "float" then
                ' (t3, st3) <<- next st2 ;;
                if is (t_text t3) ")" then add (operator (if is (t_text t2) "int" then "@i" else "@f")%string cs) st3 else PErr
              else
                ' (e, b, st3) <<- parse_loop k locals [] false false (hand_back t2 st2) ;;
                if e =? 41 then if takes_argument prev then POutside else add (KLeaf (LCode (t_text t2) b)) st3
                else PErr
          else if is (t_text t) "[" then POutside
          else
            match valid_label (t_text t) with                                                             (* 483-560 *)
            | NoLabel => PErr
            | LibLabel => POutside
            | Label global =>
              if label_or_literal prev then PErr
              else
                match cs with
                | [] =>
                  if parsing_for then add (KLeaf (LName (t_text t) global var)) st1
                  else
                    ' (t2, st2) <<- next st1 ;;
                    if negb (t_quoted t2) && is (t_text t2) ":" then POutside
                    else add (KLeaf (LName (t_text t) global var)) (hand_back t2 st2)
                | _ => add (KLeaf (LName (t_text t) global var)) st1
                end
            end
        end
    end
  end.
Definition parse_text (n : nat) (locals : list Z) (allow : bool) (st : pst) : pres (Z * bcode * pst) :=
  parse_loop n locals [] false allow st.
End Parse.
