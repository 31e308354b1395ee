(* Source text to units: the statements and functions of cc/cc.cpp on the characters of the source.  The
   tokens come from the tokenizer (TokenModel), expressions from ParseModel; the code is emitted into the
   compilation context of CcModel, whose list of tokens is not used here.
   Simplifications: as in ParseModel, an error stops the compilation at once.  POutside marks what is not
   modelled on this level: for-each, goto and labels, struct, enum, export, case values
   that are floats or constant strings, and the tokenizer failing without an error. *)
From Coq Require Import String.
From Verif Require Import Base HashModel OpsModel VmModel EmitModel ExprModel ExprEmit.
From Verif Require CcModel.
From Verif Require Import TokenModel ParseModel.
Open Scope list_scope. Open Scope Z_scope.

(* m_source + m_pos, the token handed back, the units and jump targets *)
Record xst := mkX { x_src : list Z; x_loaded : option tok; x_ctx : CcModel.pst }.
Definition with_ctx (c : CcModel.pst) (x : xst) : xst := mkX (x_src x) (x_loaded x) c.
Definition put_back (t : tok) (x : xst) : xst := mkX (x_src x) (Some t) (x_ctx x).
Definition act (f : bcode -> cres bcode) (x : xst) : pres xst :=
  c <<- lift (CcModel.emit f (x_ctx x)) ;; POk (with_ctx c x).
Definition target (x : xst) : xst * nat := let '(c, t) := CcModel.new_target (x_ctx x) in (with_ctx c x, t).
Definition brk (x : xst) : list nat := CcModel.p_brk (x_ctx x).
Definition cont (x : xst) : list nat := CcModel.p_cont (x_ctx x).
Definition put_brk (t : list nat) (x : xst) : xst := with_ctx (CcModel.set_brk t (x_ctx x)) x.
Definition put_cont (t : list nat) (x : xst) : xst := with_ctx (CcModel.set_cont t (x_ctx x)) x.
Definition current (x : xst) : bcode := CcModel.cur (x_ctx x).
Definition with_locals (l : list Z) (b : bcode) : bcode := mkB (b_all b) (b_ops b) l (b_fns b) (b_objs b) (b_jumps b) (b_gotos b).
Definition unquoted (t : tok) (s : string) : bool := negb (t_quoted t) && is (t_text t) s.
Definition at_top (c : CcModel.pst) : bool := match CcModel.p_fn c with None => true | Some _ => false end.

Section Text.
Variable lbits : Z.
Variable atof : list Z -> Z.
Variable consts0 consts : list (list Z * tval).
Variable need_var : bool.

(* token.cpp:36-611; None: the end of the source *)
Definition read (x : xst) : pres (option tok * xst) :=
  match (match x_loaded x with
         | Some t => if handed_back t then Ok (TTok t (x_src x)) else next_token lbits atof consts0 consts (S (length (x_src x))) (x_src x)
         | None => next_token lbits atof consts0 consts (S (length (x_src x))) (x_src x)
         end) with
  | Ok (TTok t rest) => POk (Some t, mkX rest None (x_ctx x))
  | Ok (TFail FEof) => POk (None, mkX (x_src x) None (x_ctx x))
  | Ok (TFail FPlain) => POutside
  | Ok (TFail _) => PErr
  | UB => PUB
  | OutOfFuel => PFuel
  end.
(* getToken(ex) where the end of the source is an error *)
Definition need (x : xst) : pres (tok * xst) :=
  ' (o, x1) <<- read x ;; match o with Some t => POk (t, x1) | None => PErr end.
(* getToken(ex, "s"): the text is compared, whether it is quoted or not *)
Definition demand (s : string) (x : xst) : pres xst :=
  ' (t, x1) <<- need x ;; if is (t_text t) s then POk x1 else PErr.
(* a token is read and handed back *)
Definition look_ahead (x : xst) : pres xst := ' (t, x1) <<- need x ;; POk (put_back t x1).

(* expression.cpp:60-616 with a WRExpression made from the unit.  Outside of functions the globals are the
   locals of unit 0. *)
Definition expression (parsing_for : bool) (x : xst) : pres (Z * bcode * xst) :=
  let c := x_ctx x in
  ' (e, b, st) <<- parse_text lbits atof consts0 consts need_var (at_top c) false parsing_for (S (S (length (x_src x)))) (b_locals (current x)) false
                     (mkP (x_src x) (x_loaded x) (b_locals (CcModel.p_glob c))) ;;
  POk (e, b, mkX (p_src st) (p_loaded st)
               (CcModel.mkP [] (with_locals (p_globals st) (CcModel.p_glob c)) (CcModel.p_fn c) (CcModel.p_units c)
                            (CcModel.p_brk c) (CcModel.p_cont c) (CcModel.p_fe c))).
Definition expression_to (parsing_for : bool) (e : Z) (x : xst) : pres (bcode * xst) :=
  ' (e', b, x1) <<- expression parsing_for x ;; if e' =? e then POk (b, x1) else PErr.

Section Statement.
(* the recursive call: opcodeToReturn, the character that ends *)
Variable ps : opcode -> Z -> xst -> pres xst.

(* cc.cpp:1942-2001 parseWhile *)
Definition text_while (ret : opcode) (x : xst) : pres xst :=
  x <<- demand "(" x ;;
  x <<- look_ahead x ;;
  ' (c, x) <<- expression_to false 41 x ;;
  let '(x, tc) := target x in
  let x := put_cont (tc :: cont x) x in
  x <<- act (set_target tc) x ;;
  x <<- act (fun b => append_bytecode b c) x ;;
  let '(x, tb) := target x in
  let x := put_brk (tb :: brk x) x in
  x <<- act (add_source O_BZ tb) x ;;
  x <<- ps ret 59 x ;;
  x <<- act (add_source O_RelativeJump tc) x ;;
  x <<- act (set_target tb) x ;;
  let x := put_brk (tl (brk x)) (put_cont (tl (cont x)) x) in
  act resolve_jumps x.

(* cc.cpp:2004-2073 parseDoWhile; no token is handed back before the condition *)
Definition text_do (ret : opcode) (x : xst) : pres xst :=
  let '(x, tc) := target x in
  let '(x, tb) := target x in
  let x := put_brk (tb :: brk x) (put_cont (tc :: cont x) x) in
  let '(x, tp) := target x in
  x <<- act (set_target tp) x ;;
  x <<- ps ret 59 x ;;
  x <<- act (set_target tc) x ;;
  x <<- demand "while" x ;;
  x <<- demand "(" x ;;
  ' (c, x) <<- expression_to false 41 x ;;
  x <<- demand ";" x ;;
  x <<- act (set_target tc) x ;;
  x <<- act (fun b => append_bytecode b c) x ;;
  x <<- act (add_source O_BZ tb) x ;;
  x <<- act (add_source O_RelativeJump tp) x ;;
  x <<- act (set_target tb) x ;;
  let x := put_brk (tl (brk x)) (put_cont (tl (cont x)) x) in
  act resolve_jumps x.

(* cc.cpp:2961-3033 parseIf *)
Definition text_if (ret : opcode) (x : xst) : pres xst :=
  x <<- demand "(" x ;;
  x <<- look_ahead x ;;
  ' (c, x) <<- expression_to false 41 x ;;
  x <<- act (fun b => append_bytecode b c) x ;;
  let '(x, tf) := target x in
  x <<- act (add_source O_BZ tf) x ;;
  x <<- ps ret 59 x ;;
  ' (o, x) <<- read x ;;
  x <<- match o with
        | None => act (set_target tf) x
        | Some t =>
          if unquoted t "else" then
            let '(x, tp) := target x in
            x <<- act (add_source O_RelativeJump tp) x ;;
            x <<- act (set_target tf) x ;;
            x <<- ps ret 59 x ;;
            act (set_target tp) x
          else act (set_target tf) (put_back t x)
        end ;;
  act resolve_jumps x.

(* cc.cpp:2130-2231: the setup clause *)
Fixpoint text_setup (n : nat) (x : xst) : pres xst :=
  match n with
  | O => PFuel
  | S n' =>
    ' (t, x) <<- need x ;;
    if unquoted t ";" then POk x
    else
      ' (e, b, x) <<- expression true (put_back t x) ;;
      b1 <<- lift (push_opcode O_PopOne b) ;;
      x <<- act (fun c => append_bytecode c b1) x ;;
      if e =? 59 then POk x
      else if e =? 58 then POutside
      else if e =? 44 then text_setup n' x
      else PErr
  end.
(* cc.cpp:2340-2376: the post clause *)
Fixpoint text_post (n : nat) (post : bcode) (x : xst) : pres (bcode * xst) :=
  match n with
  | O => PFuel
  | S n' =>
    ' (t, x) <<- need x ;;
    if unquoted t ")" then POk (post, x)
    else
      ' (e, b, x) <<- expression true (put_back t x) ;;
      b1 <<- lift (push_opcode O_PopOne b) ;;
      post <<- lift (append_bytecode post b1) ;;
      if e =? 41 then POk (post, x)
      else if e =? 44 then text_post n' post x
      else PErr
  end.
(* cc.cpp:2076-2402 parseForLoop *)
Definition text_for (ret : opcode) (x : xst) : pres xst :=
  x <<- demand "(" x ;;
  let '(x, tc) := target x in
  let '(x, tb) := target x in
  let x := put_brk (tb :: brk x) (put_cont (tc :: cont x) x) in
  x <<- text_setup (S (S (length (x_src x)))) x ;;
  let '(x, tp) := target x in
  x <<- act (set_target tp) x ;;
  ' (t, x) <<- need x ;;
  x <<- (if is (t_text t) ";" then POk x
         else
           ' (c, x) <<- expression_to true 59 (put_back t x) ;;
           x <<- act (fun b => append_bytecode b c) x ;;
           act (add_source O_BZ tb) x) ;;
  ' (post, x) <<- text_post (S (S (length (x_src x)))) (with_locals (b_locals (current x)) empty_bc) x ;;
  x <<- ps ret 59 x ;;
  x <<- act (set_target tc) x ;;
  x <<- act (fun b => append_bytecode b post) x ;;
  x <<- act (add_source O_RelativeJump tp) x ;;
  x <<- act (set_target tb) x ;;
  let x := put_brk (tl (brk x)) (put_cont (tl (cont x)) x) in
  act resolve_jumps x.

(* cc.cpp:2589-2616 getSingleValueHash: within parentheses, only the closing one is asked for *)
Fixpoint single_value (n : nat) (end_ : string) (x : xst) : pres (Z * xst) :=
  match n with
  | O => PFuel
  | S n' =>
    ' (t, x) <<- need x ;;
    if unquoted t "(" then single_value n' ")" x
    else
      match t_val t with
      | NoVal => PErr
      | IntVal v => x <<- demand end_ x ;; POk (u32 v, x)
      | TextVal => if t_quoted t then x <<- demand end_ x ;; POk (name_hash (t_text t), x) else POutside
      | FloatVal _ => POutside
      end
  end.
(* cc.cpp:2696-2771 *)
Fixpoint text_cases (n : nat) (ret : opcode) (cases : list CcModel.scase) (dflt : Z) (td : nat) (x : xst)
  : pres (list CcModel.scase * Z * xst) :=
  match n with
  | O => PFuel
  | S n' =>
    ' (t, x) <<- need x ;;
    if unquoted t "}" then POk (cases, dflt, x)
    else if unquoted t "case" then
      let off := Base.s16 (size (current x)) in
      ' (h, x) <<- single_value (S (S (length (x_src x)))) ":" x ;;
      if existsb (fun c => CcModel.sc_hash c =? h) cases then PErr
      else text_cases n' ret (cases ++ [CcModel.mkCase h off]) dflt td x
    else if unquoted t "default" then
      if negb (dflt =? -1) then PErr
      else
        x <<- demand ":" x ;;
        let d := Base.s16 (size (current x)) in
        x <<- act (set_target td) x ;;
        text_cases n' ret cases d td x
    else if match cases with [] => dflt =? -1 | _ => false end then PErr
    else x <<- ps ret 59 (put_back t x) ;; text_cases n' ret cases dflt td x
  end.
(* cc.cpp:2656-2958 parseSwitch *)
Definition text_switch (ret : opcode) (x : xst) : pres xst :=
  x <<- demand "(" x ;;
  ' (c, x) <<- expression_to false 41 x ;;
  x <<- act (fun b => append_bytecode b c) x ;;
  x <<- demand "{" x ;;
  let '(x, td) := target x in
  let '(x, tb) := target x in
  let x := put_brk (tb :: brk x) x in
  let '(x, tl_) := target x in
  x <<- act (add_source O_RelativeJump tl_) x ;;
  let mark := size (current x) in
  ' (cases, dflt, x) <<- text_cases (S (S (length (x_src x)))) ret [] (-1) td x ;;
  if mark =? size (current x) then
    x <<- act (fun b => push_opcode O_PopOne (set_code b (firstn (length (b_all b) - 3) (b_all b)) [])) x ;;
    x <<- act (fun b => COk (set_jumps b (removelast (b_jumps b)))) x ;;
    POk (put_brk (tl (brk x)) x)
  else
    x <<- (if CcModel.last_op_is O_RelativeJump (current x) then POk x else act (add_source O_RelativeJump tb) x) ;;
    x <<- act (set_target tl_) x ;;
    let sz := u32 (CcModel.max_hash cases 0 + 1) in
    x <<- act (if sz <? 254 then CcModel.linear_table cases dflt sz else CcModel.hash_table cases dflt) x ;;
    x <<- act (set_target tb) x ;;
    x <<- act resolve_jumps x ;;
    POk (put_brk (tl (brk x)) x).

(* cc.cpp:1875-1918: the parameters; a name may be repeated, an argument is counted for each.  A comma may
   stand before the closing parenthesis. *)
Fixpoint text_params (n : nat) (count : Z) (locals : list Z) (x : xst) : pres (Z * list Z * xst) :=
  match n with
  | O => PFuel
  | S n' =>
    ' (t, x) <<- need x ;;
    if unquoted t ")" then POk (count, locals, x)
    else
      match valid_label (t_text t) with
      | Label false =>
        let locals := merge_locals locals [name_hash (t_text t)] in
        ' (t2, x) <<- need x ;;
        if unquoted t2 ")" then POk (count + 1, locals, x)
        else if is (t_text t2) "," then text_params n' (count + 1) locals x
        else PErr
      | _ => PErr
      end
  end.
(* cc.cpp:1836-1939 parseUnit, no struct *)
Definition text_unit (x : xst) : pres xst :=
  ' (t, x) <<- need x ;;
  match valid_label (t_text t) with
  | Label false =>
    ' (t2, x) <<- need x ;;
    ' (count, locals, x) <<- (if is (t_text t2) "(" then
                                ' (count, locals, x) <<- text_params (S (S (length (x_src x)))) 0 [] x ;;
                                x <<- demand "{" x ;; POk (count, locals, x)
                              else if is (t_text t2) "{" then POk (0, [], x)
                              else PErr) ;;
    let c := x_ctx x in
    let outer := CcModel.p_fn c in
    x <<- ps O_Return 125 (with_ctx (CcModel.mkP [] (CcModel.p_glob c) (Some (mkB [] [] locals [] [] [] [])) (CcModel.p_units c)
                                                  (CcModel.p_brk c) (CcModel.p_cont c) (CcModel.p_fe c)) x) ;;
    x <<- (if CcModel.last_op_is O_Return (current x) || CcModel.last_op_is O_ReturnZero (current x) then POk x
           else act (push_opcode O_ReturnZero) x) ;;
    let c := x_ctx x in
    POk (with_ctx (CcModel.mkP [] (CcModel.p_glob c) outer (CcModel.p_units c ++ [CcModel.mkU (name_hash (t_text t)) count false (current x)])
                               (CcModel.p_brk c) (CcModel.p_cont c) (CcModel.p_fe c)) x)
  | _ => PErr
  end.
(* cc.cpp:3177-3202 *)
Definition text_jump (targets : list nat) (x : xst) : pres xst :=
  match targets with t :: _ => act (add_source O_RelativeJump t) x | [] => PErr end.
(* cc.cpp:3077-3111 *)
Definition text_return (ret : opcode) (x : xst) : pres xst :=
  ' (t, x) <<- need x ;;
  x <<- (if unquoted t ";" then act (push_opcode O_LiteralZero) x
         else ' (b, x) <<- expression_to false 59 (put_back t x) ;; act (fun c => append_bytecode c b) x) ;;
  act (push_opcode ret) x.
(* cc.cpp:3233-3257 *)
Definition text_expr_stmt (x : xst) : pres xst :=
  ' (b, x) <<- expression_to false 59 x ;;
  x <<- act (fun c => append_bytecode c b) x ;;
  act (push_opcode O_PopOne) x.
End Statement.

(* cc.cpp:3036-3266 parseStatement: the first character of the token is compared with the end, whether the
   token is quoted or not *)
Fixpoint text_statement (n : nat) (ret : opcode) (end_ : Z) (x : xst) : pres xst :=
  match n with
  | O => PFuel
  | S n' =>
    let ps := text_statement n' in
    let again x := if end_ =? 59 then POk x else ps ret end_ x in
    ' (o, x1) <<- read x ;;
    match o with
    | None => if end_ =? 125 then PErr else POk x1
    | Some t =>
      if nth O (t_text t) 0 =? end_ then POk x1
      else if unquoted t "{" then ps ret 125 x1
      else if unquoted t "return" then x2 <<- text_return ret x1 ;; again x2
      else if unquoted t "struct" then POutside
      else if unquoted t "function" || unquoted t "unit" then
        if at_top (x_ctx x1) then x2 <<- text_unit ps x1 ;; again x2 else PErr
      else if unquoted t "if" then x2 <<- text_if ps ret x1 ;; again x2
      else if unquoted t "while" then x2 <<- text_while ps ret x1 ;; again x2
      else if unquoted t "for" then x2 <<- text_for ps ret x1 ;; again x2
      else if unquoted t "enum" || unquoted t "export" then POutside
      else if unquoted t "switch" then x2 <<- text_switch ps ret x1 ;; again x2
      else if unquoted t "do" then x2 <<- text_do ps ret x1 ;; again x2
      else if unquoted t "break" then x2 <<- text_jump (brk x1) x1 ;; again x2
      else if unquoted t "continue" then x2 <<- text_jump (cont x1) x1 ;; again x2
      else if unquoted t "goto" then POutside
      else x2 <<- text_expr_stmt (put_back t x1) ;; again x2
    end
  end.

(* cc.cpp:94-113, 143-152 compile, up to link *)
Fixpoint text_program (n fuel : nat) (x : xst) : pres xst :=
  match n with
  | O => PFuel
  | S n' =>
    ' (o, x1) <<- read x ;;
    match o with
    | None => POk x1
    | Some t => x2 <<- text_statement fuel O_GlobalStop 59 (put_back t x1) ;; text_program n' fuel x2
    end
  end.
Definition compile_text (fuel : nat) (src : list Z) : pres (bcode * list CcModel.cunit) :=
  x <<- text_program fuel fuel (mkX src None (CcModel.start [])) ;;
  let g := CcModel.p_glob (x_ctx x) in
  b <<- (if CcModel.last_op_is O_GlobalStop g then POk g
         else b <<- lift (push_opcode O_LiteralZero g) ;; lift (push_opcode O_GlobalStop b)) ;;
  b <<- lift (push_opcode O_Stop b) ;;
  POk (b, CcModel.p_units (x_ctx x)).
End Text.
