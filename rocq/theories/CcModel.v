(* Parsing and compiling statements: cc/cc.cpp parseStatement, parseIf, parseWhile, parseDoWhile,
   parseForLoop, parseSwitch, parseUnit, compile.

   Simplifications: the source is a list of tokens.  The tokens of one expression are a single token
   [T_expr b] carrying the block parseExpression and resolveExpression make of it; "case v :" and
   "default :" are one token, the hash of v computed; a label "name :" is one token.  Putting a token
   back (m_loadedToken) leaves it at the head of the list.  Debug symbols are off, so pushDebug emits
   nothing.  struct, enum and export are not modelled.  A global first named inside a function does not
   enter the globals of unit 0 (its index is part of the expression's block); only the iterator of a
   for-each does.  Recursion is on fuel; running out of it is the error E_fuel, which has no
   counterpart in the code. *)
From Verif Require Import Base HashModel OpsModel VmModel EmitModel.

Inductive tok :=
| T_expr (b : bcode) | T_label (h : Z)
| T_semi | T_lbrace | T_rbrace | T_lparen | T_rparen | T_comma | T_colon
| T_return | T_if | T_else | T_while | T_do | T_for | T_switch | T_case (h : Z) | T_default
| T_break | T_continue | T_goto (h : Z)
| T_function (h : Z) (args : list Z).   (* function name ( args ): the hashes *)

(* cc.h:362-394 WRUnitContext *)
Record cunit := mkU { u_hash : Z; u_args : Z; u_export : bool; u_code : bcode }.
(* the compilation context: m_units[0], the function being parsed, the finished ones, the target stacks
   (top first), the for-each counter *)
Record pst := mkP {
  p_toks : list tok; p_glob : bcode; p_fn : option bcode; p_units : list cunit;
  p_brk : list nat; p_cont : list nat; p_fe : Z }.

(* m_units[m_unitTop].bytecode; parseStatement is always called with unitIndex = m_unitTop *)
Definition cur (st : pst) : bcode := match p_fn st with Some b => b | None => p_glob st end.
Definition set_cur (b : bcode) (st : pst) : pst :=
  match p_fn st with
  | Some _ => mkP (p_toks st) (p_glob st) (Some b) (p_units st) (p_brk st) (p_cont st) (p_fe st)
  | None => mkP (p_toks st) b None (p_units st) (p_brk st) (p_cont st) (p_fe st)
  end.
Definition set_toks (t : list tok) (st : pst) : pst :=
  mkP t (p_glob st) (p_fn st) (p_units st) (p_brk st) (p_cont st) (p_fe st).
Definition set_brk (t : list nat) (st : pst) : pst :=
  mkP (p_toks st) (p_glob st) (p_fn st) (p_units st) t (p_cont st) (p_fe st).
Definition set_cont (t : list nat) (st : pst) : pst :=
  mkP (p_toks st) (p_glob st) (p_fn st) (p_units st) (p_brk st) t (p_fe st).
(* run an emitter action on the current unit *)
Definition emit (f : bcode -> cres bcode) (st : pst) : cres pst :=
  b <~ f (cur st) ;; COk (set_cur b st).
Definition new_target (st : pst) : pst * nat :=
  let '(b, t) := add_target (cur st) in (set_cur b st, t).

(* getToken(ex, "x") *)
Definition tok_eqb (a b : tok) : bool :=
  match a, b with
  | T_semi, T_semi | T_lbrace, T_lbrace | T_rbrace, T_rbrace | T_lparen, T_lparen | T_rparen, T_rparen
  | T_comma, T_comma | T_colon, T_colon | T_while, T_while => true
  | _, _ => false
  end.
Definition expect (t : tok) (st : pst) : cres pst :=
  match p_toks st with
  | x :: r => if tok_eqb x t then COk (set_toks r st) else CErr E_unexpected_token
  | [] => CErr E_unexpected_token
  end.

(* expression.cpp:61-590: the block of the expression and the character that ended it.  With nothing
   before the terminator the context count becomes zero and resolveExpression (cc.cpp:1085) does
   nothing: the block is empty.  A label (expression.cpp:516-545) is an expression: LiteralZero and a
   goto target one past the start, and it ends like ";" without reading one. *)
Definition is_terminator (t : tok) : bool :=
  match t with T_semi | T_rparen | T_rbrace | T_comma | T_colon => true | _ => false end.
Definition label_block (h : Z) : bcode :=
  mkB [byte_of O_LiteralZero] [O_LiteralZero] [] [] [] [mkJ 1 [] h] [].
Definition parse_expr (st : pst) : cres (bcode * tok * pst) :=
  match p_toks st with
  | T_expr b :: e :: r => if is_terminator e then COk (b, e, set_toks r st) else CErr E_bad_expression
  | T_label h :: r => COk (label_block h, T_semi, set_toks r st)
  | e :: r => if is_terminator e then COk (empty_bc, e, set_toks r st) else CErr E_bad_expression
  | [] => CErr E_unexpected_token
  end.
Definition parse_expr_to (e : tok) (st : pst) : cres (bcode * pst) :=
  '(b, e', st) <~ parse_expr st ;; if tok_eqb e' e then COk (b, st) else CErr E_unexpected_token.

(* the recursive call: opcodeToReturn, terminator *)
Section Parse.
Variable ps : opcode -> tok -> pst -> cres pst.

(* cc.cpp:1942-2001 parseWhile (the word is read) *)
Definition parse_while (ret : opcode) (st : pst) : cres pst :=
  st <~ expect T_lparen st ;;
  '(c, st) <~ parse_expr_to T_rparen st ;;
  let '(st, tc) := new_target st in
  let st := set_cont (tc :: p_cont st) st in
  st <~ emit (set_target tc) st ;;
  st <~ emit (fun b => append_bytecode b c) st ;;
  let '(st, tb) := new_target st in
  let st := set_brk (tb :: p_brk st) st in
  st <~ emit (add_source O_BZ tb) st ;;
  st <~ ps ret T_semi st ;;
  st <~ emit (add_source O_RelativeJump tc) st ;;
  st <~ emit (set_target tb) st ;;
  let st := set_brk (tl (p_brk st)) (set_cont (tl (p_cont st)) st) in
  emit resolve_jumps st.

(* cc.cpp:2004-2073 parseDoWhile *)
Definition parse_do (ret : opcode) (st : pst) : cres pst :=
  let '(st, tc) := new_target st in
  let '(st, tb) := new_target st in
  let st := set_brk (tb :: p_brk st) (set_cont (tc :: p_cont st) st) in
  let '(st, tp) := new_target st in
  st <~ emit (set_target tp) st ;;
  st <~ ps ret T_semi st ;;
  st <~ emit (set_target tc) st ;;
  st <~ expect T_while st ;;
  st <~ expect T_lparen st ;;
  '(c, st) <~ parse_expr_to T_rparen st ;;
  st <~ expect T_semi st ;;
  st <~ emit (set_target tc) st ;;
  st <~ emit (fun b => append_bytecode b c) st ;;
  st <~ emit (add_source O_BZ tb) st ;;
  st <~ emit (add_source O_RelativeJump tp) st ;;
  st <~ emit (set_target tb) st ;;
  let st := set_brk (tl (p_brk st)) (set_cont (tl (p_cont st)) st) in
  emit resolve_jumps st.

(* cc.cpp:2961-3033 parseIf *)
Definition parse_if (ret : opcode) (st : pst) : cres pst :=
  st <~ expect T_lparen st ;;
  '(c, st) <~ parse_expr_to T_rparen st ;;
  st <~ emit (fun b => append_bytecode b c) st ;;
  let '(st, tf) := new_target st in
  st <~ emit (add_source O_BZ tf) st ;;
  st <~ ps ret T_semi st ;;
  st <~ match p_toks st with
        | T_else :: r =>
          let '(st, tp) := new_target (set_toks r st) in
          st <~ emit (add_source O_RelativeJump tp) st ;;
          st <~ emit (set_target tf) st ;;
          st <~ ps ret T_semi st ;;
          emit (set_target tp) st
        | _ => emit (set_target tf) st
        end ;;
  emit resolve_jumps st.

(* ---- for ---- *)
(* cc.cpp:2130-2231: the setup clause, or the two halves of a for-each *)
Inductive setup := SetupPlain (st : pst) | SetupEach (loads : list (space * Z)) (arr : bcode) (st : pst).
(* cc.cpp:2150-2160: a block that is a single variable *)
Definition single_load (b : bcode) : option (space * Z) :=
  match b_ops b, b_all b with
  | [_], [o; n] => if o =? byte_of O_LoadFromLocal then Some (SL, n)
                   else if o =? byte_of O_LoadFromGlobal then Some (SG, n) else None
  | _, _ => None
  end.
Fixpoint parse_setup (n : nat) (each : option (list (space * Z))) (st : pst) : cres setup :=
  match n with
  | O => CErr E_fuel
  | S n' =>
    match p_toks st with
    | T_semi :: r => COk (SetupPlain (set_toks r st))
    | _ =>
      '(b, e, st) <~ parse_expr st ;;
      let each := match each with
                  | Some l => if lenZ l <? 2 then option_map (fun x => l ++ [x]) (single_load b) else None
                  | None => None end in
      b1 <~ push_opcode O_PopOne b ;;
      st <~ emit (fun c => append_bytecode c b1) st ;;
      match e with
      | T_semi => COk (SetupPlain st)
      | T_colon =>
        match each with
        | Some l => '(a, st) <~ parse_expr_to T_rparen st ;; COk (SetupEach l a st)
        | None => CErr E_unexpected_token
        end
      | T_comma => parse_setup n' each st
      | _ => CErr E_unexpected_token
      end
    end
  end.
(* cc.cpp:2340-2376: the post clause, collected in its own block *)
Fixpoint parse_post (n : nat) (post : bcode) (st : pst) : cres (bcode * pst) :=
  match n with
  | O => CErr E_fuel
  | S n' =>
    match p_toks st with
    | T_rparen :: r => COk (post, set_toks r st)
    | _ =>
      '(b, e, st) <~ parse_expr st ;;
      b1 <~ push_opcode O_PopOne b ;;
      post <~ append_bytecode post b1 ;;
      match e with
      | T_rparen => COk (post, st)
      | T_comma => parse_post n' post st
      | _ => CErr E_unexpected_token
      end
    end
  end.
(* "::foreach:%d", cc.cpp:2190-2192 and 916-964 addGlobalSpaceLoad *)
Definition dec_digits (n : Z) : list Z :=
  (fix go (f : nat) (n : Z) (acc : list Z) :=
     match f with O => acc | S f => if n <? 10 then (48 + n) :: acc else go f (n / 10) ((48 + n mod 10) :: acc) end) 20%nat n [].
Definition foreach_hash (n : Z) : Z :=
  wr_hash ([58; 58; 102; 111; 114; 101; 97; 99; 104; 58] ++ dec_digits n) 0.
Definition add_global (h : Z) (st : pst) : pst * Z :=
  let b := p_glob st in
  let b' := mkB (b_all b) (b_ops b) (merge_locals (b_locals b) [h]) (b_fns b) (b_objs b) (b_jumps b) (b_gotos b) in
  let i := (fix go (l : list Z) (k : Z) := match l with [] => k | x :: r => if x =? h then k else go r (k + 1) end) (b_locals b) 0 in
  (mkP (p_toks st) b' (p_fn st) (p_units st) (p_brk st) (p_cont st) (p_fe st + 1), i).
(* cc.cpp:2234-2283: iterator push, the step opcode and its operands *)
Definition each_step (loads : list (space * Z)) (g : Z) : option (opcode * list Z) :=
  match loads with
  | [(SL, a)] => Some (O_LNextValueOrJump, [a; g])
  | [(SG, a)] => Some (O_GNextValueOrJump, [a; g])
  | [(SL, a); (SL, b)] => Some (O_LLNextKeyValueOrJump, [a; b; g])
  | [(SL, a); (SG, b)] => Some (O_LGNextKeyValueOrJump, [a; b; g])
  | [(SG, a); (SL, b)] => Some (O_GLNextKeyValueOrJump, [a; b; g])
  | [(SG, a); (SG, b)] => Some (O_GGNextKeyValueOrJump, [a; b; g])
  | _ => None
  end.
(* cc.cpp:2076-2402 parseForLoop *)
Definition parse_for (ret : opcode) (st : pst) : cres pst :=
  st <~ expect T_lparen st ;;
  let '(st, tc) := new_target st in
  let '(st, tb) := new_target st in
  let st := set_brk (tb :: p_brk st) (set_cont (tc :: p_cont st) st) in
  s <~ parse_setup (S (length (p_toks st))) (Some []) st ;;
  '(st, tp) <~     match s with
    | SetupEach loads a st =>
      match b_ops a, b_all a with
      | [o], [_; v] =>
        let '(st, g) := add_global (foreach_hash (p_fe st)) st in
        let op := if op_eqb o O_LoadFromLocal then O_LPushIterator else O_GPushIterator in
        st <~ emit (fun b => COk (push_data [byte_of op; v; u8 g] b)) st ;;
        let '(st, tp) := new_target st in
        st <~ emit (set_target tp) st ;;
        match each_step loads (u8 g) with
        | None => CErr E_unexpected_token
        | Some (o, d) =>
          st <~ emit (add_source_ex o tb d) st ;;
          st <~ ps ret T_semi st ;;
          COk (st, tp)
        end
      | _, _ => CErr E_unexpected_token
      end
    | SetupPlain st =>
      let '(st, tp) := new_target st in
      st <~ emit (set_target tp) st ;;
      st <~ match p_toks st with
            | T_semi :: r => COk (set_toks r st)
            | _ => '(c, st) <~ parse_expr_to T_semi st ;;
                   st <~ emit (fun b => append_bytecode b c) st ;;
                   emit (add_source O_BZ tb) st
            end ;;
      '(post, st) <~ parse_post (S (length (p_toks st))) empty_bc st ;;
      st <~ ps ret T_semi st ;;
      st <~ emit (set_target tc) st ;;
      st <~ emit (fun b => append_bytecode b post) st ;;
      COk (st, tp)
    end ;;
  st <~ emit (add_source O_RelativeJump tp) st ;;
  st <~ emit (set_target tb) st ;;
  let st := set_brk (tl (p_brk st)) (set_cont (tl (p_cont st)) st) in
  emit resolve_jumps st.

(* ---- switch ---- *)
(* cc.cpp:2647-2653 WRSwitchCase of the source; default cases are not entered in the list *)
Record scase := mkCase { sc_hash : Z; sc_off : Z }.
(* cc.cpp:2696-2771: the cases and statements between the braces.  defaultOffset is an int16_t, -1 = none *)
Fixpoint parse_cases (n : nat) (ret : opcode) (cases : list scase) (dflt : Z) (td : nat) (st : pst)
  : cres (list scase * Z * pst) :=
  match n with
  | O => CErr E_fuel
  | S n' =>
    match p_toks st with
    | [] => CErr E_unexpected_token
    | T_rbrace :: r => COk (cases, dflt, set_toks r st)
    | T_case h :: r =>
      if existsb (fun c => sc_hash c =? h) cases then CErr E_duplicate_case
      else parse_cases n' ret (cases ++ [mkCase h (Base.s16 (size (cur st)))]) dflt td (set_toks r st)
    | T_default :: r =>
      if negb (dflt =? -1) then CErr E_duplicate_case
      else let d := Base.s16 (size (cur st)) in
           st <~ emit (set_target td) (set_toks r st) ;;
           parse_cases n' ret cases d td st
    | _ =>
      if match cases with [] => dflt =? -1 | _ => false end then CErr E_case_or_default_expected
      else st <~ ps ret T_semi st ;; parse_cases n' ret cases dflt td st
    end
  end.
(* cc.cpp:2801-2819: the largest hash, the search stopping at 254; ++size wraps *)
Fixpoint max_hash (cases : list scase) (m : Z) : Z :=
  match cases with
  | [] => m
  | c :: r => let m := if m <? sc_hash c then sc_hash c else m in if 254 <=? m then m else max_hash r m
  end.
Definition find_case (h : Z) (cases : list scase) : option scase := find (fun c => sc_hash c =? h) cases.
(* cc.cpp:2829-2876 *)
Definition linear_table (cases : list scase) (dflt : Z) (sz : Z) (b : bcode) : cres bcode :=
  b <~ push_opcode O_SwitchLinear b ;;
  let b := push_data [u8 sz] b in
  let pos := size b in
  let dflt := if dflt =? -1 then Base.s16 (sz * 2 + 2) else Base.s16 (dflt - pos) in
  COk (push_data (wr_pack16 dflt ++
    flat_map (fun i => wr_pack16 (match find_case (Z.of_nat i) cases with Some c => Base.s16 (sc_off c - pos) | None => dflt end))
             (seq 0 (Z.to_nat sz))) b).
(* cc.cpp:2885-2930: the first modulus that separates the hashes *)
Fixpoint separates (m : Z) (cases : list scase) (seen : list Z) : bool :=
  match cases with
  | [] => true
  | c :: r => let k := sc_hash c mod m in if existsb (Z.eqb k) seen then false else separates m r (k :: seen)
  end.
Fixpoint find_mod (f : nat) (m : Z) (cases : list scase) : option Z :=
  match f with O => None | S f => if separates m cases [] then Some m else find_mod f (m + 1) cases end.
(* cc.cpp:2877-2945 *)
Definition hash_table (cases : list scase) (dflt : Z) (b : bcode) : cres bcode :=
  b <~ push_opcode O_Switch b ;;
  let pos := size b in
  match find_mod (Z.to_nat 32765) 1 cases with
  | None => CErr E_switch_construction
  | Some m =>
    let dflt := if dflt =? -1 then Base.s16 (m * 6 + 4) else Base.s16 (dflt - pos) in
    COk (push_data (wr_pack16 m ++ wr_pack16 dflt ++
      flat_map (fun i => match find (fun c => sc_hash c mod m =? Z.of_nat i) cases with
                         | Some c => wr_pack32 (sc_hash c) ++ wr_pack16 (Base.s16 (sc_off c - pos))
                         | None => wr_pack32 0 ++ wr_pack16 dflt end)
               (seq 0 (Z.to_nat m))) b)
  end.
Definition last_op_is (o : opcode) (b : bcode) : bool :=
  match b_ops b with x :: _ => op_eqb x o | [] => false end.
(* cc.cpp:2656-2958 parseSwitch *)
Definition parse_switch (ret : opcode) (st : pst) : cres pst :=
  st <~ expect T_lparen st ;;
  '(c, st) <~ parse_expr_to T_rparen st ;;
  st <~ emit (fun b => append_bytecode b c) st ;;
  st <~ expect T_lbrace st ;;
  let '(st, td) := new_target st in
  let '(st, tb) := new_target st in
  let st := set_brk (tb :: p_brk st) st in
  let '(st, tl_) := new_target st in
  st <~ emit (add_source O_RelativeJump tl_) st ;;
  let mark := size (cur st) in
  '(cases, dflt, st) <~ parse_cases (S (length (p_toks st))) ret [] (-1) td st ;;
  if mark =? size (cur st) then
    (* cc.cpp:2773-2786 *)
    st <~ emit (fun b => push_opcode O_PopOne (set_code b (firstn (length (b_all b) - 3) (b_all b)) [])) st ;;
    st <~ emit (fun b => COk (set_jumps b (removelast (b_jumps b)))) st ;;
    COk (set_brk (tl (p_brk st)) st)
  else
    st <~ (if last_op_is O_RelativeJump (cur st) then COk st else emit (add_source O_RelativeJump tb) st) ;;
    st <~ emit (set_target tl_) st ;;
    let sz := u32 (max_hash cases 0 + 1) in
    st <~ emit (if sz <? 254 then linear_table cases dflt sz else hash_table cases dflt) st ;;
    st <~ emit (set_target tb) st ;;
    st <~ emit resolve_jumps st ;;
    COk (set_brk (tl (p_brk st)) st).

(* cc.cpp:1836-1939 parseUnit *)
Definition parse_unit (h : Z) (args : list Z) (st : pst) : cres pst :=
  let outer := p_fn st in
  let b := mkB [] [] (merge_locals [] args) [] [] [] [] in
  let st := mkP (p_toks st) (p_glob st) (Some b) (p_units st) (p_brk st) (p_cont st) (p_fe st) in
  st <~ expect T_lbrace st ;;
  st <~ ps O_Return T_rbrace st ;;
  st <~ (if last_op_is O_Return (cur st) || last_op_is O_ReturnZero (cur st) then COk st
         else emit (push_opcode O_ReturnZero) st) ;;
  COk (mkP (p_toks st) (p_glob st) outer (p_units st ++ [mkU h (lenZ args) false (cur st)]) (p_brk st) (p_cont st) (p_fe st)).

(* break and continue, cc.cpp:3177-3202.  The ";" behind them is not read. *)
Definition parse_jump (targets : list nat) (e : cerr) (st : pst) : cres pst :=
  match targets with t :: _ => emit (add_source O_RelativeJump t) st | [] => CErr e end.
(* goto, cc.cpp:3203-3232 *)
Definition parse_goto (h : Z) (st : pst) : cres pst :=
  st <~ emit (fun b => COk (mkB (b_all b ++ [0; 0; 0]) (b_ops b) (b_locals b) (b_fns b) (b_objs b) (b_jumps b)
                                (b_gotos b ++ [(h, size b)]))) st ;;
  expect T_semi st.
(* return, cc.cpp:3077-3111 *)
Definition parse_return (ret : opcode) (st : pst) : cres pst :=
  st <~ match p_toks st with
        | T_semi :: r => emit (push_opcode O_LiteralZero) (set_toks r st)
        | _ => '(b, st) <~ parse_expr_to T_semi st ;; emit (fun c => append_bytecode c b) st
        end ;;
  emit (push_opcode ret) st.
(* an expression, cc.cpp:3233-3257 *)
Definition parse_expr_stmt (st : pst) : cres pst :=
  '(b, st) <~ parse_expr_to T_semi st ;;
  st <~ emit (fun c => append_bytecode c b) st ;;
  emit (push_opcode O_PopOne) st.
End Parse.

(* cc.cpp:3036-3266 parseStatement *)
Fixpoint parse_statement (n : nat) (ret : opcode) (end_ : tok) (st : pst) : cres pst :=
  match n with
  | O => CErr E_fuel
  | S n' =>
    let ps := parse_statement n' in
    let again st := if tok_eqb end_ T_semi then COk st else ps ret end_ st in
    match p_toks st with
    | [] => if tok_eqb end_ T_rbrace then CErr E_unexpected_token else COk st
    | t :: r =>
      let st1 := set_toks r st in
      if tok_eqb t end_ then COk st1
      else
        match t with
        | T_lbrace => ps ret T_rbrace st1
        | T_return => st2 <~ parse_return ret st1 ;; again st2
        | T_function h args =>
          match p_fn st with
          | Some _ => CErr E_unexpected_token
          | None => st2 <~ parse_unit ps h args st1 ;; again st2
          end
        | T_if => st2 <~ parse_if ps ret st1 ;; again st2
        | T_while => st2 <~ parse_while ps ret st1 ;; again st2
        | T_for => st2 <~ parse_for ps ret st1 ;; again st2
        | T_switch => st2 <~ parse_switch ps ret st1 ;; again st2
        | T_do => st2 <~ parse_do ps ret st1 ;; again st2
        | T_break => st2 <~ parse_jump (p_brk st) E_break_outside st1 ;; again st2
        | T_continue => st2 <~ parse_jump (p_cont st) E_continue_outside st1 ;; again st2
        | T_goto h => st2 <~ parse_goto h st1 ;; again st2
        | _ => st2 <~ parse_expr_stmt st ;; again st2
        end
    end
  end.

(* cc.cpp:94-113, 143-152 compile, up to link *)
Fixpoint parse_program (n fuel : nat) (st : pst) : cres pst :=
  match n with
  | O => CErr E_fuel
  | S n' => match p_toks st with [] => COk st | _ => st <~ parse_statement fuel O_GlobalStop T_semi st ;; parse_program n' fuel st end
  end.
Definition start (toks : list tok) : pst := mkP toks empty_bc None [] [] [] 0.
(* the units: m_units[0] and the functions *)
Definition compile_units (fuel : nat) (toks : list tok) : cres (bcode * list cunit) :=
  st <~ parse_program fuel fuel (start toks) ;;
  b <~ (if last_op_is O_GlobalStop (p_glob st) then COk (p_glob st)
        else b <~ push_opcode O_LiteralZero (p_glob st) ;; push_opcode O_GlobalStop b) ;;
  b <~ push_opcode O_Stop b ;;
  COk (b, p_units st).
