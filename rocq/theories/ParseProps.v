(* C59: the source text of an expression is compiled to the code of the expression it spells, with each
   name standing for the variable that the scoping rules give it.  The statement is in terms of TokenSpec
   (how tokens are written), ParseSpec (the tokens of an expression, what names denote), ExprNest.compile
   (the code of an expression whose variables are known, C48-C51, C56) and ParseModel.parse_text (the
   parser on the characters). *)
From Coq Require Import String.
From Verif Require Import Base BaseLemmas HashModel FloatModel OpsModel VmModel VmSpec OpsLocal EmitModel JumpProofs ExprModel ExprEmit ExprSpec ExprNest ExprProps FuseSpec FuseRules FuseChunks FuseProofs EvalSpec EvalRun EvalProps
  TokenModel TokenSpec TokenProofs TokenProps ParseModel ParseSpec ParseProofs ParseRun.
Open Scope string_scope. Open Scope list_scope. Open Scope Z_scope.

(* what the compiler keeps of the names in scope *)
Definition scope (locals : option (list (list Z))) : list (list Z) := match locals with Some ls => ls | None => [] end.
Definition outside (locals : option (list (list Z))) : bool := match locals with Some _ => false | None => true end.
Definition qualified_hash (n : list Z) : Z := name_hash (58 :: 58 :: n).

(* Whatever white space and comments stand between the tokens and however the literals are spelled: the
   parser stops behind the character that ends the expression, has compiled the code of [e] and declared
   nothing.  [need_var]: strict or not; [parsing_for]: in the head of a for or not.
   Missing: names that are not declared yet, var; string and float literals; calls (C60, C62 have them as statements), indexes, initializers,
   new; the bodies of structs. *)
Theorem c59_expression_partial lbits atof consts0 consts need_var parsing_for locals globals t toks e b closer more src n allow :
  32 <= lbits -> (forall c v, In (c, v) (consts0 ++ consts) -> name c) ->
  no_clash name_hash (scope locals ++ globals) ->
  tokens t toks -> denotes locals globals t e -> compiles e -> compile e = COk b ->
  In closer closers -> written lbits atof (consts0 ++ consts) (toks ++ sign closer :: more) src -> (length toks < n)%nat ->
  exists b1 rest,
    parse_text lbits atof consts0 consts need_var (outside locals) false parsing_for n (map name_hash (scope locals)) allow
               (mkP src None (map qualified_hash globals)) =
      POk (nth O (TokenModel.text closer) 0, b1, mkP rest None (map qualified_hash globals)) /\
    b1 = mkB (b_all b) (b_ops b) (map name_hash (scope locals)) (b_fns b) (b_objs b) (b_jumps b) (b_gotos b) /\
    written lbits atof (consts0 ++ consts) more rest.
Proof.
  intros LB LO NC T D CS C IC W LN.
  pose proof (parses_tree lbits atof consts0 consts need_var (outside locals) parsing_for LB LO (map name_hash (scope locals)) (map qualified_hash globals) locals globals NC eq_refl) as P.
  specialize (P ltac:(intros ls ->; reflexivity) eq_refl (length toks) t toks e b (le_n _) T D CS C).
  destruct (P n (mkP src None (map qualified_hash globals)) more allow closer IC) as (st1 & E & FR); [|exact LN|].
  { split; [reflexivity|]. left. split; [reflexivity|exact W]. }
  destruct FR as [[PG R] PN]. destruct st1 as [rest ld g]. cbn [p_globals p_loaded p_src] in *. subst g ld.
  destruct R as [(_ & R)|(? & ? & _ & X & _)]; [|discriminate X].
  exists (loc (map name_hash (scope locals)) b), rest. split; [exact E|]. split; [reflexivity|exact R].
Qed.

(* The value: the code that the text is compiled to, wherever it is in a program, leaves on the stack the
   integer that the expression is worth with the integers in its variables (C56). *)
Theorem c59_value_partial lbits atof consts0 consts need_var parsing_for locals globals t toks e closer more src n allow :
  32 <= lbits -> (forall c v, In (c, v) (consts0 ++ consts) -> name c) ->
  no_clash name_hash (scope locals ++ globals) ->
  tokens t toks -> denotes locals globals t e -> fine e -> not_misled e -> compiles e ->
  In closer closers -> written lbits atof (consts0 ++ consts) (toks ++ sign closer :: more) src -> (length toks < n)%nat ->
  exists b rest,
    parse_text lbits atof consts0 consts need_var (outside locals) false parsing_for n (map name_hash (scope locals)) allow
               (mkP src None (map qualified_hash globals)) =
      POk (nth O (TokenModel.text closer) 0, b, mkP rest None (map qualified_hash globals)) /\
    written lbits atof (consts0 ++ consts) more rest /\
    forall pbits obj_hash as_string trap hash_index new_table lib_fn native_fn ext funs base limit protect slices fw,
      local_fn obj_hash -> local_fn as_string -> lib_local lib_fn ->
    let goes code := goes pbits obj_hash as_string trap hash_index new_table lib_fn native_fn ext code funs base limit protect slices 3 in
    forall pre post s z,
      vpc s = lenZ pre -> calm fw s -> expression_int trap (vmem s) (vfb s) fw e = Some z ->
      (tree_sum width e <= 255)%nat -> (protect = true -> (vsp s + tree_sum width e < limit)%nat) ->
    exists u, goes (pre ++ b_all b ++ post) (fun _ _ _ => True) (lenZ (pre ++ b_all b)) s u /\
      vsp u = S (vsp s) /\ vfb u = vfb s /\ vslice u = vslice s /\ agree (vsp s) (vmem s) (vmem u) /\
      holds (vmem u) (mv (vmem u) (LStack (vsp s))) z.
Proof.
  intros LB LO NC T D FN NM CS IC W LN. pose proof NM as (c & h & C & _).
  destruct (c59_expression_partial lbits atof consts0 consts need_var parsing_for locals globals t toks e c closer more src n allow LB LO NC T D CS C IC W LN) as (b & rest & E & B & R).
  exists b, rest. split; [exact E|]. split; [exact R|]. subst b. cbn [b_all]. exact (c56_expression_partial e c FN NM C).
Qed.

(* ---------------------------------------------------------------- an example *)
(* (a+::b) * -c /* sum */ <= 0x10; in a function with the locals c and a; the globals are b and a *)
Definition ex_src : list Z := TokenModel.text "(a+::b) * -c /* sum */ <= 0x10; x".
Definition nm (s : string) : list Z := TokenModel.text s.
Definition ex_text : tree sexpr :=
  Infix "<=" (Infix "*" (Atom (SPar (Infix "+" (Atom (SName (nm "a"))) (Atom (SGlobal (nm "b")))))) (Prefix "-" (Atom (SName (nm "c"))))) (Atom (SInt 16)).
Definition ex_toks : list tok :=
  ([sign "("; sign "a"; sign "+"; mkTok (nm "::b") NoVal false; sign ")"] ++ sign "*" :: sign "-" :: [sign "c"]) ++ sign "<=" :: [mkTok (nm "10") (IntVal 16) false].
Definition ex_expr : tree expr :=
  Infix "<=" (Infix "*" (par (Infix "+" (lv 1) (gv 0))) (Prefix "-" (lv 0))) (lit 16).
Example c59_ex_tokens : tokens ex_text ex_toks.
Proof.
  unfold ex_text, ex_toks, tokens. apply TT_infix; [cbn; tauto| |].
  - apply TT_infix; [cbn; tauto| |].
    + apply TT_atom. apply (OT_par _ ([sign "a"] ++ sign "+" :: [mkTok (nm "::b") NoVal false])). apply TT_infix; [cbn; tauto| |]; apply TT_atom; [apply (OT_name (nm "a"))|apply (OT_global (nm "b"))].
    + apply (TT_prefix _ "-" _ [sign "c"]); [cbn; tauto|]. apply TT_atom. apply (OT_name (nm "c")).
  - apply TT_atom. exact (OT_int (nm "10") 16 false).
Qed.
Ltac ident := let n := fresh in let H := fresh in intros n [H|H]; try discriminate H; injection H as <-; eexists _, []; split; [reflexivity|]; split; [unfold letter; cbn; lia|]; split; [constructor|nin].
Example c59_ex_denotes : denotes (Some [nm "c"; nm "a"]) [nm "b"; nm "a"] ex_text ex_expr.
Proof.
  unfold ex_text, ex_expr, denotes. apply TR_infix; [apply TR_infix|].
  - apply TR_atom, D_par. apply TR_infix; apply TR_atom; apply D_variable; try ident.
    + eapply V_local; [reflexivity|]. apply (PL_later (nm "a") (nm "c") [nm "a"] 0); [discriminate|constructor].
    + apply V_qualified. constructor.
  - apply TR_prefix, TR_atom, D_variable; [|ident]. eapply V_local; [reflexivity|]. constructor.
  - apply TR_atom. constructor.
Qed.
Example c59_ex_clash : no_clash name_hash ([nm "c"; nm "a"] ++ [nm "b"; nm "a"]).
Proof.
  intros x y X Y. cbn [app In] in X, Y.
  repeat (destruct X as [<-|X]; [repeat (destruct Y as [<-|Y]; [split; intros H; first [reflexivity|vm_compute in H; discriminate H]|]); destruct Y|]); destruct X.
Qed.
Example c59_ex_compiles : compiles ex_expr /\ fine ex_expr /\ not_misled ex_expr.
Proof.
  split; [|split].
  - econstructor; [vm_compute; reflexivity|]. cbn [operands app]. intros u IN. repeat (destruct IN as [IN|IN]; [first [discriminate IN|injection IN as <-]|]); try contradiction.
    econstructor; [vm_compute; reflexivity|]. cbn [operands app]. intros u IN. repeat (destruct IN as [IN|IN]; [discriminate IN|]); contradiction.
  - is_fine; is_fine.
  - eexists _, _. split; [vm_compute; reflexivity|]. split; vm_compute; reflexivity.
Qed.
Ltac a_name := apply s_name; auto; [apply print_name; [|discriminate]; cbn; repeat constructor; unfold letter; lia|nin|eo; split; unfold ascii, word, letter, digit; lia|intros ?; discriminate].
Ltac a_sign := apply s_punctuation; [cbn; tauto|eo; unfold ascii; lia].
Ltac an_operator := apply s_operator; [cbn; tauto|eo; split; [unfold ascii; lia|nin]].
Example c59_ex_written : written 64 (fun _ => 0) [] (ex_toks ++ sign ";" :: [sign "x"]) ex_src.
Proof.
  assert (NC : forall n v, ~ constant [] n v) by (intros n v (a&b&E&_); destruct a; discriminate E).
  assert (UQ : forall n, unqualified [] n) by (intros n l v r []).
  unfold ex_toks, ex_src. cbn [app].
  apply (wr_token _ _ _ [] (nm "(")); [constructor|a_sign|].
  apply (wr_token _ _ _ [] (nm "a")); [constructor|a_name|].
  apply (wr_token _ _ _ [] (nm "+")); [constructor|an_operator|].
  apply (wr_token _ _ _ [] (nm "::b")); [constructor| |].
  { apply (s_global _ _ _ _ (nm "b")); [repeat constructor; unfold letter; cbn; lia|eo; split; unfold ascii, word, letter, digit; lia|intros ?; discriminate]. }
  apply (wr_token _ _ _ [] (nm ")")); [constructor|a_sign|].
  apply (wr_token _ _ _ (nm " ") (nm "*")); [blank|an_operator|].
  apply (wr_token _ _ _ (nm " ") (nm "-")); [blank|an_operator|].
  apply (wr_token _ _ _ [] (nm "c")); [constructor|a_name|].
  apply (wr_token _ _ _ (nm " /* sum */ ") (nm "<=")); [|an_operator|].
  { apply sep_white; [cbn; tauto|]. apply (sep_block (nm " sum ")).
    - intros (a&b&E). cbn in E. do 5 (destruct a as [|? a]; cbn in E; [discriminate E|injection E as _ E]). destruct a; discriminate E.
    - intros r. discriminate.
    - blank. }
  apply (wr_token _ _ _ (nm " ") (nm "0x10")); [blank| |].
  { apply (s_hexa _ _ _ _ (nm "10")); [cbn; repeat constructor; unfold hexa, digit; lia|reflexivity|]. starts. split; unfold ascii, hexa, word, letter, digit; lia. }
  apply (wr_token _ _ _ [] (nm ";")); [constructor|a_sign|].
  apply (wr_token _ _ _ (nm " ") (nm "x") _ []); [blank| |apply wr_end, sl_sep, sep_nil].
  apply s_name; auto; [apply print_name; [|discriminate]; cbn; repeat constructor; unfold letter; lia|nin|intros ? ? ?; discriminate|intros ?; discriminate].
Qed.
(* the parser at work: it stops before x *)
Example c59_ex_parsed : exists b rest,
  parse_text 64 (fun _ => 0) [] [] true false false false 11 (map name_hash [nm "c"; nm "a"]) false (mkP ex_src None (map qualified_hash [nm "b"; nm "a"])) =
    POk (59, b, mkP rest None (map qualified_hash [nm "b"; nm "a"])) /\ rest = nm " x" /\
  expression_int true (mkMem (fun l => match l with LStack 0 => VInt 4294967293 | LStack 1 => VInt 3 | LGlobal 0 => VInt 2 | _ => VInt 0 end) (fun _ => None) (fun _ _ => 0) 0%nat) 0 2 ex_expr = Some 1.
Proof. do 2 eexists. split; [vm_compute; reflexivity|]. split; [reflexivity|vm_compute; reflexivity]. Qed.

(* ---------------------------------------------------------------- what is not so *)
(* Variables declared in different parentheses of one expression are different variables: not so.  In a
   function without locals, (var x = 1) + (var y = 2); writes both to the first local (slot 0), although the
   function then has two locals, x and y. *)
Theorem c59_declared_in_parentheses_refuted : exists b,
  parse_text 64 (fun _ => 0) [] [] true false false false 20 [] false (mkP (TokenModel.text "(var x = 1) + (var y = 2);") None []) = POk (59, b, mkP [] None []) /\
  b_all b = [byte_of O_LiteralInt8; 2; byte_of O_LoadFromLocal; 0; byte_of O_Assign; byte_of O_LiteralInt8; 1; byte_of O_LoadFromLocal; 0; byte_of O_Assign; byte_of O_BinaryAddition] /\
  b_locals b = [name_hash (nm "y"); name_hash (nm "x")].
Proof. eexists. split; [vm_compute; reflexivity|]. split; vm_compute; reflexivity. Qed.
(* A string literal may stand wherever an operand may: not so.  (")") is taken for empty parentheses. *)
Theorem c59_quoted_parenthesis_refuted :
  parse_text 64 (fun _ => 0) [] [] true false false false 20 [] false (mkP (TokenModel.text "("")"");") None []) = PErr.
Proof. vm_compute. reflexivity. Qed.

Print Assumptions c59_expression_partial.
Print Assumptions c59_value_partial.
Print Assumptions c59_declared_in_parentheses_refuted.
Print Assumptions c59_quoted_parenthesis_refuted.
