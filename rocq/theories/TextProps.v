(* C60: the source text of a program is compiled to the code of the program it spells.  The statement is in
   terms of TokenSpec (how tokens are written), ParseSpec (the tokens of an expression, what names denote),
   TextSpec (the tokens of a program, what var and function declare), CcModel.compile_units (the code of a
   program whose expressions are compiled and whose names are resolved, C34-C38, C52) and
   TextModel.compile_text (the compiler on the characters). *)
From Coq Require Import String.
From Verif Require Import Base BaseLemmas HashModel FloatModel OpsModel VmModel VmSpec OpsLocal EmitModel CcModel JumpProofs ExprModel ExprEmit ExprSpec ExprNest ExprProps FuseSpec FuseRules FuseChunks FuseProofs EvalSpec EvalRun EvalProps ProgSpec ProgProps
  TokenModel TokenSpec TokenProofs TokenProps ParseModel ParseSpec ParseProofs ParseRun ParseProps TextModel TextSpec TextExpr TextBlocks TextProofs TextRun.
From Verif Require CtlSpec CtlSem.
Open Scope string_scope. Open Scope list_scope. Open Scope Z_scope.

Lemma bal_count l : bal l = Z.of_nat (length (filter is_close l)) - Z.of_nat (length (filter is_open l)).
Proof. induction l as [|t l IH]; [reflexivity|]. destruct t; cbn [bal filter is_open is_close length]; lia. Qed.

(* Whatever white space and comments stand between the tokens: the text is compiled to the code of the
   program it spells, byte for byte.  Outside of functions the names are those of the globals, in the order
   of their declarations; in a function those of its parameters and locals.
   Missing: what TextSpec.spells does not spell: names that are not declared, var without a value or in a
   parenthesis, string and float literals, calls inside of other expressions, indexes; for( x : y ), goto, labels, struct, enum, export. *)
Theorem c60_program_partial lbits atof consts0 consts need_var names toks words src globals locals n code units :
  32 <= lbits -> (forall c v, In (c, v) (consts0 ++ consts) -> name c) -> all_different names ->
  spells names [] None toks words globals locals -> balanced toks ->
  written lbits atof (consts0 ++ consts) words src -> compile_units n toks = COk (code, units) ->
  compile_text lbits atof consts0 consts need_var n src =
    POk (named_space (map qualified globals) code, map (fun '(l, u) => named_unit (map name_hash l) u) (combine locals units)).
Proof.
  intros LB LO AD SP BA W C.
  rewrite (compile_rel lbits atof consts0 consts need_var LB LO names AD globals (map (map name_hash) locals) n toks words src locals code units SP eq_refl); [|rewrite bal_count; unfold balanced in BA; lia|exact W|exact C].
  f_equal. f_equal. unfold dressed. clear. revert units. induction locals as [|l ls IH]; intros [|u us]; try reflexivity. cbn [map combine]. now rewrite IH.
Qed.

(* ---------------------------------------------------------------- a way to write tokens *)
(* every token followed by a blank *)
Definition lists (l : list (list Z)) (w : list Z) : bool := existsb (fun x => if list_eq_dec Z.eq_dec x w then true else false) l.
Definition is_letter (c : Z) : bool := (65 <=? c) && (c <=? 90) || (97 <=? c) && (c <=? 122).
Definition is_digit (c : Z) : bool := (48 <=? c) && (c <=? 57).
Definition easy (t : tok) : bool :=
  negb (t_quoted t) &&
  match t_val t with
  | NoVal => lists operators (t_text t) || lists punctuation (t_text t) ||
      match t_text t with c :: r => is_letter c && forallb (fun c => is_letter c || is_digit c) r && negb (lists keywords (c :: r)) | [] => false end
  | IntVal v => match t_text t with
      | c :: r => is_digit c && forallb is_digit r && (negb (c =? 48) || match r with [] => true | _ => false end) && (value 10 (c :: r) =? v) && (v <? 2 ^ 32)
      | [] => false end
  | _ => false
  end.
Definition with_blanks (l : list tok) : list Z := flat_map (fun t => t_text t ++ [32]) l.
Lemma lists_in l w : lists l w = true -> In w l.
Proof. unfold lists. intros H. apply existsb_exists in H as (x & I & E). now destruct (list_eq_dec Z.eq_dec x w) as [->|]. Qed.
Lemma easy_written lbits atof l : forallb easy l = true -> written lbits atof [] l (with_blanks l).
Proof.
  assert (G : forall l s, sep s -> forallb easy l = true -> written lbits atof [] l (s ++ with_blanks l)).
  { clear l. induction l as [|t l IH]; intros s SS H.
    - cbn. rewrite app_nil_r. now apply wr_end, sl_sep.
    - cbn [forallb] in H. apply andb_prop in H as [E H]. cbn [with_blanks flat_map]. fold (with_blanks l). rewrite <- app_assoc. apply wr_token; [exact SS| |apply (IH [32]); [apply sep_white; [cbn; tauto|constructor]|exact H]].
      cbn [app]. set (rest := 32 :: with_blanks l).
      assert (NC : forall n v, ~ constant [] n v) by (intros n v (a&b&X&_); destruct a; discriminate X).
      assert (CL : clear 32) by (unfold clear, ascii, word, letter, digit; lia).
      assert (DR : forall r, forallb is_digit r = true -> Forall digit r).
      { intros r D. apply Forall_forall. intros c I. apply (proj1 (forallb_forall _ _) D) in I. unfold is_digit in I. unfold digit. lia. }
      destruct t as [w v q]. unfold easy in E. cbn [t_text t_val t_quoted] in *. apply andb_prop in E as [Q E]. destruct q; [discriminate Q|]. destruct v as [|v| |]; try discriminate E.
      + apply orb_prop in E as [E|E]; [apply orb_prop in E as [E|E]|].
        * apply lists_in in E. apply s_operator; [exact E|]. intros c r X. injection X as <- _. split; [unfold ascii; lia|].
          cbn in E. repeat (destruct E as [<-|E]; [nin|]). destruct E.
        * apply lists_in in E. apply s_punctuation; [exact E|]. intros c r X. injection X as <- _. unfold ascii; lia.
        * destruct w as [|c r]; [discriminate E|]. apply andb_prop in E as [E K]. apply andb_prop in E as [E1 E2]. apply s_name; auto.
          -- exists c, r. split; [reflexivity|]. split; [left; unfold is_letter in E1; unfold letter; lia|].
             clear - E2. induction r as [|d r IH]; [constructor|]. cbn [forallb] in E2. apply andb_prop in E2 as [E E2]. constructor; [|auto]. unfold is_letter, is_digit in E. unfold word, letter, digit. lia.
          -- intros I. unfold lists in K. apply negb_true_iff in K. assert (X : existsb (fun x => if list_eq_dec Z.eq_dec x (c :: r) then true else false) keywords = true); [|congruence].
             apply existsb_exists. exists (c :: r). split; [exact I|]. now destruct (list_eq_dec Z.eq_dec (c :: r) (c :: r)).
          -- intros l0 v0 r0 [].
          -- intros d r' X. injection X as <- _. exact CL.
          -- intros r' X. discriminate X.
      + destruct w as [|c r]; [discriminate E|]. repeat (apply andb_prop in E as [E ?]). assert (v = value 10 (c :: r)) as -> by lia. apply s_decimal; auto.
        * unfold is_digit in E. unfold digit. lia.
        * intros ->. cbn in *. now destruct r.
        * lia.
        * exists 32, (with_blanks l). split; [reflexivity|]. split; [exact CL|lia]. }
  intros H. exact (G l [] sep_nil H).
Qed.

(* ---------------------------------------------------------------- an example *)
(* the program with the code of its expressions and the numbers of its variables *)
Definition tx_f : prog :=
  PSeq (PSet (Sets SL 2 (lit 0)))
  (PSeq (PFor [Sets SL 1 (lit 1)] (Some (Infix "<=" (lv 1) (lv 0))) [Steps "++" true SL 1]
          (PBraces (PSeq (PIf (Infix "==" (lv 1) (lit 3)) (PBraces PContinue)) (PSet (Changes "+=" SL 2 (lv 1))))))
  (PSeq (PSet (Sets SG 0 (Infix "+" (gv 0) (lit 1)))) (PReturn (Some (lv 2))))).
Definition tx_file : list pitem := [PGlobal (PSet (Sets SG 0 (lit 41))); PFunction (name_hash (nm "sum")) [name_hash (nm "n"); name_hash (nm "i")] tx_f].
Definition tx_items : list CtlSem.item :=
  [CtlSem.Global (px_code (PSet (Sets SG 0 (lit 41)))); CtlSem.Function (name_hash (nm "sum")) [name_hash (nm "n"); name_hash (nm "i")] (px_code tx_f)].
Definition tx_toks : list CcModel.tok := Eval vm_compute in CtlSem.source tx_items.
(* its text *)
Definition tx_src : list Z := TokenModel.text
  "var g = 41 ; function sum ( n , i ) { var s = 0 ; for ( i = 1 ; i <= n ; i ++ ) { if ( i == 3 ) { continue ; } s += i ; } g = g + 1 ; return s ; } ".
Definition int (s : string) (v : Z) : tok := mkTok (nm s) (IntVal v) false.
Definition tx_words : list tok :=
  [sign "var"; sign "g"; sign "="; int "41" 41; sign ";"; sign "function"; sign "sum"; sign "("; sign "n"; sign ","; sign "i"; sign ")"; sign "{";
   sign "var"; sign "s"; sign "="; int "0" 0; sign ";";
   sign "for"; sign "("; sign "i"; sign "="; int "1" 1; sign ";"; sign "i"; sign "<="; sign "n"; sign ";"; sign "i"; sign "++"; sign ")"; sign "{";
   sign "if"; sign "("; sign "i"; sign "=="; int "3" 3; sign ")"; sign "{"; sign "continue"; sign ";"; sign "}"; sign "s"; sign "+="; sign "i"; sign ";"; sign "}";
   sign "g"; sign "="; sign "g"; sign "+"; int "1" 1; sign ";"; sign "return"; sign "s"; sign ";"; sign "}"].
Definition tx_names : list (list Z) := [nm "g"; nm "n"; nm "i"; nm "s"].
Example c60_ex_written : written 64 (fun _ => 0) [] tx_words tx_src.
Proof. change tx_src with (with_blanks tx_words). apply easy_written. vm_compute. reflexivity. Qed.
Example c60_ex_names : all_different tx_names.
Proof.
  split.
  - intros x y X Y. unfold tx_names in X, Y. cbn [In] in X, Y.
    repeat (destruct X as [<-|X]; [repeat (destruct Y as [<-|Y]; [split; intros H; first [reflexivity|vm_compute in H; discriminate H]|]); destruct Y|]); destruct X.
  - intros x y X Y. unfold tx_names in X, Y. cbn [In] in X, Y.
    repeat (destruct X as [<-|X]; [repeat (destruct Y as [<-|Y]; [intros H; vm_compute in H; discriminate H|]); destruct Y|]); destruct X.
Qed.
Lemma identifier_ok w : match w with c :: r => is_letter c && forallb (fun c => is_letter c || is_digit c) r && negb (lists words_of_the_language w) | [] => false end = true -> identifier w.
Proof.
  destruct w as [|c r]; [discriminate|]. intros E. apply andb_prop in E as [E K]. apply andb_prop in E as [E1 E2].
  exists c, r. split; [reflexivity|]. split; [left; unfold is_letter in E1; unfold letter; lia|]. split.
  - clear - E2. induction r as [|d r IH]; [constructor|]. cbn [forallb] in E2. apply andb_prop in E2 as [E E2]. constructor; [|auto]. unfold is_letter, is_digit in E. unfold word, letter, digit. lia.
  - intros IN. unfold lists in K. apply negb_true_iff in K. assert (X : existsb (fun x => if list_eq_dec Z.eq_dec x (c :: r) then true else false) words_of_the_language = true); [|congruence].
    apply existsb_exists. exists (c :: r). split; [exact IN|]. now destruct (list_eq_dec Z.eq_dec (c :: r) (c :: r)).
Qed.
Lemma not_listed l w : lists l w = false -> ~ In w l.
Proof.
  intros K IN. unfold lists in K. assert (X : existsb (fun x => if list_eq_dec Z.eq_dec x w then true else false) l = true); [|congruence].
  apply existsb_exists. exists w. split; [exact IN|]. now destruct (list_eq_dec Z.eq_dec w w).
Qed.
Ltac idf := apply identifier_ok; vm_compute; reflexivity.
Ltac nin := apply not_listed; vm_compute; reflexivity.
Ltac ident := let n := fresh in let H := fresh in intros n [H|H]; try discriminate H; injection H as <-; idf.
Definition na (s : string) : tree sexpr := Atom (SName (nm s)).
Definition ni (z : Z) : tree sexpr := Atom (SInt z).
Lemma t_int w z : s32 z = z -> tokens (ni z) [int w z].
Proof. intros H. apply TT_atom. rewrite <- H at 1. apply OT_int. Qed.
Lemma t_name n : tokens (na n) [sign n].
Proof. apply TT_atom. apply OT_name. Qed.
Lemma t_infix s t u k r : In s (map fst infixes) -> tokens t [k] -> tokens u r -> tokens (Infix s t u) (k :: sign s :: r).
Proof. intros H T U. exact (TT_infix _ s t u [k] r H T U). Qed.
Lemma t_postfix s t k : In s ["++"; "--"; "._count"; "._hash"]%string -> tokens t [k] -> tokens (Postfix s [] t) [k; sign s].
Proof. intros H T. exact (TT_postfix _ s t [k] H T). Qed.
Ltac toks := repeat first [apply t_name | apply t_int; reflexivity | apply t_infix; [cbn; tauto| |] | apply t_postfix; [cbn; tauto|]].
Fixpoint index_of (n : list Z) (l : list (list Z)) : option Z :=
  match l with [] => None | x :: l => if list_eq_dec Z.eq_dec x n then Some 0 else match index_of n l with Some i => Some (1 + i) | None => None end end.
Lemma place_at n l i : index_of n l = Some i -> place_of n l i.
Proof.
  revert i. induction l as [|x l IH]; intros i H; [discriminate H|]. cbn [index_of] in H. destruct (list_eq_dec Z.eq_dec x n) as [->|N].
  - injection H as <-. apply PL_here.
  - destruct (index_of n l); [|discriminate H]. injection H as <-. apply PL_later; auto.
Qed.
Ltac place := apply place_at; vm_compute; reflexivity.
Ltac den := repeat first [apply TR_infix | apply TR_prefix | apply TR_postfix | apply TR_atom]; first [apply D_int | (apply D_variable; [first [(eapply V_local; [reflexivity|place]) | (apply V_global; [intros ls H; injection H as <-; nin|place])]|ident])].
Ltac cps := econstructor; [vm_compute; reflexivity|]; cbn [EvalSpec.operands app]; intros u IN; repeat (destruct IN as [IN|IN]; [discriminate IN|]); contradiction.
Ltac sg s := apply (SP_sign _ _ _ _ s); [cbn; tauto|].
Ltac ex t ts e := eapply (SP_expression _ _ _ t ts e); [toks|den|cps|vm_compute; reflexivity|].
Lemma sp_close names g ls d l w g' us : spells names g (Some (ls, d)) l w g' us -> spells names g (Some (ls, S d)) (T_rbrace :: l) (sign "}" :: w) g' us.
Proof. apply (SP_close names g (Some (ls, d))). Qed.
Lemma sp_open names g ls d l w g' us : spells names g (Some (ls, S d)) l w g' us -> spells names g (Some (ls, d)) (T_lbrace :: l) (sign "{" :: w) g' us.
Proof. apply (SP_open names g (Some (ls, d))). Qed.
Example c60_ex_spells : spells tx_names [] None tx_toks tx_words [nm "g"] [[nm "n"; nm "i"; nm "s"]].
Proof.
  unfold tx_toks, tx_words.
  eapply (SP_var_global _ [] (nm "g") (ni 41) [int "41" 41] (lit 41)); [idf|cbn; tauto|nin|toks|den|cps|is_fine|vm_compute; discriminate|vm_compute; reflexivity|].
  cbn [app].
  apply (SP_function _ _ (nm "sum") [nm "n"; nm "i"]); [idf|repeat (constructor; [idf|]); constructor|repeat constructor; try nin; intros [X|[]]; discriminate X|repeat (constructor; [cbn; tauto|]); constructor|].
  eapply (SP_var_local _ _ _ _ (nm "s") (ni 0) [int "0" 0] (lit 0)); [idf|cbn; tauto|nin|toks|den|cps|is_fine|vm_compute; discriminate|vm_compute; reflexivity|].
  cbn [app].
  sg "for"%string. sg "("%string. ex (Infix "=" (na "i") (ni 1)) [sign "i"; sign "="; int "1" 1] (Infix "=" (lv 1) (lit 1)). sg ";"%string.
  ex (Infix "<=" (na "i") (na "n")) [sign "i"; sign "<="; sign "n"] (Infix "<=" (lv 1) (lv 0)). sg ";"%string.
  ex (Postfix "++" [] (na "i")) [sign "i"; sign "++"] (Postfix "++" [] (lv 1)). sg ")"%string. apply sp_open.
  sg "if"%string. sg "("%string. ex (Infix "==" (na "i") (ni 3)) [sign "i"; sign "=="; int "3" 3] (Infix "==" (lv 1) (lit 3)). sg ")"%string. apply sp_open.
  sg "continue"%string. sg ";"%string. apply sp_close.
  ex (Infix "+=" (na "s") (na "i")) [sign "s"; sign "+="; sign "i"] (Infix "+=" (lv 2) (lv 1)). sg ";"%string. apply sp_close.
  ex (Infix "=" (na "g") (Infix "+" (na "g") (ni 1))) [sign "g"; sign "="; sign "g"; sign "+"; int "1" 1] (Infix "=" (gv 0) (Infix "+" (gv 0) (lit 1))). sg ";"%string.
  sg "return"%string. ex (na "s") [sign "s"] (lv 2). sg ";"%string.
  apply SP_close_function. apply SP_end.
Qed.

(* the program of the example, in its text *)
Definition plain (s : string) : pres (bcode * list cunit) := compile_text 64 (fun _ => 0) [] [] true 200 (TokenModel.text s).
Example c60_ex_source : CtlSem.source tx_items = tx_toks.
Proof. vm_compute. reflexivity. Qed.
Example c60_ex_units : exists code units, compile_units 200 tx_toks = COk (code, units) /\ map u_hash units = [name_hash (nm "sum")].
Proof. eexists _, _. split; vm_compute; reflexivity. Qed.
Example c60_ex_compiled : exists code unit, compile_units 200 tx_toks = COk (code, [unit]) /\
  compile_text 64 (fun _ => 0) [] [] true 200 tx_src =
    POk (named_space [qualified (nm "g")] code, [named_unit [name_hash (nm "n"); name_hash (nm "i"); name_hash (nm "s")] unit]).
Proof.
  assert (X : exists code unit, compile_units 200 tx_toks = COk (code, [unit])) by (eexists _, _; vm_compute; reflexivity).
  destruct X as (code & unit & X). exists code, unit. split; [exact X|].
  apply (c60_program_partial 64 (fun _ => 0) [] [] true tx_names tx_toks tx_words tx_src [nm "g"] [[nm "n"; nm "i"; nm "s"]] 200 code [unit]);
    [lia|intros c v []|exact c60_ex_names|exact c60_ex_spells|vm_compute; reflexivity|exact c60_ex_written|exact X].
Qed.

(* ---------------------------------------------------------------- false claims *)
(* A block directly in the body of a function ends the function: a program with one is not compiled, *)
Theorem c60_block_in_a_block_refuted :
  plain "var g = 0; function f() { { g = 1; } g = 2; }" = PErr /\
  plain "var g = 0; function f() { if ( g ) { g = 1; } g = 2; }" <> PErr.
Proof. split; [vm_compute; reflexivity|]. intros H. vm_compute in H. discriminate H. Qed.
(* and a text whose braces do not match is: as the program whose function ends there. *)
Theorem c60_braces_match_refuted :
  exists g u, plain "var g = 0; function f() { { g = 1; } g = 2;" = POk (g, [u]) /\
              plain "var g = 0; function f() { g = 1; } g = 2;" = POk (g, [u]).
Proof. eexists _, _. split; vm_compute; reflexivity. Qed.
(* The end of a block is known by its first character, also that of a string: the string "}" ends a function. *)
Theorem c60_string_ends_block_refuted :
  exists g u, plain "var g = 0; function f() { g = 1; ""}..."" " = POk (g, [u]) /\
              plain "var g = 0; function f() { g = 1; } " = POk (g, [u]).
Proof. eexists _, _. split; vm_compute; reflexivity. Qed.
(* A function may have two parameters of one name; it then has fewer variables than parameters. *)
Theorem c60_parameters_differ_refuted :
  exists g u, plain "function f( a, a ) { return a; }" = POk (g, [u]) /\ u_args u = 2 /\ b_locals (u_code u) = [name_hash (nm "a")].
Proof. eexists _, _. split; [vm_compute; reflexivity|]. split; vm_compute; reflexivity. Qed.
(* A case has a literal, not an expression: -1 is none. *)
Theorem c60_negative_case_refuted :
  plain "var g = 0; switch( g ) { case -1: g = 1; }" = PErr /\ plain "var g = 0; switch( g ) { case 1: g = 1; }" <> PErr /\
  plain "var g = 0; switch( g ) { case (1): g = 1; }" = PErr.
Proof. split; [vm_compute; reflexivity|]. split; [intros H; vm_compute in H; discriminate H|vm_compute; reflexivity]. Qed.

Print Assumptions c60_program_partial.
Print Assumptions c60_block_in_a_block_refuted.
Print Assumptions c60_braces_match_refuted.
Print Assumptions c60_string_ends_block_refuted.
Print Assumptions c60_parameters_differ_refuted.
Print Assumptions c60_negative_case_refuted.
