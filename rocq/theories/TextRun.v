(* Proofs for C60: the statements. *)
From Coq Require Import String Ascii.
From Verif Require Import Base BaseLemmas HashModel OpsModel VmModel EmitModel ExprModel ExprEmit ExprSpec ExprNest ExprText ExprAssign EvalSpec AppendProofs CcModel ProgSpec ProgCtl ExprParam
  TokenModel TokenSpec TokenProofs ParseModel ParseSpec ParseProofs ParseRun TextModel TextSpec TextExpr TextBlocks TextProofs.
Open Scope list_scope. Open Scope Z_scope.

Lemma text_same s s' : TokenModel.text s = TokenModel.text s' -> s = s'.
Proof. intros H. rewrite <- (string_text s), H. apply string_text. Qed.
Definition kind (s : string) : option CcModel.tok := option_map fst (find (fun p => String.eqb (snd p) s) all_signs).
Lemma kind_of k s : In (k, s) all_signs -> kind s = Some k.
Proof. intros I. cbn in I. repeat (destruct I as [I|I]; [injection I as <- <-; reflexivity|]). destruct I. Qed.
Lemma headed_sign k t s : headed k t -> In (k, s) all_signs -> t = sign s.
Proof.
  intros H I. assert (U : forall s', In (k, s') all_signs -> s' = s).
  { intros s' I'. clear H. cbn in I, I'. repeat (destruct I as [I|I]; [injection I as <- <-; repeat (destruct I' as [I'|I']; [try discriminate I'; now injection I' as <-|]); destruct I'|]). destruct I. }
  destruct H as [k s' I'|h|h a|b|b t P]; [now rewrite (U s' I')| | | |]; exfalso; unlisted I.
Qed.
Lemma headed_not k t k0 s0 : headed k t -> In (k0, s0) all_signs -> In s0 statement_words -> k <> k0 -> unquoted t s0 = false.
Proof.
  intros H I W N. destruct H as [k s I1|h|h a|b|b t P]; [| | | |now apply plain_unquoted]; unfold unquoted; cbn [sign t_quoted t_text negb andb]; apply is_no; intros E; apply text_same in E; subst s0; apply kind_of in I.
  - apply kind_of in I1. congruence.
  - discriminate I.
  - discriminate I.
  - discriminate I.
Qed.

Section Run.
Variable lbits : Z.
Variable atof : list Z -> Z.
Variable consts0 consts : list (list Z * tval).
Variable need_var : bool.
Hypothesis LB : 32 <= lbits.
Hypothesis LO : forall n v, In (n, v) (consts0 ++ consts) -> name n.
Variable names : list (list Z).
Hypothesis AD : all_different names.
Variable gend : list (list Z).
Variable total : list (list Z).

Notation read := (read lbits atof consts0 consts).
Notation need := (need lbits atof consts0 consts).
Notation demand := (demand lbits atof consts0 consts).
Notation look_ahead := (look_ahead lbits atof consts0 consts).
Notation expression := (expression lbits atof consts0 consts need_var).
Notation expression_to := (expression_to lbits atof consts0 consts need_var).
Notation rel := (rel lbits atof consts0 consts names gend total).
Notation rels := (rels lbits atof consts0 consts names gend total).
Notation xready := (xready lbits atof consts0 consts).
Notation spells := (spells names).

Definition space_of (K : stands) (sg sf : list Z) : list Z := match K with Outside => sg | _ => sf end.
Definition leads (K : stands) (sg sf : list Z) (r : pres xst) (st : CcModel.pst) : Prop :=
  exists x1 sg1 sf1, r = POk x1 /\ rel K sg1 sf1 x1 st /\ incl sg sg1 /\ incl sf sf1.
Lemma leads_here K sg sf x st : rel K sg sf x st -> leads K sg sf (POk x) st.
Proof. intros R. exists x, sg, sf. auto using incl_refl. Qed.
Lemma leads_act K sg sf x st f st1 : commutes f -> rel K sg sf x st -> emit f st = COk st1 -> leads K sg sf (act f x) st1.
Proof. intros C R E. destruct (rel_act _ _ _ _ _ _ _ _ _ _ _ _ _ _ C R E) as (x1 & -> & R1). now apply leads_here. Qed.
Lemma leads_more K sg sf sg1 sf1 r st : leads K sg1 sf1 r st -> incl sg sg1 -> incl sf sf1 -> leads K sg sf r st.
Proof. intros (x & sg2 & sf2 & E & R & I1 & I2) J1 J2. exists x, sg2, sf2. split; [exact E|]. split; [exact R|]. split; eapply incl_tran; eauto. Qed.
Lemma scope_space K sg sf x st : K <> Behind -> rel K sg sf x st -> scope st sg sf = space_of K sg sf.
Proof.
  intros NB (su & words & g & f & us & [A1 A2 A3 A4 A5 A6 A7]). unfold scope, space_of, stood in *. destruct K as [|d|]; [| |congruence].
  - destruct A7 as (_ & -> & _). reflexivity.
  - destruct A7 as (N & _). destruct (p_fn st); [reflexivity|congruence].
Qed.
Lemma current_space K sg sf x st : K <> Behind -> rel K sg sf x st -> current x = loc (space_of K sg sf) (cur st).
Proof. intros NB R. rewrite (rel_cur _ _ _ _ _ _ _ _ _ _ _ _ R). f_equal. now apply (scope_space K sg sf x). Qed.
Lemma code_append K sg sf x st X c st1 : K <> Behind -> incl X (space_of K sg sf) -> rel K sg sf x st -> emit (fun b => append_bytecode b c) st = COk st1 ->
  exists x1, act (fun b => append_bytecode b (loc X c)) x = POk x1 /\ rel K sg sf x1 st1.
Proof. intros NB I R E. rewrite <- (scope_space K sg sf x st NB R) in I. now apply (rel_append _ _ _ _ _ _ _ _ _ _ _ st). Qed.
Lemma same_token a b : tok_eqb a b = true -> a = b.
Proof. destruct a, b; try discriminate; reflexivity. Qed.
(* an expression in parentheses *)
Lemma condition pf K sg sf x st b st1 : K <> Behind -> rel K sg sf x st -> parse_expr_to T_rparen st = COk (b, st1) ->
  exists x1, expression_to pf 41 x = POk (loc (space_of K sg sf) b, x1) /\ rel K sg sf x1 st1.
Proof.
  intros NB R E. unfold parse_expr_to in E. apply bind_some in E as (((b0, e), st0) & E & Q). destruct (tok_eqb e T_rparen) eqn:TE; [|discriminate Q]. injection Q as -> ->. apply same_token in TE as ->.
  destruct (expression_rel lbits atof consts0 consts need_var LB LO names AD gend total pf K sg sf x st b T_rparen ")" st1 NB R E ltac:(cbn; tauto)) as (x1 & L' & EX & N & _).
  destruct (N ltac:(discriminate)) as (-> & R1). exists x1. split; [|exact R1]. unfold TextModel.expression_to. rewrite EX. cbn [pbind]. now rewrite (scope_space K sg sf x st NB R).
Qed.
(* an expression and a semicolon *)
Lemma sentence pf K sg sf x st b st1 : K <> Behind -> rel K sg sf x st -> parse_expr_to T_semi st = COk (b, st1) ->
  exists x1 L', expression_to pf 59 x = POk (loc L' b, x1) /\
    forall b1 st2, emit (fun c => append_bytecode c b1) st1 = COk st2 -> leads K sg sf (act (fun c => append_bytecode c (loc L' b1)) x1) st2.
Proof.
  intros NB R E. unfold parse_expr_to in E. apply bind_some in E as (((b0, e), st0) & E & Q). destruct (tok_eqb e T_semi) eqn:TE; [|discriminate Q]. injection Q as -> ->. apply same_token in TE as ->.
  destruct (expression_rel lbits atof consts0 consts need_var LB LO names AD gend total pf K sg sf x st b T_semi ";" st1 NB R E ltac:(cbn; tauto)) as (x1 & L' & EX & _ & N).
  exists x1, L'. split; [unfold TextModel.expression_to; now rewrite EX|exact N].
Qed.
Lemma no_colon K sg sf x st : rel K sg sf x st -> ~ In T_colon (p_toks st).
Proof.
  intros (su & words & g & f & us & [A1 A2 A3 A4 A5 A6 A7]). clear -A6. induction A6; cbn [In]; try (intuition discriminate).
  intros [->|I]; [|contradiction]. match goal with H : In _ word_or_sign |- _ => unlisted H end.
Qed.
Lemma expr_ends st b e st1 : parse_expr st = COk (b, e, st1) -> e = T_semi \/ In e (p_toks st).
Proof.
  unfold parse_expr. destruct (p_toks st) as [|k r]; [discriminate|]. destruct k; intros H;
    try (destruct (is_terminator _) eqn:T in H; [|discriminate H]; injection H as <- <- <-; cbn; tauto).
  - destruct r as [|k r]; [discriminate|]. destruct (is_terminator k) eqn:T in H; [|discriminate H]. injection H as <- <- <-. cbn; tauto.
  - injection H as <- <- <-. now left.
Qed.
Lemma opened_not K : K <> Behind -> opened K <> Behind.
Proof. destruct K; cbn; congruence. Qed.
Lemma closed_opened K : closed (opened K) = K.
Proof. now destruct K. Qed.

Ltac ac C := match goal with
  | H : cbind (emit ?f ?st) _ = COk _, R : TextProofs.rel _ _ _ _ _ _ _ ?K ?sg ?sf ?x ?st |- _ =>
    let st' := fresh "st" in let E := fresh "E" in let x' := fresh "x" in let EX := fresh "EX" in let R' := fresh "R" in
    apply bind_some in H; destruct H as (st' & E & H); destruct (rel_act _ _ _ _ _ _ _ K sg sf x st f st' C R E) as (x' & EX & R'); rewrite EX; cbn [pbind]; clear R E EX end.
Ltac ap := match goal with
  | H : cbind (emit (fun b => append_bytecode b ?c) ?st) _ = COk _, R : TextProofs.rel _ _ _ _ _ _ _ ?K ?sg ?sf ?x ?st |- context [act (fun b => append_bytecode b (loc ?X _))] =>
    let st' := fresh "st" in let E := fresh "E" in let x' := fresh "x" in let EX := fresh "EX" in let R' := fresh "R" in
    apply bind_some in H; destruct H as (st' & E & H); destruct (code_append K sg sf x st X c st' ltac:(assumption) ltac:(first [apply incl_refl|assumption]) R E) as (x' & EX & R'); rewrite EX; cbn [pbind]; clear R E EX end.
Ltac tg := match goal with
  | R : TextProofs.rel _ _ _ _ _ _ _ ?K ?sg ?sf ?x ?st, H : context [new_target ?st] |- _ =>
    let T := fresh "T" in let R' := fresh "R" in
    destruct (rel_target _ _ _ _ _ _ _ K sg sf x st R) as [T R']; clear R; destruct (new_target st) as [? ?]; destruct (target x) as [? ?]; cbn [fst snd] in T, R'; subst end.
Ltac dm s := match goal with
  | H : cbind (expect ?k ?st) _ = COk _, R : TextProofs.rel _ _ _ _ _ _ _ ?K ?sg ?sf ?x ?st |- _ =>
    let st' := fresh "st" in let E := fresh "E" in let x' := fresh "x" in let EX := fresh "EX" in let R' := fresh "R" in
    apply bind_some in H; destruct H as (st' & E & H); destruct (rel_demand lbits atof consts0 consts LB LO names gend total K sg sf x st st' k s ltac:(cbn; tauto) R E) as (x' & EX & R'); rewrite EX; cbn [pbind]; clear R E EX end.
Ltac cnd := match goal with
  | H : cbind (parse_expr_to T_rparen ?st) _ = COk _, R : TextProofs.rel _ _ _ _ _ _ _ ?K ?sg ?sf ?x ?st |- context [TextModel.expression_to _ _ _ _ _ ?pf 41 ?x] =>
    let c := fresh "c" in let st' := fresh "st" in let E := fresh "E" in let x' := fresh "x" in let EX := fresh "EX" in let R' := fresh "R" in
    apply bind_some in H; destruct H as ((c & st') & E & H); destruct (condition pf K sg sf x st c st' ltac:(assumption) R E) as (x' & EX & R'); rewrite EX; cbn [pbind]; clear R E EX end.
Ltac look := match goal with
  | R : TextProofs.rel _ _ _ _ _ _ _ ?K ?sg ?sf ?x ?st |- context [TextModel.look_ahead _ _ _ _ ?x] =>
    let x' := fresh "x" in let EX := fresh "EX" in let R' := fresh "R" in
    destruct (rel_look lbits atof consts0 consts LB LO names gend total K sg sf x st R) as (x' & EX & R'); [|rewrite EX; cbn [pbind]; clear R EX] end.
Ltac stacks := match goal with
  | R : TextProofs.rel _ _ _ _ _ _ _ ?K ?sg ?sf ?x ?st |- context [brk ?x] => rewrite (proj1 (rel_brk _ _ _ _ _ _ _ K sg sf x st R))
  | R : TextProofs.rel _ _ _ _ _ _ _ ?K ?sg ?sf ?x ?st |- context [cont ?x] => rewrite (proj2 (rel_brk _ _ _ _ _ _ _ K sg sf x st R)) end.
Ltac sk := repeat stacks; repeat match goal with
  | R : TextProofs.rel _ _ _ _ _ _ _ ?K ?sg ?sf ?x ?st, H : context [set_cont ?l ?st] |- context [put_cont ?l ?x] => apply (rel_put_cont _ _ _ _ _ _ _ K sg sf x st l) in R
  | R : TextProofs.rel _ _ _ _ _ _ _ ?K ?sg ?sf ?x ?st, H : context [set_brk ?l ?st] |- context [put_brk ?l ?x] => apply (rel_put_brk _ _ _ _ _ _ _ K sg sf x st l) in R end.
Ltac nm := match goal with R : TextProofs.rel _ _ _ _ _ _ _ _ ?sg ?sf ?x ?st |- _ => rename R into RX; rename x into xx; rename st into stx; rename sg into sgx; rename sf into sfx end.

Section Statements.
Variable ps : opcode -> CcModel.tok -> CcModel.pst -> cres CcModel.pst.
Variable ps' : opcode -> Z -> xst -> pres xst.
Hypothesis PS : forall ret K sg sf x st st1, K <> Behind -> rel K sg sf x st -> ps ret T_semi st = COk st1 -> leads K sg sf (ps' ret 59 x) st1.
Hypothesis PB : forall ret K sg sf x st st1, K <> Behind -> rel K sg sf x st -> ps ret T_rbrace st = COk st1 -> leads (closed K) sg sf (ps' ret 125 x) st1.
Notation text_while := (text_while lbits atof consts0 consts need_var ps').
Notation text_do := (text_do lbits atof consts0 consts need_var ps').
Notation text_if := (text_if lbits atof consts0 consts need_var ps').

Ltac body := match goal with
  | H : cbind (ps ?ret T_semi ?st) _ = COk _, R : TextProofs.rel _ _ _ _ _ _ _ ?K ?sg ?sf ?x ?st |- leads _ ?sg0 ?sf0 _ _ =>
    let st' := fresh "st" in let E := fresh "E" in let x' := fresh "x" in let EX := fresh "EX" in let R' := fresh "R" in
    let sg1 := fresh "sg" in let sf1 := fresh "sf" in let I1 := fresh "I" in let I2 := fresh "I" in
    apply bind_some in H; destruct H as (st' & E & H); destruct (PS ret K sg sf x st st' ltac:(assumption) R E) as (x' & sg1 & sf1 & EX & R' & I1 & I2); rewrite EX; cbn [pbind]; clear R E EX;
    apply (leads_more K sg0 sf0 sg1 sf1); [|assumption|assumption] end.
Lemma nonempty_expr st e b st1 : parse_expr_to e st = COk (b, st1) -> p_toks st <> [].
Proof. unfold parse_expr_to, parse_expr. destruct (p_toks st); [discriminate|congruence]. Qed.
Lemma while_rel ret K sg sf x st st1 : K <> Behind -> rel K sg sf x st -> parse_while ps ret st = COk st1 -> leads K sg sf (text_while ret x) st1.
Proof.
  intros NB R H. unfold parse_while in H. unfold TextModel.text_while. dm "("%string.
  look. { destruct (bind_some _ _ _ H) as ((? & ?) & E & _). exact (nonempty_expr _ _ _ _ E). }
  cnd. tg. sk. ac (commutes_target n). ap. tg. sk. ac (commutes_source O_BZ n0). body. ac (commutes_source O_RelativeJump n). ac (commutes_target n0). sk.
  eapply leads_act; [apply commutes_resolve|eassumption|exact H].
Qed.
Lemma do_rel ret K sg sf x st st1 : K <> Behind -> rel K sg sf x st -> parse_do ps ret st = COk st1 -> leads K sg sf (text_do ret x) st1.
Proof.
  intros NB R H. unfold parse_do in H. unfold TextModel.text_do. tg. tg. sk. tg. ac (commutes_target n1). body. ac (commutes_target n). dm "while"%string. dm "("%string. cnd. dm ";"%string.
  ac (commutes_target n). ap. ac (commutes_source O_BZ n0). ac (commutes_source O_RelativeJump n1). ac (commutes_target n0). sk.
  eapply leads_act; [apply commutes_resolve|eassumption|exact H].
Qed.
Lemma if_rel ret K sg sf x st st1 : K <> Behind -> rel K sg sf x st -> parse_if ps ret st = COk st1 -> leads K sg sf (text_if ret x) st1.
Proof.
  intros NB R H. unfold parse_if in H. unfold TextModel.text_if. dm "("%string.
  look. { destruct (bind_some _ _ _ H) as ((? & ?) & E & _). exact (nonempty_expr _ _ _ _ E). }
  cnd. ap. tg. ac (commutes_source O_BZ n). body.
  nm. destruct (p_toks stx) as [|k r] eqn:P.
  - destruct (peek_end _ _ _ _ LO _ _ _ _ _ _ _ _ RX P) as (x9 & RD & R9). rewrite RD. cbn [pbind]. clear RX. ac (commutes_target n). eapply leads_act; [apply commutes_resolve|eassumption|exact H].
  - destruct (peek _ _ _ _ LB LO _ _ _ _ _ _ _ _ _ _ RX P) as (t & x9 & RD & HD & RB & RN). rewrite RD. cbn [pbind]. clear RX.
    destruct (match k with T_else => true | _ => false end) eqn:EL.
    + destruct k; try discriminate EL. rewrite (headed_sign _ _ "else" HD) by (cbn; tauto). change (unquoted (sign "else") "else") with true. cbv iota.
      specialize (RN "else"%string ltac:(cbn; tauto)). clear RB. apply bind_some in H as (st9 & H & H9).
      enough (X : leads K sgx sfx (let '(x, tp) := target x9 in x <<- act (add_source O_RelativeJump tp) x ;; x <<- act (set_target n) x ;; x <<- ps' ret 59 x ;; act (set_target tp) x) st9).
      { destruct X as (x10 & sg1 & sf1 & EX & R10 & J1 & J2). rewrite EX. cbn [pbind]. apply (leads_more K sgx sfx sg1 sf1); [|exact J1|exact J2]. eapply leads_act; [apply commutes_resolve|eassumption|exact H9]. }
      tg. ac (commutes_source O_RelativeJump n0). ac (commutes_target n). body. eapply leads_act; [apply commutes_target|eassumption|exact H].
    + rewrite (headed_not k t T_else "else" HD) by (try (cbn; tauto); intros ->; discriminate EL).
      assert (H' : (st <~ emit (set_target n) stx ;; emit resolve_jumps st) = COk st1) by (rewrite <- H; destruct k; try discriminate EL; reflexivity). clear H.
      ac (commutes_target n). eapply leads_act; [apply commutes_resolve|eassumption|exact H'].
Qed.

(* ---------------------------------------------------------------- for *)
Notation text_setup := (text_setup lbits atof consts0 consts need_var).
Notation text_post := (text_post lbits atof consts0 consts need_var).
Notation text_for := (text_for lbits atof consts0 consts need_var ps').
Lemma setup_rel n : forall n' each K sg sf x st s, (n <= n')%nat -> K <> Behind -> rel K sg sf x st -> parse_setup n each st = COk s ->
  exists st1, s = SetupPlain st1 /\ leads K sg sf (text_setup n' x) st1.
Proof.
  induction n as [|n IH]; intros n' each K sg sf x st s LE NB R H; [discriminate H|]. destruct n' as [|n']; [lia|]. cbn [parse_setup] in H. cbn [TextModel.text_setup]. unfold TextModel.need.
  destruct (p_toks st) as [|k r] eqn:P. { unfold parse_expr in H. rewrite P in H. discriminate H. }
  destruct (peek _ _ _ _ LB LO _ _ _ _ _ _ _ _ _ _ R P) as (t & x9 & RD & HD & RB & RN). rewrite RD. cbn [pbind].
  destruct (match k with T_semi => true | _ => false end) eqn:EL.
  { destruct k; try discriminate EL. rewrite (headed_sign _ _ ";" HD) by (cbn; tauto). change (unquoted (sign ";") ";") with true. cbv iota. injection H as <-. eexists. split; [reflexivity|].
    apply leads_here. apply (RN ";"%string). cbn; tauto. }
  rewrite (headed_not k t T_semi ";" HD) by (try (cbn; tauto); intros ->; discriminate EL).
  match type of H with _ = COk s => assert (H' : ('(b, e, st) <~ parse_expr st ;;
      let each := match each with Some l => if lenZ l <? 2 then option_map (fun x => l ++ [x]) (single_load b) else None | None => None end in
      b1 <~ push_opcode O_PopOne b ;;
      st <~ emit (fun c => append_bytecode c b1) st ;;
      match e with
      | T_semi => COk (SetupPlain st)
      | T_colon => match each with Some l => '(a, st) <~ parse_expr_to T_rparen st ;; COk (SetupEach l a st) | None => CErr E_unexpected_token end
      | T_comma => parse_setup n each st
      | _ => CErr E_unexpected_token
      end) = COk s) by (rewrite <- H; destruct k; try discriminate EL; reflexivity) end. clear H R.
  apply bind_some in H' as (((b & e) & st0) & E & H). apply bind_some in H as (b1 & E1 & H). apply bind_some in H as (st2 & E2 & H).
  assert (EE : exists s0, In (e, s0) [(T_semi, ";"); (T_comma, ",")]%string).
  { destruct e; try discriminate H; [exists ";"%string; cbn; tauto|exists ","%string; cbn; tauto|]. exfalso. destruct (expr_ends _ _ _ _ E) as [X|X]; [discriminate X|]. now apply (no_colon _ _ _ _ _ RB). }
  destruct EE as (s0 & IE).
  destruct (expression_rel lbits atof consts0 consts need_var LB LO names AD gend total true K sg sf _ st b e s0 st0 NB RB E ltac:(cbn in IE |- *; tauto)) as (x1 & L' & EX & _ & N).
  rewrite EX. cbn [pbind]. rewrite push_loc, E1. cbn [cmap lift pbind]. destruct (N _ _ E2) as (x2 & sg2 & sf2 & EA & R2 & I1 & I2). rewrite EA. cbn [pbind].
  cbn in IE. destruct IE as [IE|[IE|[]]]; injection IE as <- <-.
  - injection H as <-. eexists. split; [reflexivity|]. change (nth 0 (TokenModel.text ";") 0 =? 59) with true. cbv iota. apply (leads_more K sg sf sg2 sf2); [apply leads_here; exact R2|exact I1|exact I2].
  - destruct (IH n' _ K sg2 sf2 x2 st2 s ltac:(lia) NB R2 H) as (st3 & -> & L). eexists. split; [reflexivity|].
    change (nth 0 (TokenModel.text ",") 0 =? 59) with false. change (nth 0 (TokenModel.text ",") 0 =? 58) with false. change (nth 0 (TokenModel.text ",") 0 =? 44) with true. cbv iota.
    eapply leads_more; [exact L|exact I1|exact I2].
Qed.
Lemma post_rel n : forall n' K sg sf x st post p st1, (n <= n')%nat -> K <> Behind -> rel K sg sf x st -> parse_post n post st = COk (p, st1) ->
  exists x1, text_post n' (loc (space_of K sg sf) post) x = POk (loc (space_of K sg sf) p, x1) /\ rel K sg sf x1 st1.
Proof.
  induction n as [|n IH]; intros n' K sg sf x st post p st1 LE NB R H; [discriminate H|]. destruct n' as [|n']; [lia|]. cbn [parse_post] in H. cbn [TextModel.text_post]. unfold TextModel.need.
  destruct (p_toks st) as [|k r] eqn:P. { unfold parse_expr in H. rewrite P in H. discriminate H. }
  destruct (peek _ _ _ _ LB LO _ _ _ _ _ _ _ _ _ _ R P) as (t & x9 & RD & HD & RB & RN). rewrite RD. cbn [pbind].
  destruct (match k with T_rparen => true | _ => false end) eqn:EL.
  { destruct k; try discriminate EL. rewrite (headed_sign _ _ ")" HD) by (cbn; tauto). change (unquoted (sign ")") ")") with true. cbv iota. injection H as <- <-. eexists. split; [reflexivity|].
    apply (RN ")"%string). cbn; tauto. }
  rewrite (headed_not k t T_rparen ")" HD) by (try (cbn; tauto); intros ->; discriminate EL).
  match type of H with _ = COk ?s => assert (H' : ('(b, e, st) <~ parse_expr st ;;
      b1 <~ push_opcode O_PopOne b ;;
      post <~ append_bytecode post b1 ;;
      match e with
      | T_rparen => COk (post, st)
      | T_comma => parse_post n post st
      | _ => CErr E_unexpected_token
      end) = COk s) by (rewrite <- H; destruct k; try discriminate EL; reflexivity) end. clear H R.
  apply bind_some in H' as (((b & e) & st0) & E & H). apply bind_some in H as (b1 & E1 & H). apply bind_some in H as (post2 & E2 & H).
  assert (EE : exists s0, In (e, s0) [(T_rparen, ")"); (T_comma, ",")]%string).
  { destruct e; try discriminate H; [exists ")"%string; cbn; tauto|exists ","%string; cbn; tauto]. }
  destruct EE as (s0 & IE).
  destruct (expression_rel lbits atof consts0 consts need_var LB LO names AD gend total true K sg sf _ st b e s0 st0 NB RB E ltac:(cbn in IE |- *; tauto)) as (x1 & L' & EX & N & _).
  destruct N as (-> & R1). { cbn in IE. destruct IE as [IE|[IE|[]]]; injection IE as <- <-; discriminate. }
  rewrite (scope_space K sg sf _ st NB RB) in EX.
  rewrite EX. cbn [pbind]. rewrite push_loc, E1. cbn [cmap lift pbind]. rewrite append_loc by (apply merge_in, Forall_forall; auto). rewrite E2. cbn [cmap lift pbind].
  cbn in IE. destruct IE as [IE|[IE|[]]]; injection IE as <- <-.
  - injection H as <- <-. change (nth 0 (TokenModel.text ")") 0 =? 41) with true. cbv iota. eexists. split; [reflexivity|exact R1].
  - change (nth 0 (TokenModel.text ",") 0 =? 41) with false. change (nth 0 (TokenModel.text ",") 0 =? 44) with true. cbv iota. apply (IH n' K sg sf x1 st0 post2 p st1); auto. lia.
Qed.
Lemma space_more K sg sf sg1 sf1 : incl sg sg1 -> incl sf sf1 -> incl (space_of K sg sf) (space_of K sg1 sf1).
Proof. destruct K; cbn; auto. Qed.
Lemma for_rel ret K sg sf x st st1 : K <> Behind -> rel K sg sf x st -> parse_for ps ret st = COk st1 -> leads K sg sf (text_for ret x) st1.
Proof.
  intros NB R H. unfold parse_for in H. unfold TextModel.text_for. dm "("%string. tg. tg. sk.
  match goal with R : rel _ _ _ ?x ?st |- _ => rename R into RX; set (xx := x) in *; set (stx := st) in * end.
  apply bind_some in H as (s & E & H). assert (TL : (length (p_toks stx) <= S (length (x_src xx)))%nat) by (eapply rel_toks; [exact LO|exact RX|reflexivity]).
  destruct (setup_rel (S (length (p_toks stx))) (S (S (length (x_src xx)))) _ K _ _ _ _ _ ltac:(lia) NB RX E) as (st2 & -> & x3 & sg1 & sf1 & EX & R1 & I1 & I2).
  rewrite EX. cbn [pbind]. apply (leads_more K sg sf sg1 sf1); [|exact I1|exact I2]. clear RX EX TL E I1 I2. clear xx stx.
  apply bind_some in H as ((st9 & tp) & H & HH). cbv beta iota in H, HH. tg. ac (commutes_target n1). nm.
  apply bind_some in H as (st3 & E & H). unfold TextModel.need.
  (* the condition *)
  assert (CN : leads K sgx sfx (' (t, x) <<- (' (o, y1) <<- read xx ;; match o with Some t => POk (t, y1) | None => PErr end) ;;
      if is (t_text t) ";" then POk x
      else ' (c, y0) <<- expression_to true 59 (put_back t x) ;; y1 <<- act (fun b => append_bytecode b c) y0 ;; act (add_source O_BZ n0) y1) st3).
  { destruct (p_toks stx) as [|k r] eqn:P. { unfold parse_expr_to, parse_expr in E. rewrite P in E. discriminate E. }
    destruct (peek _ _ _ _ LB LO _ _ _ _ _ _ _ _ _ _ RX P) as (t & y9 & RD & HD & RB & RN). rewrite RD. cbn [pbind].
    destruct (match k with T_semi => true | _ => false end) eqn:EL.
    { destruct k; try discriminate EL. rewrite (headed_sign _ _ ";" HD) by (cbn; tauto). change (is (t_text (sign ";")) ";") with true. cbv iota. injection E as <-.
      apply leads_here. apply (RN ";"%string). cbn; tauto. }
    assert (NS : is (t_text t) ";" = false).
    { pose proof (headed_not k t T_semi ";" HD ltac:(cbn; tauto) ltac:(cbn; tauto) ltac:(intros ->; discriminate EL)) as X. unfold unquoted in X.
      assert (Q : t_quoted t = false \/ is (t_text t) ";" = false).
      { destruct HD as [? ? ?|?|? ?|?|? ? PL]; [now left|now left|now left|now left|]. right. apply (pl_words _ PL). cbn; tauto. }
      destruct Q as [Q|Q]; [|exact Q]. rewrite Q in X. exact X. }
    rewrite NS. clear RN RX.
    assert (E' : ('(c, st) <~ parse_expr_to T_semi stx ;; st <~ emit (fun b => append_bytecode b c) st ;; emit (add_source O_BZ n0) st) = COk st3) by (rewrite <- E; destruct k; try discriminate EL; reflexivity). clear E.
    apply bind_some in E' as ((c & st4) & E & E'). apply bind_some in E' as (st5 & E5 & E').
    destruct (sentence true K sgx sfx _ stx c st4 NB RB E) as (y4 & L' & EX & N). rewrite EX. cbn [pbind]. destruct (N _ _ E5) as (y5 & sg5 & sf5 & EA & R5 & J1 & J2). rewrite EA. cbn [pbind].
    apply (leads_more K sgx sfx sg5 sf5); [|exact J1|exact J2]. eapply leads_act; [apply commutes_source|exact R5|exact E']. }
  clear E RX. destruct CN as (y3 & sg2 & sf2 & EX & R3 & I1 & I2).
  match type of EX with pbind ?a ?f = _ => destruct a as [[t y4]| | | |]; cbn [pbind] in EX; try discriminate EX end. cbn [pbind]. rewrite EX. cbn [pbind]. clear EX.
  apply (leads_more K sgx sfx sg2 sf2); [|exact I1|exact I2]. clear I1 I2.
  (* the post clause *)
  apply bind_some in H as ((post & st4) & E & H). assert (TL : (length (p_toks st3) <= S (length (x_src y3)))%nat) by (eapply rel_toks; [exact LO|exact R3|reflexivity]).
  rewrite (current_space K sg2 sf2 y3 st3 NB R3). change (with_locals (b_locals (loc (space_of K sg2 sf2) (cur st3))) empty_bc) with (loc (space_of K sg2 sf2) empty_bc).
  destruct (post_rel (S (length (p_toks st3))) (S (S (length (x_src y3)))) K sg2 sf2 y3 st3 _ _ _ ltac:(lia) NB R3 E) as (y5 & EX & R5). rewrite EX. cbn [pbind]. clear EX R3 E TL.
  apply bind_some in H as (st6 & E & H). destruct (PS ret K sg2 sf2 y5 st4 st6 NB R5 E) as (y6 & sg3 & sf3 & EX & R6 & I1 & I2). rewrite EX. cbn [pbind]. clear EX E R5.
  apply (leads_more K sg2 sf2 sg3 sf3); [|exact I1|exact I2]. pose proof (space_more K _ _ _ _ I1 I2) as I3.
  ac (commutes_target n). ap. injection H as <- <-. ac (commutes_source O_RelativeJump n1). ac (commutes_target n0). sk.
  eapply leads_act; [apply commutes_resolve|eassumption|exact HH].
Qed.

(* ---------------------------------------------------------------- simple statements *)
Lemma jump_rel (ts : list nat) e K sg sf x st st1 : rel K sg sf x st -> parse_jump ts e st = COk st1 -> leads K sg sf (text_jump ts x) st1.
Proof. intros R H. destruct ts as [|t ts]; [discriminate H|]. eapply leads_act; [apply commutes_source|exact R|exact H]. Qed.
Notation text_return := (text_return lbits atof consts0 consts need_var).
Notation text_expr_stmt := (text_expr_stmt lbits atof consts0 consts need_var).
Lemma return_rel ret K sg sf x st st1 : K <> Behind -> rel K sg sf x st -> parse_return ret st = COk st1 -> leads K sg sf (text_return ret x) st1.
Proof.
  intros NB R H. unfold parse_return in H. unfold TextModel.text_return, TextModel.need. apply bind_some in H as (st2 & E & H).
  destruct (p_toks st) as [|k r] eqn:P. { unfold parse_expr_to, parse_expr in E. rewrite P in E. discriminate E. }
  destruct (peek _ _ _ _ LB LO _ _ _ _ _ _ _ _ _ _ R P) as (t & x9 & RD & HD & RB & RN). rewrite RD. cbn [pbind].
  destruct (match k with T_semi => true | _ => false end) eqn:EL.
  { destruct k; try discriminate EL. rewrite (headed_sign _ _ ";" HD) by (cbn; tauto). change (unquoted (sign ";") ";") with true. cbv iota.
    specialize (RN ";"%string ltac:(cbn; tauto)). destruct (rel_act _ _ _ _ _ _ _ _ _ _ _ _ _ _ (commutes_push O_LiteralZero) RN E) as (x2 & EX & R2). rewrite EX. cbn [pbind].
    eapply leads_act; [apply commutes_push|exact R2|exact H]. }
  rewrite (headed_not k t T_semi ";" HD) by (try (cbn; tauto); intros ->; discriminate EL).
  assert (E' : ('(b, st) <~ parse_expr_to T_semi st ;; emit (fun c => append_bytecode c b) st) = COk st2) by (rewrite <- E; destruct k; try discriminate EL; reflexivity). clear E.
  apply bind_some in E' as ((c & st4) & E & E5). destruct (sentence false K sg sf _ st c st4 NB RB E) as (x4 & L' & EX & N). rewrite EX. cbn [pbind].
  destruct (N _ _ E5) as (x5 & sg5 & sf5 & EA & R5 & J1 & J2). rewrite EA. cbn [pbind]. apply (leads_more K sg sf sg5 sf5); [|exact J1|exact J2]. eapply leads_act; [apply commutes_push|exact R5|exact H].
Qed.
Lemma stmt_rel K sg sf x st st1 : K <> Behind -> rel K sg sf x st -> parse_expr_stmt st = COk st1 -> leads K sg sf (text_expr_stmt x) st1.
Proof.
  intros NB R H. unfold parse_expr_stmt in H. unfold TextModel.text_expr_stmt. apply bind_some in H as ((c & st4) & E & H). apply bind_some in H as (st5 & E5 & H).
  destruct (sentence false K sg sf _ st c st4 NB R E) as (x4 & L' & EX & N). rewrite EX. cbn [pbind].
  destruct (N _ _ E5) as (x5 & sg5 & sf5 & EA & R5 & J1 & J2). rewrite EA. cbn [pbind]. apply (leads_more K sg sf sg5 sf5); [|exact J1|exact J2]. eapply leads_act; [apply commutes_push|exact R5|exact H].
Qed.

(* ---------------------------------------------------------------- switch *)
Notation single_value := (single_value lbits atof consts0 consts).
Notation text_cases := (text_cases lbits atof consts0 consts ps').
Notation text_switch := (text_switch lbits atof consts0 consts need_var ps').
Lemma case_token K sg sf x st h r : rel K sg sf x st -> p_toks st = T_case h :: r -> exists x1, read x = POk (Some (sign "case"), x1) /\ current x1 = current x /\
  forall n, exists x2, single_value (S n) ":" x1 = POk (h, x2) /\ rel K sg sf x2 (set_toks r st).
Proof.
  intros (su & words & g & f & us & [A1 A2 A3 A4 A5 A6 A7]) P. rewrite P in A6.
  inversion A6; subst; [exfalso; match goal with H : In _ word_or_sign |- _ => unlisted H end| |];
    destruct (read_ready _ _ _ _ LB LO _ _ _ A3) as (x1 & RD & R1 & C1 & _ & _); exists x1; (split; [exact RD|]); (split; [unfold current; now rewrite C1|]); intros n;
    destruct (read_ready _ _ _ _ LB LO _ _ _ R1) as (x2 & RD2 & R2 & C2 & _ & _); destruct (read_ready _ _ _ _ LB LO _ _ _ R2) as (x3 & RD3 & R3 & C3 & _ & _); exists x3; cbn [TextModel.single_value]; unfold TextModel.need; rewrite RD2; cbn [pbind].
  - assert (NP : unquoted (mkTok t (IntVal v) q) "(" = false).
    { pose proof (proj2 R1 _ _ _ _ eq_refl) as HX. unfold unquoted. cbn [t_text]. replace (is t "(") with false; [apply andb_false_r|]. symmetry. apply is_no. intros ->. inversion HX as [|? ? X _]; subst. unfold hexa, digit in X. lia. }
    rewrite NP. cbn [t_val]. unfold TextModel.demand, TextModel.need. rewrite RD3. cbn [pbind]. change (is (t_text (sign ":")) ":") with true. cbv iota. cbn [pbind]. split; [reflexivity|].
    exists su, w, g, f, us. split; auto. now rewrite C3, C2, C1, A1.
  - change (unquoted (mkTok t TextVal true) "(") with false. cbn [t_val t_quoted t_text]. unfold TextModel.demand, TextModel.need. rewrite RD3. cbn [pbind]. change (is (t_text (sign ":")) ":") with true. cbv iota. cbn [pbind]. split; [reflexivity|].
    exists su, w, g, f, us. split; auto. now rewrite C3, C2, C1, A1.
Qed.
Lemma default_token K sg sf x st r : rel K sg sf x st -> p_toks st = T_default :: r -> exists x1 x2, read x = POk (Some (sign "default"), x1) /\ demand ":" x1 = POk x2 /\ rel K sg sf x2 (set_toks r st).
Proof.
  intros (su & words & g & f & us & [A1 A2 A3 A4 A5 A6 A7]) P. rewrite P in A6.
  inversion A6; subst; [exfalso; match goal with H : In _ word_or_sign |- _ => unlisted H end|].
  destruct (read_ready _ _ _ _ LB LO _ _ _ A3) as (x1 & RD & R1 & C1 & _ & _). destruct (read_ready _ _ _ _ LB LO _ _ _ R1) as (x2 & RD2 & R2 & C2 & _ & _).
  exists x1, x2. split; [exact RD|]. split; [unfold TextModel.demand, TextModel.need; now rewrite RD2|]. exists su, w, g, f, us. split; auto. now rewrite C2, C1, A1.
Qed.
Lemma headed_case k t : headed k t -> (forall h, k <> T_case h) -> unquoted t "case" = false.
Proof.
  intros H N. destruct H as [k s I1|h|h a|b|b t P]; [|exfalso; now apply (N h)|reflexivity|reflexivity|apply plain_unquoted; [exact P|cbn; tauto]].
  unfold unquoted; cbn [sign t_quoted t_text negb andb]; apply is_no; intros E; apply text_same in E; subst s. apply kind_of in I1. discriminate I1.
Qed.
Lemma cases_rel n : forall n' ret cases dflt td K sg sf x st cs d st1, (n <= n')%nat -> K <> Behind -> rel K sg sf x st -> parse_cases ps n ret cases dflt td st = COk (cs, d, st1) ->
  exists x1 sg1 sf1, text_cases n' ret cases dflt td x = POk (cs, d, x1) /\ rel (closed K) sg1 sf1 x1 st1 /\ incl sg sg1 /\ incl sf sf1.
Proof.
  induction n as [|n IH]; intros n' ret cases dflt td K sg sf x st cs d st1 LE NB R H; [discriminate H|]. destruct n' as [|n']; [lia|]. cbn [parse_cases] in H. cbn [TextModel.text_cases]. unfold TextModel.need at 1.
  destruct (p_toks st) as [|k r] eqn:P; [discriminate H|].
  destruct (match k with T_rbrace | T_case _ | T_default => true | _ => false end) eqn:EL.
  - destruct k; try discriminate EL.
    + destruct (close_brace _ _ _ _ LB LO _ _ _ _ _ _ _ _ _ NB R P) as (x1 & RD & R1). rewrite RD. cbn [pbind]. change (unquoted (sign "}") "}") with true. cbv iota. injection H as <- <- <-.
      exists x1, sg, sf. auto using incl_refl.
    + destruct (case_token _ _ _ _ _ _ _ R P) as (x1 & RD & CU & SV). rewrite RD. cbn [pbind]. change (unquoted (sign "case") "}") with false. change (unquoted (sign "case") "case") with true. cbv iota.
      destruct (SV (S (length (x_src x1)))) as (x2 & EV & R2). rewrite EV. cbn [pbind]. rewrite CU, (current_space K sg sf x st NB R). change (size (loc (space_of K sg sf) (cur st))) with (size (cur st)).
      destruct (existsb _ cases); [discriminate H|]. eapply (IH n' ret _ dflt td K sg sf x2); [lia|exact NB|exact R2|exact H].
    + destruct (default_token _ _ _ _ _ _ R P) as (x1 & x2 & RD & DM & R2). rewrite RD. cbn [pbind]. change (unquoted (sign "default") "}") with false. change (unquoted (sign "default") "case") with false. change (unquoted (sign "default") "default") with true. cbv iota.
      destruct (negb (dflt =? -1)); [discriminate H|]. rewrite DM. cbn [pbind]. rewrite (current_space K sg sf x2 _ NB R2). change (size (loc (space_of K sg sf) (cur (set_toks r st)))) with (size (cur st)).
      cbv zeta in H. clear R. ac (commutes_target td). eapply (IH n' ret cases _ td K sg sf); eauto. lia.
  - destruct (peek _ _ _ _ LB LO _ _ _ _ _ _ _ _ _ _ R P) as (t & x1 & RD & HD & RB & RN). rewrite RD. cbn [pbind].
    rewrite (headed_not k t T_rbrace "}" HD) by (try (cbn; tauto); intros ->; discriminate EL). rewrite (headed_case k t HD) by (intros h ->; discriminate EL).
    rewrite (headed_not k t T_default "default" HD) by (try (cbn; tauto); intros ->; discriminate EL).
    assert (H' : (if match cases with [] => dflt =? -1 | _ => false end then CErr E_case_or_default_expected
      else st <~ ps ret T_semi st ;; parse_cases ps n ret cases dflt td st) = COk (cs, d, st1)) by (rewrite <- H; destruct k; try discriminate EL; reflexivity). clear H R.
    destruct (match cases with [] => dflt =? -1 | _ => false end); [discriminate H'|]. apply bind_some in H' as (st2 & E & H).
    destruct (PS ret K sg sf _ st st2 NB RB E) as (x2 & sg2 & sf2 & EX & R2 & I1 & I2). rewrite EX. cbn [pbind].
    destruct (IH n' ret cases dflt td K sg2 sf2 x2 st2 cs d st1 ltac:(lia) NB R2 H) as (x3 & sg3 & sf3 & EY & R3 & J1 & J2). exists x3, sg3, sf3. split; [exact EY|]. split; [exact R3|]. split; eapply incl_tran; eauto.
Qed.
Lemma switch_rel ret K sg sf x st st1 : K <> Behind -> rel K sg sf x st -> parse_switch ps ret st = COk st1 -> leads K sg sf (text_switch ret x) st1.
Proof.
  intros NB R H. unfold parse_switch in H. unfold TextModel.text_switch. dm "("%string. cnd. ap. nm. apply bind_some in H as (v2 & E & H).
  destruct (rel_open _ _ _ _ LB LO _ _ _ _ _ _ _ _ _ RX E) as (y & EX & R). rewrite EX. cbn [pbind]. clear RX EX E. pose proof (opened_not K NB) as NO.
  tg. tg. sk. tg. ac (commutes_source O_RelativeJump n1). clear xx. clear stx. nm. apply bind_some in H as (((cases & dflt) & v3) & E & H).
  assert (TL : (length (p_toks stx) <= S (length (x_src xx)))%nat) by (eapply rel_toks; [exact LO|exact RX|reflexivity]).
  destruct (cases_rel (S (length (p_toks stx))) (S (S (length (x_src xx)))) ret [] (-1) n (opened K) sgx sfx xx stx cases dflt v3 ltac:(lia) NO RX E) as (y3 & sg3 & sf3 & EX & R3 & I1 & I2).
  rewrite EX. cbn [pbind]. rewrite (current_space _ _ _ _ _ NO RX). rewrite closed_opened in R3. rewrite (current_space _ _ _ _ _ NB R3).
  change (size (loc ?a ?b)) with (size b). change (last_op_is O_RelativeJump (loc ?a ?b)) with (last_op_is O_RelativeJump b).
  apply (leads_more K sgx sfx sg3 sf3); [|exact I1|exact I2]. clear RX. cbv beta iota zeta in H.
  destruct (size (cur stx) =? size (cur v3)).
  - ac commutes_cut. ac commutes_jumps. sk. injection H as <-. apply leads_here. assumption.
  - apply bind_some in H as (v4 & E4 & H).
    assert (J : leads K sg3 sf3 (if last_op_is O_RelativeJump (cur v3) then POk y3 else act (add_source O_RelativeJump n0) y3) v4).
    { destruct (last_op_is O_RelativeJump (cur v3)); [injection E4 as <-; now apply leads_here|]. eapply leads_act; [apply commutes_source|exact R3|exact E4]. }
    clear R3. destruct J as (y4 & sg4 & sf4 & EY & R4 & J1 & J2). rewrite EY. cbn [pbind]. apply (leads_more K sg3 sf3 sg4 sf4); [|exact J1|exact J2].
    ac (commutes_target n1).
    assert (CT : commutes (if u32 (max_hash cases 0 + 1) <? 254 then linear_table cases dflt (u32 (max_hash cases 0 + 1)) else hash_table cases dflt)) by (destruct (_ <? _); [apply commutes_linear|apply commutes_hash]).
    ac CT. ac (commutes_target n0). ac commutes_resolve. sk. injection H as <-. apply leads_here. assumption.
Qed.

(* ---------------------------------------------------------------- functions *)
Notation text_params := (text_params lbits atof consts0 consts).
Notation text_unit := (text_unit lbits atof consts0 consts ps').
Lemma params_read : forall params n count locals x rest, Forall identifier params -> (length params < n)%nat -> xready (comma_names params ++ sign ")" :: rest) x ->
  exists x1, text_params n count locals x = POk (count + lenZ params, merge_locals locals (map name_hash params), x1) /\ xready rest x1 /\ x_ctx x1 = x_ctx x.
Proof.
  induction params as [|a params IH]; intros n count locals x rest F L R; destruct n as [|n]; [lia| |lia|]; cbn [TextModel.text_params]; unfold TextModel.need.
  - cbn [comma_names app] in R. destruct (read_ready _ _ _ _ LB LO _ _ _ R) as (x1 & RD & R1 & C1 & _ & _). rewrite RD. cbn [pbind]. change (unquoted (sign ")") ")") with true. cbv iota.
    exists x1. split; [|auto]. unfold lenZ. cbn [length map merge_locals fold_left]. now rewrite Z.add_0_r.
  - inversion F as [|? ? ID F']; subst. pose proof (name_named a ID) as NM.
    assert (NQ : unquoted (word_token a) ")" = false) by (unfold unquoted; cbn [word_token t_quoted t_text negb andb]; apply (nm_not _ _ NM); cbn; tauto).
    destruct params as [|a2 params].
    + cbn [comma_names app] in R. destruct (read_ready _ _ _ _ LB LO _ _ _ R) as (x1 & RD & R1 & C1 & _ & _). destruct (read_ready _ _ _ _ LB LO _ _ _ R1) as (x2 & RD2 & R2 & C2 & _ & _).
      rewrite RD. cbn [pbind]. rewrite NQ. cbn [word_token t_text]. rewrite (nm_label _ _ NM), RD2. cbn [pbind]. change (unquoted (sign ")") ")") with true. cbv iota. exists x2. split; [reflexivity|]. split; [exact R2|congruence].
    + change (comma_names (a :: a2 :: params)) with (word_token a :: sign "," :: comma_names (a2 :: params)) in R. cbn [app] in R.
      destruct (read_ready _ _ _ _ LB LO _ _ _ R) as (x1 & RD & R1 & C1 & _ & _). destruct (read_ready _ _ _ _ LB LO _ _ _ R1) as (x2 & RD2 & R2 & C2 & _ & _).
      rewrite RD. cbn [pbind]. rewrite NQ. cbn [word_token t_text]. rewrite (nm_label _ _ NM), RD2. cbn [pbind]. change (unquoted (sign ",") ")") with false. change (is (t_text (sign ",")) ",") with true. cbv iota.
      destruct (IH n (count + 1) (merge_locals locals [name_hash a]) x2 rest F' ltac:(cbn [length] in *; lia) R2) as (x3 & EX & R3 & C3). exists x3. split; [|split; [exact R3|congruence]].
      rewrite EX. f_equal. f_equal. f_equal. unfold lenZ. cbn [length]. lia.
Qed.
Lemma merge_nodup l : NoDup l -> forall a, (forall x, In x l -> ~ In x a) -> merge_locals a l = a ++ l.
Proof.
  induction 1 as [|x l N D IH]; intros a A; [now rewrite app_nil_r|]. unfold merge_locals. cbn [fold_left].
  replace (existsb (Z.eqb x) a) with false.
  - fold (merge_locals (a ++ [x]) l). rewrite IH; [now rewrite <- app_assoc|]. intros y Y Z. apply in_app_or in Z as [Z|[<-|[]]]; [apply (A y); [now right|exact Z]|contradiction].
  - symmetry. apply not_true_is_false. intros E. apply existsb_exists in E as (y & Y & E). apply (A x); [now left|]. now replace x with y by lia.
Qed.
Lemma hashes_nodup l : incl l names -> NoDup l -> NoDup (map name_hash l).
Proof.
  intros I. induction 1 as [|x l N D IH]; cbn [map]; constructor.
  - intros X. apply in_map_iff in X as (y & E & Y). apply N. now rewrite <- (proj1 (proj1 AD y x (I y (or_intror Y)) (I x (or_introl eq_refl))) E).
  - apply IH. intros y Y. apply I. now right.
Qed.
Lemma dressed_snoc su us l u : length su = length us -> dressed (su ++ [l]) (us ++ [u]) = dressed su us ++ [named_unit l u].
Proof.
  unfold dressed. intros E. revert us E. induction su as [|a su IH]; intros [|b us] E; try discriminate E; [reflexivity|]. cbn [app combine map]. f_equal. apply IH. now injection E.
Qed.
Lemma unit_rel sg sf x st h args r st1 : rel Outside sg sf x st -> p_toks st = T_function h args :: r -> parse_unit ps h args (set_toks r st) = COk st1 ->
  exists x1, read x = POk (Some (sign "function"), x1) /\ at_top (x_ctx x1) = true /\ leads Outside sg sf (text_unit x1) st1.
Proof.
  intros (su & words & g & f & us & [A1 A2 A3 A4 A5 A6 A7]) P H. rewrite P in A6. unfold stood in A7. destruct A7 as (-> & FN & TO).
  inversion A6; subst; [exfalso; match goal with H : In _ word_or_sign |- _ => unlisted H end|].
  match goal with I1 : identifier ?m, I2 : Forall identifier ?q, I3 : NoDup ?q, I4 : Forall _ ?q, S : TextSpec.spells _ _ _ _ _ _ _ |- _ => rename m into nm, q into params, I1 into ID, I2 into IP, I3 into ND, I4 into IN, S into S0 end.
  assert (INC : incl params names) by (intros y Y; exact (proj1 (Forall_forall _ _) IN y Y)).
  destruct (read_ready _ _ _ _ LB LO _ _ _ A3) as (x1 & RD & R1 & C1 & _ & _). exists x1. split; [exact RD|]. split; [rewrite C1, A1; unfold at_top, dress; cbn [p_fn]; now rewrite FN|].
  destruct (read_ready _ _ _ _ LB LO _ _ _ R1) as (x2 & RD2 & R2 & C2 & _ & _). destruct (read_ready _ _ _ _ LB LO _ _ _ R2) as (x3 & RD3 & R3 & C3 & _ & _).
  pose proof (ready_length _ _ _ _ LO _ _ R3) as LN.
  destruct (params_read params (S (S (length (x_src x3)))) 0 [] x3 (sign "{" :: w) IP) as (x4 & EP & R4 & C4); [|exact R3|].
  { rewrite app_length in LN. cbn [length] in LN. assert (length params <= length (comma_names params))%nat; [|lia].
    clear. induction params as [|a [|b params] IH]; cbn [comma_names length] in *; lia. }
  destruct (read_ready _ _ _ _ LB LO _ _ _ R4) as (x5 & RD5 & R5 & C5 & _ & _).
  unfold TextModel.text_unit, TextModel.need. rewrite RD2. cbn [pbind word_token t_text]. rewrite (nm_label _ _ (name_named nm ID)), RD3. cbn [pbind]. change (is (t_text (sign "(")) "(") with true. cbv iota.
  rewrite EP. cbn [pbind]. unfold TextModel.demand, TextModel.need. rewrite RD5. cbn [pbind]. change (is (t_text (sign "{")) "{") with true. cbv iota. cbn [pbind].
  assert (C : x_ctx x5 = dress (map qualified g) sf su st) by congruence. rewrite C. cbn [dress p_fn p_glob p_units p_brk p_cont p_fe]. rewrite FN. cbn [option_map].
  rewrite (merge_nodup (map name_hash params)) by (auto using hashes_nodup). cbn [app].
  unfold parse_unit in H. cbn [set_toks p_fn p_toks p_glob p_units p_brk p_cont p_fe expect tok_eqb cbind] in H. rewrite FN in H.
  apply bind_some in H as (st2 & E & H). cbn [set_toks p_fn p_toks p_glob p_units p_brk p_cont p_fe] in E.
  match type of E with ps _ _ ?s = _ => set (st0 := s) in * end.
  match goal with |- context [ps' O_Return 125 ?y] => set (x6 := y) end.
  assert (R6 : rel (Inside 0) (map qualified g) (map name_hash params) x6 st0).
  { exists su, w, g, (Some (params, O)), us. split; auto. unfold stood. cbn [p_fn st0]. split; [discriminate|]. split; [exact TO|]. exists params. auto. }
  destruct (PB O_Return (Inside 0) _ _ x6 st0 st2 ltac:(discriminate) R6 E) as (x7 & sg7 & sf7 & EX & R7 & I1 & I2). rewrite EX. cbn [pbind closed] in *. clear E EX.
  apply bind_some in H as (st3 & E & H).
  assert (CU : forall o, last_op_is o (current x7) = last_op_is o (cur st2)) by (intros o; rewrite (rel_cur _ _ _ _ _ _ _ _ _ _ _ _ R7); reflexivity).
  assert (J : leads Behind sg7 sf7 (if last_op_is O_Return (current x7) || last_op_is O_ReturnZero (current x7) then POk x7 else act (push_opcode O_ReturnZero) x7) st3).
  { rewrite !CU. destruct (last_op_is O_Return (cur st2) || last_op_is O_ReturnZero (cur st2)); [injection E as <-; now apply leads_here|]. eapply leads_act; [apply commutes_push|exact R7|exact E]. }
  destruct J as (x8 & sg8 & sf8 & EX & R8 & J1 & J2). rewrite EX. cbn [pbind]. injection H as <-.
  destruct R8 as (su8 & w8 & g8 & f8 & us8 & [B1 B2 B3 B4 B5 B6 B7]). unfold stood in B7. destruct B7 as (-> & FN8 & TO8).
  eexists _, sg8, sf. split; [reflexivity|]. split; [|split; [eapply incl_tran; eauto|apply incl_refl]].
  exists (su8 ++ [sf8]), w8, g8, None, us8. split; auto.
  - unfold with_ctx. cbn [x_ctx]. unfold current. rewrite B1, cur_dress. unfold scope. destruct (p_fn st3) as [b3|] eqn:F3; [|congruence].
    unfold dress. cbn [p_toks p_glob p_fn p_units p_brk p_cont p_fe option_map]. rewrite dressed_snoc by exact B2. unfold named_unit. cbn [u_hash u_args u_export u_code].
    unfold lenZ. rewrite map_length. reflexivity.
  - cbn [p_units]. rewrite !app_length, B2. reflexivity.
  - unfold stood. cbn [p_fn]. split; [reflexivity|]. split; [reflexivity|]. rewrite <- app_assoc. exact TO8.
Qed.
End Statements.

(* ---------------------------------------------------------------- all statements *)
Notation text_statement := (text_statement lbits atof consts0 consts need_var).
Notation text_program := (text_program lbits atof consts0 consts need_var).
Lemma headed_free k t s : headed k t -> In s statement_words -> kind s = None -> (s = "case"%string -> forall h, k <> T_case h) -> (s = "function"%string -> forall h a, k <> T_function h a) -> unquoted t s = false.
Proof.
  intros H W KN C F. destruct H as [k s' I1|h|h a|b|b t P]; [| | | |now apply plain_unquoted]; unfold unquoted; cbn [sign t_quoted t_text negb andb]; apply is_no; intros E; apply text_same in E; subst s.
  - apply kind_of in I1. congruence.
  - now apply (C eq_refl h).
  - now apply (F eq_refl h a).
  - unlisted W.
Qed.
Lemma headed_first k t e c : headed k t -> In (e, c) [(T_semi, 59); (T_rbrace, 125)] -> tok_eqb k e = false -> (nth 0 (t_text t) 0 =? c) = false.
Proof.
  intros H I N. destruct H as [k s I1|h|h a|b|b t P].
  - cbn in I. destruct I as [I|[I|[]]]; injection I as <- <-; cbn in I1; repeat (destruct I1 as [I1|I1]; [injection I1 as <- <-; first [discriminate N|reflexivity]|]); destruct I1.
  - cbn in I. destruct I as [I|[I|[]]]; injection I as <- <-; reflexivity.
  - cbn in I. destruct I as [I|[I|[]]]; injection I as <- <-; reflexivity.
  - cbn in I. destruct I as [I|[I|[]]]; injection I as <- <-; reflexivity.
  - destruct (pl_first _ P) as [P1 P2]. cbn in I. destruct I as [I|[I|[]]]; injection I as <- <-; lia.
Qed.
Ltac word s := match goal with HD : headed ?k ?t, RN : forall s : string, _, AG : forall r st2, _ -> _ -> _, H : _ = COk _ |- _ =>
  assert (t = sign s) as -> by (apply (headed_sign k t s HD); cbn; tauto); specialize (RN s ltac:(cbn; tauto)); eapply AG; [|exact H] end.
Theorem statement_rel n : forall ret end_ c K sg sf x st st1, In (end_, c) [(T_semi, 59); (T_rbrace, 125)] -> K <> Behind -> rel K sg sf x st -> parse_strict n ret end_ st = COk st1 ->
  leads (if tok_eqb end_ T_rbrace then closed K else K) sg sf (text_statement n ret c x) st1.
Proof.
  induction n as [|n IH]; intros ret end_ c K sg sf x st st1 IE NB R H; [discriminate H|]. cbn [parse_strict] in H. cbn [TextModel.text_statement].
  assert (PS : forall ret K sg sf x st st1, K <> Behind -> rel K sg sf x st -> parse_strict n ret T_semi st = COk st1 -> leads K sg sf (text_statement n ret 59 x) st1).
  { intros. apply (IH ret0 T_semi 59 K0 sg0 sf0 x0 st0 st2); auto. cbn; tauto. }
  assert (PB : forall ret K sg sf x st st1, K <> Behind -> rel K sg sf x st -> parse_strict n ret T_rbrace st = COk st1 -> leads (closed K) sg sf (text_statement n ret 125 x) st1).
  { intros. apply (IH ret0 T_rbrace 125 K0 sg0 sf0 x0 st0 st2); auto. cbn; tauto. }
  (* what follows a statement *)
  assert (AG : forall r st2, leads K sg sf r st2 -> (if tok_eqb end_ T_semi then COk st2 else parse_strict n ret end_ st2) = COk st1 ->
    leads (if tok_eqb end_ T_rbrace then closed K else K) sg sf (x2 <<- r ;; (if c =? 59 then POk x2 else text_statement n ret c x2)) st1).
  { intros r st2 (x2 & sg2 & sf2 & -> & R2 & I1 & I2) E. cbn [pbind]. apply (leads_more _ sg sf sg2 sf2); [|exact I1|exact I2].
    cbn in IE. destruct IE as [IE|[IE|[]]]; injection IE as <- <-; cbn [tok_eqb] in *; change (59 =? 59) with true; change (125 =? 59) with false; cbv iota.
    - injection E as <-. now apply leads_here.
    - now apply (PB ret K sg2 sf2 x2 st2). }
  destruct (p_toks st) as [|k r] eqn:P.
  { destruct (peek_end _ _ _ _ LO _ _ _ _ _ _ _ _ R P) as (x1 & RD & R1). rewrite RD. cbn [pbind]. cbn in IE. destruct IE as [IE|[IE|[]]]; injection IE as <- <-; cbn [tok_eqb] in *; [|discriminate H].
    injection H as <-. change (59 =? 125) with false. now apply leads_here. }
  destruct (tok_eqb k end_) eqn:TE.
  { injection H as <-. cbn in IE. destruct IE as [IE|[IE|[]]]; injection IE as <- <-; destruct k; try discriminate TE; cbn [tok_eqb].
    - destruct (peek _ _ _ _ LB LO _ _ _ _ _ _ _ _ _ _ R P) as (t & x1 & RD & HD & RB & RN). rewrite RD. cbn [pbind]. rewrite (headed_sign _ _ ";" HD) by (cbn; tauto).
      change (nth 0 (t_text (sign ";")) 0 =? 59) with true. cbv iota. apply leads_here. apply (RN ";"%string). cbn; tauto.
    - destruct (close_brace _ _ _ _ LB LO _ _ _ _ _ _ _ _ _ NB R P) as (x1 & RD & R1). rewrite RD. cbn [pbind]. change (nth 0 (t_text (sign "}")) 0 =? 125) with true. cbv iota. now apply leads_here. }
  destruct (match k with T_lbrace | T_return | T_function _ _ | T_if | T_while | T_for | T_switch | T_do | T_break | T_continue | T_goto _ => true | _ => false end) eqn:EL.
  - destruct (match k with T_lbrace | T_function _ _ => true | _ => false end) eqn:EL2.
    + destruct k; try discriminate EL2.
      * (* { *) destruct (open_brace _ _ _ _ LB LO _ _ _ _ _ _ _ _ _ R P) as (x1 & RD & R1). rewrite RD. cbn [pbind]. rewrite (headed_first T_lbrace (sign "{") end_ c) by (try assumption; constructor; cbn; tauto). change (unquoted (sign "{") "{") with true. cbv iota.
        cbn in IE. destruct IE as [IE|[IE|[]]]; injection IE as <- <-; cbn [tok_eqb] in *; [|discriminate H].
        pose proof (PB ret (opened K) sg sf x1 _ st1 (opened_not K NB) R1 H) as L. now rewrite closed_opened in L.
      * (* function *) destruct (p_fn st) as [b|] eqn:FN; [discriminate H|]. apply bind_some in H as (st2 & E & H).
        assert (K = Outside) as -> by (destruct R as (? & ? & ? & ? & ? & [? ? ? ? ? ? A7]); unfold stood in A7; destruct K; [reflexivity|tauto|congruence]).
        destruct (unit_rel _ _ PB sg sf x st _ _ _ st2 R P E) as (x1 & RD & AT & L). rewrite RD. cbn [pbind]. rewrite (fun hd => headed_first _ (sign "function") end_ c hd IE TE) by constructor.
        change (unquoted (sign "function") "{") with false. change (unquoted (sign "function") "return") with false. change (unquoted (sign "function") "struct") with false. change (unquoted (sign "function") "function") with true. cbn [orb]. cbv iota. rewrite AT. exact (AG _ _ L H).
    + destruct (peek _ _ _ _ LB LO _ _ _ _ _ _ _ _ _ _ R P) as (t & x1 & RD & HD & RB & RN). rewrite RD. cbn [pbind]. rewrite (headed_first k t end_ c HD IE TE). clear RB RD.
      destruct k; try discriminate EL; try discriminate EL2; try solve [exfalso; inversion HD; subst; match goal with I : In _ all_signs |- _ => unlisted I end].
      all: apply bind_some in H as (st2 & E & H).
      * word "return"%string. eapply return_rel; eassumption.
      * word "if"%string. eapply if_rel; eassumption.
      * word "while"%string. eapply while_rel; eassumption.
      * word "do"%string. eapply do_rel; eassumption.
      * word "for"%string. eapply for_rel; eassumption.
      * word "switch"%string. eapply switch_rel; eassumption.
      * word "break"%string. rewrite (proj1 (rel_brk _ _ _ _ _ _ _ _ _ _ _ _ RN)). eapply jump_rel; eassumption.
      * word "continue"%string. rewrite (proj2 (rel_brk _ _ _ _ _ _ _ _ _ _ _ _ RN)). eapply jump_rel; eassumption.
  - destruct (peek _ _ _ _ LB LO _ _ _ _ _ _ _ _ _ _ R P) as (t & x1 & RD & HD & RB & RN). rewrite RD. cbn [pbind]. rewrite (headed_first k t end_ c HD IE TE).
    assert (H' : (st2 <~ parse_expr_stmt st ;; (if tok_eqb end_ T_semi then COk st2 else parse_strict n ret end_ st2)) = COk st1) by (rewrite <- H; destruct k; try discriminate EL; reflexivity).
    clear H. apply bind_some in H' as (st2 & E & H).
    rewrite (headed_not k t T_lbrace "{" HD), (headed_not k t T_return "return" HD), (headed_not k t T_if "if" HD), (headed_not k t T_while "while" HD), (headed_not k t T_for "for" HD), (headed_not k t T_switch "switch" HD), (headed_not k t T_do "do" HD), (headed_not k t T_break "break" HD), (headed_not k t T_continue "continue" HD) by (first [intros ->; discriminate EL|cbn; tauto]).
    rewrite (headed_free k t "struct" HD), (headed_free k t "unit" HD), (headed_free k t "enum" HD), (headed_free k t "export" HD), (headed_free k t "goto" HD) by (first [reflexivity|discriminate|cbn; tauto]).
    rewrite (headed_free k t "function" HD) by (first [reflexivity|discriminate|cbn; tauto|intros _ ? ? ->; discriminate EL]). cbn [orb].
    eapply AG; [|exact H]. eapply stmt_rel; eassumption.
Qed.

Notation compile_text := (compile_text lbits atof consts0 consts need_var).
Lemma program_rel n fuel : forall sg sf x st st1, rel Outside sg sf x st -> strict_program n fuel st = COk st1 ->
  exists x1 sg1 sf1, text_program n fuel x = POk x1 /\ rel Outside sg1 sf1 x1 st1 /\ p_toks st1 = [].
Proof.
  induction n as [|n IH]; intros sg sf x st st1 R H; [discriminate H|]. cbn [strict_program] in H. cbn [TextModel.text_program]. destruct (p_toks st) as [|k r] eqn:P.
  - injection H as <-. destruct (peek_end _ _ _ _ LO _ _ _ _ _ _ _ _ R P) as (x1 & RD & R1). rewrite RD. cbn [pbind]. eauto 6.
  - destruct (peek _ _ _ _ LB LO _ _ _ _ _ _ _ _ _ _ R P) as (t & x1 & RD & HD & RB & RN). rewrite RD. cbn [pbind]. apply bind_some in H as (st2 & E & H).
    destruct (statement_rel fuel O_GlobalStop T_semi 59 Outside sg sf _ st st2 ltac:(cbn; tauto) ltac:(discriminate) RB E) as (x2 & sg2 & sf2 & EX & R2 & _). rewrite EX. cbn [pbind tok_eqb] in *. exact (IH _ _ _ _ _ R2 H).
Qed.
Lemma compile_rel n toks words src us code units : spells [] None toks words gend us -> total = map (map name_hash) us -> 0 <= bal toks -> written lbits atof (consts0 ++ consts) words src ->
  compile_units n toks = COk (code, units) -> compile_text n src = POk (named_space (map qualified gend) code, dressed total units).
Proof.
  intros SP TO BA W H. unfold compile_units in H. apply bind_some in H as (st & E & H). apply program_tight in E as [_ E]. specialize (E BA).
  assert (FR : fresh lbits atof consts0 consts [] words (ParseModel.mkP src None [])) by (split; [split; [reflexivity|left; auto]|reflexivity]).
  assert (R : rel Outside [] [] (mkX src None (CcModel.start [])) (start toks)).
  { exists [], words, [], None, us. split; auto; try reflexivity.
    - apply (of_fresh lbits atof consts0 consts _ _ _ (CcModel.start [])) in FR. exact FR.
    - intros y [].
    - split; [reflexivity|]. split; [reflexivity|]. symmetry. exact TO. }
  destruct (program_rel n n _ _ _ _ _ R E) as (x1 & sg1 & sf1 & EX & R1 & P1). unfold TextModel.compile_text. rewrite EX. cbn [pbind].
  destruct R1 as (su & w1 & g1 & f1 & us1 & [A1 A2 A3 A4 A5 A6 A7]). rewrite P1 in A6. inversion A6; subst. destruct A7 as (_ & FN & TO1). cbn [map] in TO1. rewrite app_nil_r in TO1. subst su.
  rewrite A1. cbn [dress p_glob p_units]. apply bind_some in H as (b1 & E1 & H). apply bind_some in H as (b2 & E2 & H). injection H as <- <-.
  change (last_op_is O_GlobalStop (loc ?a ?b)) with (last_op_is O_GlobalStop b).
  assert (X : (if last_op_is O_GlobalStop (p_glob st) then POk (loc (map qualified gend) (p_glob st))
    else b <<- lift (push_opcode O_LiteralZero (loc (map qualified gend) (p_glob st))) ;; lift (push_opcode O_GlobalStop b)) = POk (loc (map qualified gend) b1)).
  { destruct (last_op_is O_GlobalStop (p_glob st)); [injection E1 as <-; reflexivity|]. apply bind_some in E1 as (b0 & E0 & E1). rewrite commutes_push, E0. cbn [cmap cbind lift pbind]. rewrite commutes_push, E1. reflexivity. }
  rewrite X. cbn [pbind]. rewrite commutes_push, E2. reflexivity.
Qed.
End Run.
