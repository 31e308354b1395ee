(* Proofs for C60: in a program with as many { as }, no block stands directly in a block. *)
From Verif Require Import Base BaseLemmas HashModel OpsModel VmModel EmitModel ExprModel ExprEmit ExprSpec ExprNest CcModel ProgSpec ProgCtl.
Open Scope list_scope. Open Scope Z_scope.

(* Statements whose blocks are not directly inside a block. The compiler takes the end of a block that stands in another block for the end of both (cc.cpp:3072-3075). *)
Fixpoint parse_strict (n : nat) (ret : opcode) (end_ : CcModel.tok) (st : CcModel.pst) : cres CcModel.pst :=
  match n with
  | O => CErr E_fuel
  | S n' =>
    let ps := parse_strict n' in
    let again st := if tok_eqb end_ T_semi then COk st else ps ret end_ st in
    match p_toks st with
    | [] => if tok_eqb end_ T_rbrace then CErr E_unexpected_token else COk st
    | t :: r =>
      let st1 := set_toks r st in
      if tok_eqb t end_ then COk st1
      else
        match t with
        | T_lbrace => if tok_eqb end_ T_rbrace then CErr E_unexpected_token else ps ret T_rbrace st1
        | T_return => st2 <~ parse_return ret st1 ;; again st2
        | T_function h args =>
          match p_fn st with
          | Some _ => CErr E_unexpected_token
          | None => st2 <~ parse_unit ps h args st1 ;; again st2
          end
        | T_if => st2 <~ parse_if ps ret st1 ;; again st2
        | T_while => st2 <~ parse_while ps ret st1 ;; again st2
        | T_for => st2 <~ parse_for ps ret st1 ;; again st2
        | T_switch => st2 <~ parse_switch ps ret st1 ;; again st2
        | T_do => st2 <~ parse_do ps ret st1 ;; again st2
        | T_break => st2 <~ parse_jump (p_brk st) E_break_outside st1 ;; again st2
        | T_continue => st2 <~ parse_jump (p_cont st) E_continue_outside st1 ;; again st2
        | T_goto h => st2 <~ parse_goto h st1 ;; again st2
        | _ => st2 <~ parse_expr_stmt st ;; again st2
        end
    end
  end.

(* the } that are left over *)
Fixpoint bal (l : list tok) : Z :=
  match l with [] => 0 | T_lbrace :: r => bal r - 1 | T_rbrace :: r => bal r + 1 | _ :: r => bal r end.
Definition left (st : pst) : Z := bal (p_toks st).

Lemma left_emit f st st1 : emit f st = COk st1 -> left st1 = left st.
Proof. unfold emit. intros H. apply bind_some in H as (b & _ & H). injection H as <-. unfold left, set_cur. now destruct (p_fn st). Qed.
Lemma left_target st st1 t : new_target st = (st1, t) -> left st1 = left st.
Proof. unfold new_target. intros H. unfold left. destruct (add_target (cur st)) as [b i]. injection H as <- _. unfold set_cur. now destruct (p_fn st). Qed.
Lemma left_expect k st st1 : expect k st = COk st1 -> left st1 = left st - bal [k].
Proof.
  unfold expect, left. destruct (p_toks st) as [|t r]; [discriminate|]. destruct (tok_eqb t k) eqn:E; [|discriminate]. intros H. injection H as <-. cbn [set_toks p_toks].
  destruct t, k; try discriminate E; cbn [bal]; lia.
Qed.
Lemma left_expr st b e st1 : parse_expr st = COk (b, e, st1) -> left st1 = left st - bal [e].
Proof.
  unfold parse_expr, left. destruct (p_toks st) as [|t r]; [discriminate|]. destruct t; try discriminate; cbn [is_terminator]; try (intros H; injection H as <- <- <-; cbn [set_toks p_toks bal]; lia).
  destruct r as [|t r]; [discriminate|]. destruct t; cbn [is_terminator]; try discriminate; intros H; injection H as <- <- <-; cbn [set_toks p_toks bal]; lia.
Qed.
Lemma left_expr_to k st b st1 : parse_expr_to k st = COk (b, st1) -> left st1 = left st - bal [k].
Proof.
  unfold parse_expr_to. intros H. apply bind_some in H as (((b' & e) & st2) & E & H). apply left_expr in E. destruct (tok_eqb e k) eqn:K; [|discriminate]. injection H as <- <-. destruct e, k; try discriminate K; exact E.
Qed.
Definition setup_state (s : setup) : pst := match s with SetupPlain st => st | SetupEach _ _ st => st end.
Lemma left_setup n : forall each st s, parse_setup n each st = COk s -> left (setup_state s) = left st.
Proof.
  induction n as [|n IH]; intros each st s H; [discriminate H|]. cbn [parse_setup] in H.
  assert (D : (exists r, p_toks st = T_semi :: r) \/ (forall A (x : list tok -> A) y, match p_toks st with T_semi :: r => x r | _ => y end = y)).
  { destruct (p_toks st) as [|t r]; [now right|]. destruct t; try (now right). left. eauto. }
  destruct D as [[r G]|G].
  { rewrite G in H. injection H as <-. unfold left. cbn [setup_state set_toks p_toks]. now rewrite G. }
  rewrite (G _ (fun r => COk (SetupPlain (set_toks r st)))) in H. apply bind_some in H as (((b & e) & st2) & E & H). apply left_expr in E. apply bind_some in H as (b1 & _ & H). apply bind_some in H as (st3 & E3 & H). apply left_emit in E3.
  destruct e; try discriminate H; cbn [bal] in E.
  - injection H as <-. cbn [setup_state]. lia.
  - apply IH in H. lia.
  - match type of H with match ?o with _ => _ end = _ => destruct o as [l|]; [|discriminate H] end. apply bind_some in H as ((a & st4) & E4 & H). apply left_expr_to in E4. injection H as <-. cbn [setup_state bal] in *. lia.
Qed.
Lemma left_post n : forall post st p st1, parse_post n post st = COk (p, st1) -> left st1 = left st.
Proof.
  induction n as [|n IH]; intros post st p st1 H; [discriminate H|]. cbn [parse_post] in H.
  assert (D : (exists r, p_toks st = T_rparen :: r) \/ (forall A (x : list tok -> A) y, match p_toks st with T_rparen :: r => x r | _ => y end = y)).
  { destruct (p_toks st) as [|t r]; [now right|]. destruct t; try (now right). left. eauto. }
  destruct D as [[r G]|G].
  { rewrite G in H. injection H as <- <-. unfold left. cbn [set_toks p_toks]. now rewrite G. }
  rewrite (G _ (fun r => COk (post, set_toks r st))) in H. apply bind_some in H as (((b & e) & st2) & E & H). apply left_expr in E. apply bind_some in H as (b1 & _ & H). apply bind_some in H as (b2 & _ & H).
  destruct e; try discriminate H; cbn [bal] in E.
  - injection H as <- <-. lia.
  - apply IH in H. lia.
Qed.

(* ---------------------------------------------------------------- the same with blocks that are not in blocks *)
Section Tight.
Variable ps pt : opcode -> tok -> pst -> cres pst.
Definition tight (k : Z) (r r' : cres pst) (st : pst) : Prop := forall st1, r = COk st1 -> left st <= left st1 + k /\ (left st1 + k <= left st -> r' = COk st1).
Hypothesis PS : forall ret st, tight 0 (ps ret T_semi st) (pt ret T_semi st) st.
Hypothesis PB : forall ret st, tight 1 (ps ret T_rbrace st) (pt ret T_rbrace st) st.
Ltac down := match goal with
  | H : cbind ?e _ = COk _ |- _ => let v := fresh "v" in let E := fresh "E" in let Q := fresh "Q" in apply bind_some in H; destruct H as (v & E & H);
     first [pose proof (left_emit _ _ _ E) as Q | pose proof (left_expect _ _ _ E) as Q | (destruct v as [? v]; pose proof (left_expr_to _ _ _ _ E) as Q) | pose proof (PS _ _ _ E) as Q | pose proof (PB _ _ _ E) as Q | (destruct v as [? v]; pose proof (left_post _ _ _ _ _ E) as Q) | pose proof (left_setup _ _ _ _ E) as Q ]; cbn [bal] in Q
  | H : context [new_target ?s] |- _ => lazymatch type of H with new_target s = _ => fail | _ => let E := fresh "E" in let v := fresh "v" in destruct (new_target s) as [v ?] eqn:E; pose proof (left_target _ _ _ E) end
  | H : emit _ _ = COk _ |- _ => lazymatch goal with Q : left ?a = left ?b |- _ => idtac end; fail
  end.
Ltac flat := unfold left in *; cbn [set_brk set_cont set_toks p_toks bal] in *.
Ltac up := repeat match goal with
  | E : ?e = COk _ |- context [?e] => rewrite E; cbn [cbind]
  | E : new_target ?s = _ |- context [new_target ?s] => rewrite E
  | Q : _ /\ (_ -> ?e = COk _) |- context [?e] => rewrite (proj2 Q) by (flat; lia); cbn [cbind]
  end.
Ltac tight_up := split; [flat; lia|intros L; up; try assumption; try reflexivity].
Lemma while_tight ret st : tight 0 (parse_while ps ret st) (parse_while pt ret st) st.
Proof. intros st1 H. unfold parse_while in *. repeat down. pose proof (left_emit _ _ _ H). tight_up. Qed.
Lemma do_tight ret st : tight 0 (parse_do ps ret st) (parse_do pt ret st) st.
Proof. intros st1 H. unfold parse_do in *. repeat down. pose proof (left_emit _ _ _ H). tight_up. Qed.
Lemma if_tight ret st : tight 0 (parse_if ps ret st) (parse_if pt ret st) st.
Proof.
  intros st1 H. unfold parse_if in *. do 3 down. do 3 down. apply bind_some in H as (w & E9 & H). pose proof (left_emit _ _ _ H) as Q9.
  match goal with Q : left ?a <= left ?b + 0 /\ _ |- _ => rename b into u end.
  assert (D : (exists r, p_toks u = T_else :: r) \/ (forall A (x : list tok -> A) y, match p_toks u with T_else :: r => x r | _ => y end = y)).
  { destruct (p_toks u) as [|t r]; [now right|]. destruct t; try (now right). left. eauto. }
  destruct D as [[r G]|G].
  - rewrite G in E9.
    destruct (new_target (set_toks r u)) as [v9 ?] eqn:E10. pose proof (left_target _ _ _ E10). rename H into HH. rename E9 into H. repeat down. pose proof (left_emit _ _ _ H).
    assert (left u = left (set_toks r u)) by (unfold left; rewrite G; reflexivity). split; [flat; lia|]. intros L. up. rewrite G, E10. up. reflexivity.
  - rewrite (G _ (fun r => let '(st, tp) := new_target (set_toks r u) in _)) in E9. pose proof (left_emit _ _ _ E9). split; [flat; lia|]. intros L. up. rewrite (G _ (fun r => let '(st, tp) := new_target (set_toks r u) in _)). cbn [cbind]. up. reflexivity.
Qed.
Lemma cases_tight n : forall ret cases dflt td st cs d st1, parse_cases ps n ret cases dflt td st = COk (cs, d, st1) ->
  left st <= left st1 + 1 /\ (left st1 + 1 <= left st -> parse_cases pt n ret cases dflt td st = COk (cs, d, st1)).
Proof.
  induction n as [|n IH]; intros ret cases dflt td st cs d st1 H; [discriminate H|]. cbn [parse_cases] in *. unfold left at 1 4.
  destruct (p_toks st) as [|t r] eqn:P; [discriminate H|].
  destruct (match t with T_rbrace | T_case _ | T_default => true | _ => false end) eqn:EL.
  - destruct t; try discriminate EL; cbn [bal].
    + injection H as <- <- <-. unfold left. cbn [set_toks p_toks]. split; [lia|reflexivity].
    + destruct (existsb _ cases); [discriminate H|]. apply IH in H. exact H.
    + destruct (negb (dflt =? -1)); [discriminate H|]. cbv zeta in *. down. apply IH in H. flat. split; [lia|]. intros L. up. reflexivity.
  - assert (X : forall q, match t with T_rbrace => COk (cases, dflt, set_toks r st)
      | T_case h => if existsb (fun c => sc_hash c =? h) cases then CErr E_duplicate_case else parse_cases q n ret (cases ++ [mkCase h (Base.s16 (size (cur st)))]) dflt td (set_toks r st)
      | T_default => if negb (dflt =? -1) then CErr E_duplicate_case else let d := Base.s16 (size (cur st)) in st <~ emit (set_target td) (set_toks r st) ;; parse_cases q n ret cases d td st
      | _ => if match cases with [] => dflt =? -1 | _ => false end then CErr E_case_or_default_expected else st <~ q ret T_semi st ;; parse_cases q n ret cases dflt td st end =
      if match cases with [] => dflt =? -1 | _ => false end then CErr E_case_or_default_expected else st <~ q ret T_semi st ;; parse_cases q n ret cases dflt td st) by (intros; destruct t; try discriminate EL; reflexivity).
    rewrite X in H. rewrite X. clear X. rewrite <- P. fold (left st). destruct (match cases with [] => dflt =? -1 | _ => false end); [discriminate H|]. down. apply IH in H. split; [lia|]. intros L. rewrite (proj2 Q) by lia. cbn [cbind]. apply (proj2 H). lia.
Qed.
Lemma switch_tight ret st : tight 0 (parse_switch ps ret st) (parse_switch pt ret st) st.
Proof.
  intros st1 H. unfold parse_switch in *. do 8 down. apply bind_some in H as (((cases & dflt) & v9) & E9 & H). pose proof (cases_tight _ _ _ _ _ _ _ _ _ E9) as Q9. cbv beta iota zeta in H.
  assert (X : left st1 = left v9).
  { destruct (_ =? _) in H; [repeat down; injection H as <-; flat; lia|]. apply bind_some in H as (w & EW & H). assert (left w = left v9) by (destruct (last_op_is _ _); [injection EW as <-; reflexivity|exact (left_emit _ _ _ EW)]). repeat down. injection H as <-. flat; lia. }
  split; [flat; lia|]. intros L. up. first [reflexivity|exact H].
Qed.
Lemma for_tight ret st : tight 0 (parse_for ps ret st) (parse_for pt ret st) st.
Proof.
  intros st1 H. unfold parse_for in *. do 4 down. apply bind_some in H as ((w & tp) & E9 & H). rename H into H9.
  assert (X : left st1 = left w). { rename H9 into H. repeat down. pose proof (left_emit _ _ _ H). flat; lia. }
  assert (HC := conj H9 Logic.I). clear H9.
  match type of E9 with match ?z with _ => _ end = _ => destruct z as [sw|loads a sw] eqn:ES end; cbn [setup_state] in *.
  - destruct (new_target sw) as [v8 ?] eqn:E8. pose proof (left_target _ _ _ E8) as QT. rename E9 into H. down. apply bind_some in H as (u & E7 & H).
    match type of E7 with match p_toks ?z with _ => _ end = _ => rename z into y end.
    assert (D : (exists r, p_toks y = T_semi :: r) \/ (forall A (x : list tok -> A) z, match p_toks y with T_semi :: r => x r | _ => z end = z)).
    { destruct (p_toks y) as [|t r]; [now right|]. destruct t; try (now right). left. eauto. }
    assert (LU : left u = left y).
    { destruct D as [[r G]|G]; [rewrite G in E7; injection E7 as <-; unfold left; now rewrite G|]. rewrite (G _ (fun r => COk (set_toks r y))) in E7. clear H. rename E7 into H. repeat down. pose proof (left_emit _ _ _ H). flat; lia. }
    repeat down. injection H as <- <-. split; [flat; lia|]. intros L. up. exact (proj1 HC).
  - destruct (b_ops a) as [|o [|]] eqn:EO; try discriminate E9. destruct (b_all a) as [|? [|? [|]]] eqn:EA; try discriminate E9. rename E9 into H.
    unfold add_global in *. cbn [fst snd] in *. cbv zeta beta iota in H. do 3 down. destruct (each_step _ _) as [[? ?]|] eqn:EE; [|discriminate H]. repeat down. injection H as <- <-. split; [flat; lia|]. intros L. up. rewrite EO, EA. up. rewrite ?EE. up. exact (proj1 HC).
Qed.
Lemma unit_tight h args st : tight 0 (parse_unit ps h args st) (parse_unit pt h args st) st.
Proof.
  intros st1 H. unfold parse_unit in *. down. down. apply bind_some in H as (w & EW & H). assert (left w = left v0) by (destruct (_ || _); [injection EW as <-; reflexivity|exact (left_emit _ _ _ EW)]). injection H as <-.
  split; [flat; lia|]. intros L. up. reflexivity.
Qed.
Lemma left_return ret st st1 : parse_return ret st = COk st1 -> left st1 = left st.
Proof.
  unfold parse_return. intros H. apply bind_some in H as (w & E & H). rewrite (left_emit _ _ _ H).
  assert (D : (exists r, p_toks st = T_semi :: r) \/ (forall A (x : list tok -> A) z, match p_toks st with T_semi :: r => x r | _ => z end = z)).
  { destruct (p_toks st) as [|t r]; [now right|]. destruct t; try (now right). left. eauto. }
  destruct D as [[r G]|G].
  - rewrite G in E. rewrite (left_emit _ _ _ E). unfold left. now rewrite G.
  - rewrite (G _ (fun r => emit (push_opcode O_LiteralZero) (set_toks r st))) in E. clear H. rename E into H. repeat down. pose proof (left_emit _ _ _ H). flat; lia.
Qed.
Lemma left_stmt st st1 : parse_expr_stmt st = COk st1 -> left st1 = left st.
Proof. unfold parse_expr_stmt. intros H. repeat down. pose proof (left_emit _ _ _ H). flat; lia. Qed.
Lemma left_jump l e st st1 : parse_jump l e st = COk st1 -> left st1 = left st.
Proof. unfold parse_jump. destruct l; [discriminate|]. apply left_emit. Qed.
Lemma left_goto h st st1 : parse_goto h st = COk st1 -> left st1 = left st.
Proof. unfold parse_goto. intros H. repeat down. apply left_expect in H. cbn [bal] in H. flat; lia. Qed.
End Tight.

Theorem statement_tight n : forall ret end_ k st, In (end_, k) [(T_semi, 0); (T_rbrace, 1)] -> tight k (parse_statement n ret end_ st) (parse_strict n ret end_ st) st.
Proof.
  induction n as [|n IH]; intros ret end_ k st IE st1 H; [discriminate H|]. cbn [parse_statement parse_strict] in *.
  assert (PS : forall ret st, tight 0 (parse_statement n ret T_semi st) (parse_strict n ret T_semi st) st) by (intros; apply IH; cbn; tauto).
  assert (PB : forall ret st, tight 1 (parse_statement n ret T_rbrace st) (parse_strict n ret T_rbrace st) st) by (intros; apply IH; cbn; tauto).
  assert (AG : forall st0 r r', tight 0 r r' st0 -> (st2 <~ r ;; (if tok_eqb end_ T_semi then COk st2 else parse_statement n ret end_ st2)) = COk st1 ->
    left st0 <= left st1 + k /\ (left st1 + k <= left st0 -> (st2 <~ r' ;; (if tok_eqb end_ T_semi then COk st2 else parse_strict n ret end_ st2)) = COk st1)).
  { intros st0 r r' T E. apply bind_some in E as (st2 & E & E2). apply T in E as [E EQ].
    cbn in IE. destruct IE as [IE|[IE|[]]]; injection IE as <- <-; cbn [tok_eqb] in *.
    - injection E2 as <-. split; [lia|]. intros L. now rewrite EQ by lia.
    - apply PB in E2 as [E2 EQ2]. split; [lia|]. intros L. rewrite EQ by lia. cbn [cbind]. apply EQ2. lia. }
  assert (AT : forall st0 r, (forall st2, r = COk st2 -> left st2 = left st0) -> tight 0 r r st0) by (intros st0 r X st2 Y; rewrite (X _ Y); split; [lia|auto]).
  destruct (p_toks st) as [|t r] eqn:P.
  { cbn in IE. destruct IE as [IE|[IE|[]]]; injection IE as <- <-; cbn [tok_eqb] in *; [|discriminate H]. injection H as <-. split; [lia|reflexivity]. }
  destruct (tok_eqb t end_) eqn:TE.
  { injection H as <-. split; [|reflexivity]. unfold left. rewrite P. cbn in IE. destruct IE as [IE|[IE|[]]]; injection IE as <- <-; destruct t; try discriminate TE; cbn [set_toks p_toks bal]; lia. }
  assert (LT : left st = bal (t :: r)) by (unfold left; now rewrite P). assert (LR : left (set_toks r st) = bal r) by reflexivity.
  assert (LE : t <> T_lbrace -> t <> T_rbrace -> left (set_toks r st) = left st) by (intros N1 N2; rewrite LT, LR; destruct t; try congruence; reflexivity).
  destruct t; try (specialize (LE ltac:(discriminate) ltac:(discriminate)); rewrite <- LE).
  all: try solve [eapply AG; [apply AT; intros ? X; first [exact (left_return _ _ PS PB _ _ _ X)|exact (left_jump _ _ _ _ X)|exact (left_goto _ _ PS PB _ _ _ X)]|exact H]].
  all: try solve [rewrite LE; eapply AG; [apply AT; intros ? X; exact (left_stmt _ _ PS PB _ _ X)|exact H]].
  all: try solve [eapply AG; [apply AT; intros ? X; exact (left_stmt _ _ PS PB _ _ X)|exact H]].
  all: try solve [eapply AG; [first [apply (while_tight _ _ PS PB)|apply (do_tight _ _ PS PB)|apply (if_tight _ _ PS PB)|apply (for_tight _ _ PS PB)|apply (switch_tight _ _ PS PB)]|exact H]].
  - apply PB in H as [H EQ]. cbn [bal] in LT. cbn in IE. destruct IE as [IE|[IE|[]]]; injection IE as <- <-; cbn [tok_eqb].
    + split; [lia|]. intros L. apply EQ. lia.
    + split; [lia|]. intros L. lia.
  - destruct (p_fn st); [discriminate H|]. eapply AG; [apply (unit_tight _ _ PS PB)|exact H].
Qed.

Fixpoint strict_program (n fuel : nat) (st : pst) : cres pst :=
  match n with
  | O => CErr E_fuel
  | S n' => match p_toks st with [] => COk st | _ => st <~ parse_strict fuel O_GlobalStop T_semi st ;; strict_program n' fuel st end
  end.
Lemma program_tight n fuel : forall st st1, parse_program n fuel st = COk st1 -> left st <= 0 /\ (0 <= left st -> strict_program n fuel st = COk st1).
Proof.
  induction n as [|n IH]; intros st st1 H; [discriminate H|]. cbn [parse_program strict_program] in *. unfold left. destruct (p_toks st) as [|t r] eqn:P; [split; [cbn; lia|auto]|]. rewrite <- P. fold (left st).
  apply bind_some in H as (st2 & E & H). apply (statement_tight fuel _ T_semi 0) in E as [E EQ]; [|cbn; tauto]. apply IH in H as [H HQ]. split; [lia|]. intros L. rewrite EQ by lia. cbn [cbind]. apply HQ. lia.
Qed.
