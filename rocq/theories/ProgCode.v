(* Proofs for C57: the code of expressions and assignments, wherever they stand. *)
From Coq Require Import String.
From Verif Require Import Base BaseLemmas HashModel FloatModel OpsModel VmModel VmSpec EmitModel JumpProofs ExprModel ExprEmit ExprSpec ExprNest ExprText ExprStack ExprProps
  OpsProofs2 FuseSpec FuseRules FuseChunks FuseProofs EvalSpec EvalProofs EvalRun EvalNest EvalBlock ExprAssign ProgSpec.
Open Scope string_scope. Open Scope list_scope. Open Scope Z_scope.

(* ---------------------------------------------------------------- the instructions of an expression, whatever the variables hold *)
Definition one_operand (c : opcode) : bool := match instr_at (c, []) with Some (INeg | INot | IBitNot) => true | _ => false end.
Definition two_operands (c : opcode) : bool := match instr_at (c, []) with Some (IBin _ | ICmp _) => true | _ => false end.
Definition uval (x : term) : bool :=
  match t_operand x with OInt z => (int_min <=? z) && (z <=? 2147483647) | OVar _ n => (0 <=? n) && (n <? 256) | OCode _ => false end.
Definition uhash {leaf} (x : leaf) : bool := false.
Definition uun {leaf} (c : opcode) (x : list leaf) (v : bool) : bool := one_operand c && v.
Definition ubin (c : opcode) (v w : bool) : bool := two_operands c && (v && w).
Lemma ubin_lawful : lawful ubin.
Proof.
  split.
  - intros c x y _. unfold ubin. now rewrite (andb_comm x).
  - intros c d x y H. unfold ubin. rewrite (andb_comm x). f_equal. cbn [In mirrored] in H.
    repeat (destruct H as [H | H]; [injection H as <- <-; vm_compute; reflexivity|]). contradiction.
Qed.
Lemma false_stays {leaf} (val hash : leaf -> bool) a st st' : perform val hash uun ubin a st = Some st' -> In false st -> In false st'.
Proof.
  destruct a as [l|k|n|n m|q x|c]; cbn [perform].
  - intros [= <-] H. now right.
  - destruct k; try discriminate. intros [= <-] H. now right.
  - destruct (n <? 1); [discriminate|]. intros E H. eapply exchange_in; eauto.
  - destruct (_ || _); [discriminate|]. destruct (exchange 0 _ st) as [s|] eqn:E; [|discriminate]. intros E2 H. eapply exchange_in; [exact E2|]. eapply exchange_in; eauto.
  - destruct st as [|v r]; [discriminate|].
    assert (B : forall w r', r = w :: r' -> In false (v :: r) -> In false (ubin (o_code q) v w :: r')).
    { intros w r' -> [->|[->|H]]; [left|left|right; exact H]; unfold ubin; cbn; now rewrite ?andb_false_r. }
    destruct (o_type q); try (destruct r as [|w r']; [discriminate|]); intros [= <-]; auto; (intros [->|H]; [left; unfold uun; now rewrite andb_false_r|right; exact H]).
  - destruct st as [|v [|w r]]; try discriminate. intros [= <-] [->|[->|H]]; [left|left|right; exact H]; unfold ubin; cbn; now rewrite ?andb_false_r.
Qed.
Lemma all_true {leaf} (val hash : leaf -> bool) acts : forall st st', performs val hash uun ubin acts st = Some st' -> ~ In false st' -> ~ In false st.
Proof.
  induction acts as [|a acts IH]; intros st st'; cbn [performs]; [intros [= <-]; auto|].
  destruct (perform _ _ _ _ a st) as [s|] eqn:E; [|discriminate]. intros P N X. eapply IH; eauto. eapply false_stays; eauto.
Qed.
Definition urv (k : nat) (e : expr) : bool :=
  match e with
  | EPar u => match performs uval uhash uun ubin (flat k u) [] with Some [v] => v | _ => false end
  | _ => uval (simple_term e)
  end.
Lemma uflat_run k acts : forall st st', performs (urv k) uhash uun ubin acts st = Some st' -> ~ In false st' ->
  performs uval uhash uun ubin (flat_map (place (flat k)) acts) st = Some st'.
Proof.
  induction acts as [|a acts IH]; intros st st' P N; [exact P|]. cbn [performs] in P.
  destruct (perform _ _ _ _ a st) as [s|] eqn:E; [|discriminate]. pose proof (all_true _ _ _ _ _ P N) as N1. specialize (IH _ _ P N).
  cbn [flat_map]. rewrite performs_app. enough (performs uval uhash uun ubin (place (flat k) a) st = Some s) as -> by exact IH. clear IH P.
  destruct a as [x|h|n|n p|q x|c]; cbn [place term_action performs]; try (cbn [perform] in *; rewrite E; reflexivity).
  - destruct x as [z|q n|u]; cbn [performs perform] in *; try (injection E as <-; reflexivity).
    injection E as <-. cbn [urv] in *. destruct (performs uval uhash uun ubin (flat k u) []) as [[|v [|w r]]|] eqn:R; try (exfalso; apply N1; now left).
    exact (performs_below _ _ _ _ _ _ _ _ _ st R).
  - cbn [perform] in E. destruct h; try discriminate. injection E as <-. exfalso. apply N1. now left.
  - change (perform uval uhash uun ubin (AOp q (map simple_term x)) st = Some s) in E. now rewrite E.
Qed.
Lemma prefix_one s : look int_prefixes s <> None -> exists c, look prefixes s = Some c /\ one_operand c = true.
Proof.
  intros H. destruct (look int_prefixes s) as [f|] eqn:L; [|congruence]. apply look_in in L. cbn [In int_prefixes] in L.
  repeat (destruct L as [L|L]; [injection L as <- _; eexists; split; vm_compute; reflexivity|]). contradiction.
Qed.
Lemma infix_two s : look (int_infixes true) s <> None -> (s =? ".")%string = false /\ exists n c, look infixes s = Some (n, c) /\ two_operands c = true.
Proof.
  intros H. destruct (look (int_infixes true) s) as [f|] eqn:L; [|congruence]. apply look_in in L. cbn [In int_infixes] in L.
  repeat (destruct L as [L|L]; [injection L as <- _; split; [reflexivity|]; eexists _, _; split; vm_compute; reflexivity|]). contradiction.
Qed.
Lemma uvalue (rv : expr -> bool) (P : expr -> Prop) t : (forall e, In e (operands t) -> P e -> rv e = true) -> of_integers P t -> ExprSpec.value rv uhash uun ubin t = Some true.
Proof.
  induction t as [x|s t IH|s x t IH|s l IHl r IHr]; cbn [of_integers ExprSpec.value operands]; intros F H.
  - rewrite F; auto. now left.
  - destruct H as [L H]. destruct (prefix_one _ L) as (c & -> & G). rewrite IH by auto. cbn [app1]. unfold uun. now rewrite G.
  - contradiction.
  - destruct H as (L & H1 & H2). destruct (infix_two _ L) as (-> & n & c & -> & G). cbn [option_map snd].
    rewrite IHl, IHr by first [assumption|intros e IN; apply F; apply in_or_app; auto].
    cbn [app2]. unfold ubin. now rewrite G.
Qed.
Lemma of_integers_in {leaf} (P : leaf -> Prop) t : of_integers P t -> forall e, In e (operands t) -> P e.
Proof.
  induction t as [x|s t IH|s x t IH|s l IHl r IHr]; cbn [of_integers operands].
  - intros H e [<-|[]]. exact H.
  - tauto.
  - tauto.
  - intros (_ & H1 & H2) e IN. apply in_app_or in IN. destruct IN; auto.
Qed.
Theorem flat_performs n : forall t, fine t -> arithmetic t -> (tree_max depth t < n)%nat -> performs uval uhash uun ubin (flat n t) [] = Some [true].
Proof.
  induction n as [|n IH]; intros t F A D; [lia|]. destruct F as [t SH LT SW NE SUB]. cbn [flat].
  destruct (c32_accepted _ t SH LT) as [acts PA]. rewrite PA.
  destruct (c32_expression_value_partial _ _ (urv n) uhash uun ubin t acts ubin_lawful SH LT PA (SW _ PA)) as (v & V & P). specialize (P []).
  rewrite (uvalue (urv n) integer_operand t) in V; [|clear V|exact A].
  - injection V as <-. apply uflat_run; [exact P|]. intros [X|[]]. discriminate.
  - intros e IN IE. destruct e as [c|q c|u]; cbn [urv integer_operand] in *.
    + unfold uval, simple_term. cbn [t_operand]. lia.
    + unfold uval, simple_term. cbn [t_operand]. lia.
    + pose proof (max_in depth t _ IN) as MX. cbn [depth] in MX. rewrite (IH u (SUB u IN) IE) by lia. reflexivity.
Qed.
Lemma arith_sum (f : expr -> nat) (P : expr -> Prop) t v : of_integers P t -> ExprSpec.value f (fun _ => 1%nat) (fun _ _ v => v) (fun _ v w => (v + w)%nat) t = Some v -> v = tree_sum f t.
Proof.
  revert v. induction t as [x|s t IH|s x t IH|s l IHl r IHr]; intros v; cbn [of_integers ExprSpec.value tree_sum].
  - now intros _ [= <-].
  - intros [_ H]. destruct (look prefixes s); [|discriminate]. destruct (ExprSpec.value _ _ _ _ t) as [w|]; [|discriminate]. cbn [app1]. intros [= <-]. auto.
  - contradiction.
  - intros (L & H1 & H2). destruct (infix_two _ L) as (-> & n & c & -> & _). cbn [option_map snd].
    destruct (ExprSpec.value _ _ _ _ l) as [a|]; [|discriminate]. destruct (ExprSpec.value _ _ _ _ r) as [b|]; [|discriminate]. cbn [app2]. intros [= <-].
    now rewrite (IHl _ H1 eq_refl), (IHr _ H2 eq_refl).
Qed.
Theorem flat_width n : forall t, fine t -> arithmetic t -> (tree_max depth t < n)%nat -> loads (flat n t) = tree_sum width t.
Proof.
  induction n as [|n IH]; intros t F A D; [lia|]. destruct F as [t SH LT SW NE SUB]. cbn [flat].
  destruct (c32_accepted _ t SH LT) as [acts PA]. rewrite PA.
  destruct (c32_expression_value_partial _ _ (lw (flat n)) (fun _ => 1%nat) (fun _ _ v => v) _ t acts nat_lawful SH LT PA (SW _ PA)) as (v & V & P). specialize (P []).
  apply total_loads in P. cbn [total fold_right] in P. rewrite Nat.add_0_r in P. cbn [Nat.add] in P. rewrite <- P. rewrite (arith_sum _ _ _ _ A V).
  apply sum_ext. intros e IN. destruct e as [c|q c|u]; try reflexivity. cbn [lw width].
  pose proof (max_in depth t _ IN) as MX. cbn [depth] in MX. apply IH; [exact (SUB u IN)|exact (of_integers_in _ _ A _ IN)|lia].
Qed.
(* each of them is an instruction of the source kind, and pops nothing for good *)
Definition sound (a : action term) : Prop :=
  simple_action a /\ fst (chunk_of a) <> O_HASH_PLACEHOLDER /\ source (chunk_of a) /\ fst (chunk_of a) <> O_PopOne.
Lemma sound_op c i : instr_at (c, []) = Some i -> straight i = true -> i <> IPop -> c <> O_HASH_PLACEHOLDER /\ source (c, []) /\ c <> O_PopOne.
Proof.
  intros J S N. split; [eapply opcode_acts; eauto|]. split; [split; [constructor|eauto]|]. intros ->. vm_compute in J. congruence.
Qed.
Lemma two_sound c : two_operands c = true -> c <> O_HASH_PLACEHOLDER /\ source (c, []) /\ c <> O_PopOne.
Proof. unfold two_operands. destruct (instr_at (c, [])) as [i|] eqn:J; [|discriminate]. destruct i; try discriminate; intros _; eapply sound_op; eauto; discriminate. Qed.
Lemma one_sound c : one_operand c = true -> c <> O_HASH_PLACEHOLDER /\ source (c, []) /\ c <> O_PopOne.
Proof. unfold one_operand. destruct (instr_at (c, [])) as [i|] eqn:J; [|discriminate]. destruct i; try discriminate; intros _; eapply sound_op; eauto; discriminate. Qed.
Lemma load_sound x : uval x = true -> sound (ALoad x).
Proof.
  unfold uval, sound. cbn [simple_action chunk_of]. destruct (t_operand x) as [z|q n|c]; [| |discriminate]; intros H.
  - split; [exact I|]. assert (R : is_s32 z) by (unfold is_s32, int_min in *; lia). destruct (lit_at z R) as (c & J & FB).
    split; [unfold lit_chunk; repeat match goal with |- context [if ?b then _ else _] => destruct b end; discriminate|].
    split; [split; [exact FB|eauto]|unfold lit_chunk; repeat match goal with |- context [if ?b then _ else _] => destruct b end; discriminate].
  - split; [exact I|]. split; [destruct q; discriminate|]. split; [|destruct q; discriminate]. split; [destruct q; repeat constructor; unfold is_byte, u8; lia|].
    destruct q; eexists; split; reflexivity.
Qed.
Lemma step_sound a st st' : perform uval uhash uun ubin a st = Some st' -> ~ In false st' -> (length st + loads [a] <= 255)%nat -> sound a.
Proof.
  intros P N D. destruct a as [x|k|n|n m|q x|c]; cbn [perform] in P.
  - injection P as <-. apply load_sound. destruct (uval x); [reflexivity|]. exfalso. apply N. now left.
  - destruct k; try discriminate. injection P as <-. exfalso. apply N. now left.
  - destruct (n <? 1) eqn:E; [discriminate|].
    assert (LN : (Z.to_nat (n - 1) < length st)%nat). { unfold exchange in P. destruct (nth_error st 0); [|discriminate]. destruct (nth_error st (Z.to_nat (n - 1))) eqn:E'; [|discriminate]. apply nth_error_Some. congruence. }
    unfold sound. cbn in D |- *. split; [exact I|]. split; [discriminate|]. split; [|discriminate]. split; [repeat constructor; unfold is_byte; lia|].
    eexists. split; [reflexivity|]. cbn. destruct (Z.to_nat n) eqn:EN; [lia|reflexivity].
  - destruct ((n <? 1) || (m <? 1)) eqn:E; [discriminate|]. destruct (exchange 0 (Z.to_nat (n - 1)) st) as [st1|] eqn:E1; [|discriminate].
    pose proof (exchange_length _ _ _ _ E1) as LL.
    assert (LN : (Z.to_nat (n - 1) < length st)%nat). { unfold exchange in E1. destruct (nth_error st 0); [|discriminate]. destruct (nth_error st (Z.to_nat (n - 1))) eqn:E'; [|discriminate]. apply nth_error_Some. congruence. }
    assert (LM : (Z.to_nat (m - 1) < length st1)%nat). { unfold exchange in P. destruct (nth_error st1 1); [|discriminate]. destruct (nth_error st1 (Z.to_nat (m - 1))) eqn:E'; [|discriminate]. apply nth_error_Some. congruence. }
    unfold sound. cbn in D |- *. split; [exact I|]. split; [discriminate|]. split; [|discriminate]. split; [repeat constructor; unfold is_byte; lia|].
    eexists. split; [reflexivity|]. cbn. destruct (Z.to_nat n) eqn:EN; [lia|]. destruct (Z.to_nat m) eqn:EM; [lia|reflexivity].
  - destruct st as [|v r]; [discriminate|]. unfold sound. cbn [simple_action chunk_of fst]. split; [exact I|].
    assert (U : Some (uun (o_code q) x v :: r) = Some st' -> one_operand (o_code q) = true).
    { intros [= <-]. unfold uun in N. destruct (one_operand (o_code q)); [reflexivity|]. exfalso. apply N. now left. }
    assert (B : forall w r', Some (ubin (o_code q) v w :: r') = Some st' -> two_operands (o_code q) = true).
    { intros w r' [= <-]. unfold ubin in N. destruct (two_operands (o_code q)); [reflexivity|]. exfalso. apply N. now left. }
    destruct (o_type q); try (destruct r as [|w r']; [discriminate|]); first [apply one_sound; exact (U P)|apply two_sound; exact (B _ _ P)].
  - destruct st as [|v [|w r]]; try discriminate. unfold sound. cbn [simple_action chunk_of fst]. split; [exact I|]. apply two_sound.
    injection P as <-. unfold ubin in N. destruct (two_operands c); [reflexivity|]. exfalso. apply N. now left.
Qed.
Lemma steps_sound acts : forall st st', performs uval uhash uun ubin acts st = Some st' -> ~ In false st' -> (length st + loads acts <= 255)%nat -> Forall sound acts.
Proof.
  induction acts as [|a acts IH]; intros st st' P N D; [constructor|]. cbn [performs] in P. destruct (perform _ _ _ _ a st) as [s|] eqn:E; [|discriminate].
  rewrite loads_cons in D. pose proof (all_true _ _ _ _ _ P N) as N1. pose proof (perform_length _ _ _ _ _ _ _ E) as PL.
  constructor; [eapply step_sound; eauto; lia|]. eapply IH; eauto. lia.
Qed.
Theorem flat_sound n t : fine t -> arithmetic t -> (tree_max depth t < n)%nat -> (tree_sum width t <= 255)%nat -> Forall sound (flat n t).
Proof.
  intros F A D W. pose proof (flat_performs n t F A D) as P. rewrite <- (flat_width n t F A D) in W. eapply steps_sound; [exact P| |cbn; exact W]. intros [X|[]]. discriminate.
Qed.
Theorem flat_first n t : fine t -> arithmetic t -> (tree_max depth t < n)%nat -> exists x r, flat n t = ALoad x :: r /\ uval x = true.
Proof.
  intros F A D. pose proof (flat_performs n t F A D) as P. destruct (flat n t) as [|a r]; [discriminate|]. cbn [performs] in P.
  destruct (perform uval uhash uun ubin a []) as [s|] eqn:E; [|discriminate].
  assert (N : ~ In false s). { eapply all_true; [exact P|]. intros [X|[]]. discriminate. }
  destruct a as [x|k|n'|n' m|q x|c]; cbn [perform] in E; try discriminate.
  - injection E as <-. exists x, r. split; [reflexivity|]. destruct (uval x); [reflexivity|]. exfalso. apply N. now left.
  - destruct k; try discriminate. injection E as <-. exfalso. apply N. now left.
  - destruct (n' <? 1); discriminate.
  - destruct (_ || _); discriminate.
Qed.

(* ---------------------------------------------------------------- the shape of a block *)
Definition plain_op (o : opcode) : Prop := indexes o = false.
Lemma source_plain o d : source (o, d) -> plain_op o.
Proof.
  intros [_ (i & H & S)]. unfold plain_op. destruct o; try reflexivity; exfalso; apply instr_at_inv in H; try reflexivity; destruct H as (n & D & _); cbn [decode_op] in D.
  all: unfold n0, lU8, lS16 in D; repeat match type of D with match ?x with _ => _ end = _ => destruct x; [|discriminate D] end; injection D as <- _; discriminate.
Qed.
Lemma fuse_shape o d ops rl ops' rl' : source (o, d) -> o <> O_PopOne -> fuse o ops rl = Fuse ops' rl' -> Forall plain_op ops ->
  Forall plain_op ops' /\ ((2 <= length rl')%nat \/ hd_error ops = Some O_LiteralInt8 /\ length rl' = length rl).
Proof.
  intros [_ (i & IO & ST)] NP H P. destruct ops as [|o0 rest]; [discriminate|]. cbn [fuse] in H.
  assert (R : rest = [] \/ exists o1 r, rest = o1 :: r /\ plain_op o1 /\ Forall plain_op r).
  { apply Forall_inv_tail in P. destruct rest as [|o1 r]; [now left|]. right. exists o1, r. split; [reflexivity|]. split; [exact (Forall_inv P)|exact (Forall_inv_tail P)]. }
  assert (VAR : fuse_var2 o o0 rest rl = Fuse ops' rl' -> Forall plain_op ops' /\ ((2 <= length rl')%nat \/ hd_error (o0 :: rest) = Some O_LiteralInt8 /\ length rl' = length rl)).
  { clear H. unfold fuse_var2. intros H. destruct (_ <=? 3); [discriminate|]. destruct (op_eqb _ _ && _); [discriminate|].
    destruct (load_of o0); [|discriminate]. destruct rest as [|o1 r]; [discriminate|]. destruct (load_of o1); [|discriminate].
    destruct (var2_form _ _ _) as [[? ?]|]; [|discriminate]. cases H; injection H as <- <-; (split; [constructor|left; match goal with |- context [if ?x then _ else _] => destruct x end; cbn; lia]). }
  assert (SKIP : forall op, plain_op op -> fuse_skip op o0 rest rl = Fuse ops' rl' -> Forall plain_op ops' /\ ((2 <= length rl')%nat \/ hd_error (o0 :: rest) = Some O_LiteralInt8 /\ length rl' = length rl)).
  { clear H. unfold fuse_skip. intros op PO H. destruct (_ <=? 3); [discriminate|]. destruct R as [->|(o1 & r & -> & P1 & Pr)]; [discriminate|].
    destruct (load_of o0); [|discriminate]. destruct (load_of o1); [|discriminate]. cases H; injection H as <- <-. split; [now constructor|left; cbn; lia]. }
  assert (CMP : forall f, plain_op (cf_ll f) -> plain_op (cf_gg f) -> plain_op (cf_ls f) -> plain_op (cf_gs f) -> plain_op (cf_ils f) -> plain_op (cf_igs f) ->
     fuse_compare f o0 rest rl = Fuse ops' rl' -> Forall plain_op ops' /\ ((2 <= length rl')%nat \/ hd_error (o0 :: rest) = Some O_LiteralInt8 /\ length rl' = length rl)).
  { clear H. intros f F1 F2 F3 F4 F5 F6 H. unfold fuse_compare in H. destruct R as [->|(o1 & r & -> & P1 & Pr)]; [discriminate|].
    assert (ONE : fuse_compare_s f o0 o1 r rl = Fuse ops' rl' -> Forall plain_op ops' /\ ((2 <= length rl')%nat \/ hd_error (o0 :: o1 :: r) = Some O_LiteralInt8 /\ length rl' = length rl)).
    { clear H. unfold fuse_compare_s. intros H. destruct (is_literal o1).
      - destruct (load_of o0) as [q|]; [|discriminate]. cbv zeta in H. cases H; injection H as <- <-; (split; [destruct q; repeat constructor; assumption|left; cbn; lia]).
      - destruct (is_literal o0) eqn:L; [|discriminate]. destruct (load_of o1) as [q|]; [|discriminate]. cbv zeta in H.
        destruct o0; try discriminate; cases H; injection H as <- <-; (split; [destruct q; repeat constructor; assumption|left; cbn; lia]). }
    destruct (load_of o0) as [[|]|], (load_of o1) as [[|]|]; auto; cases H; injection H as <- <-; (split; [repeat constructor; assumption|left; cbn; lia]). }
  destruct o; try congruence; cbn [compare_forms skip_form] in H; try discriminate H;
  try (apply VAR; exact H); try (eapply SKIP; [|exact H]; reflexivity); try (eapply CMP; [..|exact H]; reflexivity).
  - destruct (at_n0 O_Return IReturn _ _ (fun _ _ => eq_refl) eq_refl IO) as [_ ->]. discriminate.
  - destruct (at_n0 O_Index IIndex _ _ (fun _ _ => eq_refl) eq_refl IO) as [_ ->]. discriminate.
  - exfalso. apply instr_at_inv in IO; [|reflexivity]. destruct IO as [n [D _]]. cbn [decode_op] in D. unfold b0 in D.
    destruct (rd16 _ _); [|discriminate]. injection D as <- _. discriminate ST.
  - split; [rewrite (negate_keeps _ _ _ _ _ H); exact P|]. unfold fuse_negate in H. destruct o0; try discriminate; cases H; injection H as <- <-; cbn; try (left; lia). right. auto.
Qed.
Definition plain_chunk (c : chunk) : Prop := source c /\ fst c <> O_PopOne /\ fst c <> O_HASH_PLACEHOLDER.
(* [b] is what is emitted for the instructions [dn] *)
Record shape (b : bcode) (dn : list chunk) : Prop := mkShape {
  sh_pure : pure b; sh_ops : Forall plain_op (b_ops b); sh_none : dn = [] -> b = empty_bc; sh_some : dn <> [] -> b_all b <> [];
  sh_one : length (b_all b) = 1%nat -> exists o, dn = [(o, [])] /\ b_ops b = [o] /\ b_all b = [byte_of o] }.
Lemma shape_push b dn o d b1 : shape b dn -> Forall plain_chunk dn -> plain_chunk (o, d) -> push_opcode o b = COk b1 -> shape (push_data d b1) (dn ++ [(o, d)]).
Proof.
  intros [P O N S L] FD (SC & NP & NH) H. cbn [fst] in *.
  assert (NE : dn ++ [(o, d)] <> []) by (intros X; now apply app_eq_nil in X).
  assert (P1 : pure (push_data d b1)) by (eapply pure_push; eauto).
  unfold push_opcode in H. destruct (fuse o (b_ops b) (rev (b_all b))) as [ops' rl'| |] eqn:F; [| |discriminate]; injection H as <-; constructor; auto; try contradiction.
  - cbn. apply (fuse_shape _ _ _ _ _ _ SC NP F O).
  - intros _. cbn [push_data set_code b_all]. destruct (fuse_shape _ _ _ _ _ _ SC NP F O) as [_ [X|[X Y]]]; intros E.
    + apply app_eq_nil in E. destruct E as [E _]. apply (f_equal (@length _)) in E. rewrite rev_length in E. cbn in E. lia.
    + apply app_eq_nil in E. destruct E as [E _]. apply (f_equal (@length _)) in E. rewrite rev_length, Y, rev_length in E. cbn in E.
      destruct (b_all b) eqn:EB; [|discriminate]. destruct dn as [|c dn]; [|apply S; [discriminate|reflexivity]]. rewrite (N eq_refl) in X. discriminate.
  - cbn [push_data set_code b_all b_ops]. intros E. exfalso. rewrite app_length, rev_length in E. destruct (fuse_shape _ _ _ _ _ _ SC NP F O) as [_ [X|[X Y]]]; [lia|].
    rewrite rev_length in Y. destruct (b_all b) as [|x [|y l]] eqn:EB; cbn in Y; [|destruct (L eq_refl) as (o0 & -> & E0 & _)|lia].
    + destruct dn as [|c dn]; [|apply S; [discriminate|reflexivity]]. rewrite (N eq_refl) in X. discriminate.
    + rewrite E0 in X. injection X as ->. apply Forall_inv in FD. destruct FD as ((_ & i & J & _) & _). vm_compute in J. discriminate.
  - cbn. constructor; [exact (source_plain _ _ SC)|exact O].
  - intros _. cbn. intros E. apply (f_equal (@length _)) in E. rewrite !app_length in E. cbn in E. lia.
  - cbn [push_data set_code b_all b_ops]. intros E. rewrite !app_length in E. cbn in E. destruct (b_all b) as [|x l] eqn:EB; [|cbn in E; lia]. destruct d; [|cbn in E; lia].
    destruct dn as [|c dn]; [|exfalso; apply S; [discriminate|reflexivity]]. rewrite (N eq_refl). exists o. auto.
Qed.
Lemma shape_append b dn c dnc b1 : shape b dn -> Forall plain_chunk dn -> shape c dnc -> Forall plain_chunk dnc -> append_bytecode b c = COk b1 -> shape b1 (dn ++ dnc).
Proof.
  intros SB FD SC FC H. destruct (list_eq_dec (fun a b : chunk => ltac:(repeat decide equality)) dnc []) as [->|NC].
  { rewrite (sh_none _ _ SC eq_refl) in H. assert (X : append_bytecode b empty_bc = COk b).
    { rewrite append_pure by (try reflexivity; try exact I; cbn; lia). destruct b. unfold set_code. cbn. now rewrite app_nil_r. }
    rewrite X in H. injection H as <-. now rewrite app_nil_r. }
  destruct (Nat.eq_dec (length (b_all c)) 1) as [E|E].
  - destruct (sh_one _ _ SC E) as (o & -> & EO & EA).
    assert (A : append_bytecode b c = push_opcode o b).
    { pose proof (sh_pure _ _ SC) as PC. apply Forall_inv in FC. destruct FC as (_ & _ & NH). cbn [fst] in NH.
      rewrite PC, EA, EO. unfold append_bytecode. rewrite merge_empty.
      assert (NI : plain_op o) by (pose proof (sh_ops _ _ SC) as X; rewrite EO in X; exact (Forall_inv X)).
      assert (HH : op_eqb o O_HASH_PLACEHOLDER = false) by (destruct (op_eqb o O_HASH_PLACEHOLDER) eqn:Q; [exfalso; apply NH; destruct o; try discriminate Q; reflexivity|reflexivity]).
      cbn [set_code empty_bc b_ops b_all b_gotos last]. rewrite HH.
      destruct (match b_ops b with o0 :: _ => load_of o0 | [] => None end) as [q|]; [|reflexivity]. destruct o; try reflexivity; discriminate. }
    rewrite A in H. replace b1 with (push_data [] b1) by (destruct b1; unfold push_data, set_code; cbn; now rewrite app_nil_r).
    eapply shape_push; eauto. exact (Forall_inv FC).
  - assert (IX : match b_ops c with o :: _ => indexes o = false | [] => True end) by (pose proof (sh_ops _ _ SC) as X; destruct (b_ops c); [exact I|exact (Forall_inv X)]).
    rewrite (append_pure _ _ (sh_pure _ _ SC) IX E) in H. injection H as <-.
    assert (NA : b_all c <> []) by exact (sh_some _ _ SC NC).
    assert (L2 : (2 <= length (b_all c))%nat) by (destruct (b_all c) as [|x [|y l]]; cbn in *; congruence || lia).
    constructor.
    + apply pure_code. apply SB.
    + cbn. apply Forall_app. split; [apply SC|apply SB].
    + intros X. apply app_eq_nil in X. tauto.
    + intros _ X. cbn in X. apply app_eq_nil in X. tauto.
    + cbn. rewrite app_length. lia.
Qed.
Theorem block_shape n : forall t b, block append_bytecode n t = COk b -> Forall sound (flat n t) -> shape b (map chunk_of (flat n t)).
Proof.
  assert (PC : forall l, Forall sound l -> Forall plain_chunk (map chunk_of l)).
  { intros l H. apply Forall_map. eapply Forall_impl; [|exact H]. intros a (H1 & H2 & H3 & H4). exact (conj H3 (conj H4 H2)). }
  induction n as [|n IH]; intros t b H GA; [discriminate|]. cbn [block flat] in *.
  destruct (parse_expression (text t)) as [acts| |]; try discriminate. cbn [cbind] in H.
  enough (K : forall acts b0 dn, emit_all_nested append_bytecode (block append_bytecode n) acts b0 = COk b -> shape b0 dn -> Forall plain_chunk dn ->
     Forall sound (flat_map (place (flat n)) acts) -> shape b (dn ++ map chunk_of (flat_map (place (flat n)) acts))).
  { apply (K acts empty_bc []); auto. constructor; try (cbn; congruence); try reflexivity; constructor. }
  clear acts GA H t. induction acts as [|a acts IA]; intros b0 dn H P FD GA.
  - cbn in H. injection H as <-. cbn. now rewrite app_nil_r.
  - cbn [emit_all_nested] in H. destruct (emit_nested _ _ a b0) as [b1| |] eqn:EN; try discriminate. cbn [cbind] in H.
    cbn [flat_map] in *. rewrite map_app in *. apply Forall_app in GA. destruct GA as [G1 G2]. rewrite app_assoc.
    apply (IA b1); [exact H| |apply Forall_app; auto|exact G2].
    assert (SM : place (flat n) a = [term_action a] -> emit_action (term_action a) b0 = COk b1 -> shape b1 (dn ++ map chunk_of (place (flat n) a))).
    { intros EP EA. pose proof (PC _ G1) as PG. rewrite EP in *. apply Forall_inv in G1. destruct G1 as (SA & NH & SC & NP). rewrite emit_one_action in EA by assumption.
      cbn [emit_all] in EA. destruct (push_opcode _ b0) as [b2| |] eqn:E2; try discriminate. injection EA as <-. cbn [map].
      destruct (chunk_of (term_action a)) as [o d]. eapply shape_push; eauto. exact (conj SC (conj NP NH)). }
    destruct a as [[z|q k|u]|h0|k|k1 k2|q x|c]; cbn [emit_nested] in EN; try (apply SM; [reflexivity|exact EN]).
    cbn [place] in *. destruct (block append_bytecode n u) as [c| |] eqn:BU; try discriminate. cbn [cbind] in EN.
    eapply shape_append; eauto.
Qed.
