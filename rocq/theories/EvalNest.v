(* Expressions with parentheses (C56): the instructions of the expression, those of the blocks between
   parentheses in their places; that performing them gives the expression's value; and that the
   compiler that forgets its opcodes (EvalSpec) emits code derived from them. *)
From Coq Require Import String.
From Verif Require Import Base BaseLemmas HashModel FloatModel OpsModel VmModel VmSpec EmitModel JumpProofs ExprModel ExprEmit ExprSpec ExprNest ExprStack ExprProps
  FuseSpec FuseRules FuseChunks FuseProofs EvalSpec EvalProofs EvalRun.
Open Scope string_scope. Open Scope list_scope. Open Scope Z_scope.

(* ---------------------------------------------------------------- the instructions *)
Definition place (sub : tree expr -> list (action term)) (a : action expr) : list (action term) :=
  match a with ALoad (EPar u) => sub u | _ => [term_action a] end.
Fixpoint flat (n : nat) (t : tree expr) : list (action term) :=
  match n with
  | O => []
  | S k => match parse_expression (text t) with COk acts => flat_map (place (flat k)) acts | _ => [] end
  end.
Lemma loads_app {leaf} (a b : list (action leaf)) : loads (a ++ b) = (loads a + loads b)%nat.
Proof. induction a as [|x a IH]; [reflexivity|]. cbn [app]. rewrite loads_cons, (loads_cons x a), IH. lia. Qed.

(* ---------------------------------------------------------------- one load for each operand *)
Definition total (st : list nat) : nat := fold_right plus 0%nat st.
Lemma exchange_total p q (st st' : list nat) : exchange p q st = Some st' -> total st' = total st.
Proof.
  assert (U : forall l i (a x : nat), nth_error l i = Some a -> (total (Base.upd l i x) + a = total l + x)%nat).
  { induction l as [|y l IH]; intros [|i] a x; cbn; try discriminate; [intros [= ->]; cbn; lia|]. intros H. specialize (IH i a x H). unfold total in *. cbn. lia. }
  unfold exchange. destruct (nth_error st p) as [a|] eqn:P; [|discriminate]. destruct (nth_error st q) as [b|] eqn:Q; [|discriminate]. intros [= <-].
  pose proof (U st p a b P). assert (Q' : nth_error (Base.upd st p b) q = Some b).
  { rewrite nth_upd. assert (p < length st)%nat by (apply nth_error_Some; congruence). apply Nat.ltb_lt in H0. rewrite H0. destruct (Nat.eqb q p); congruence. }
  pose proof (U _ q b a Q'). lia.
Qed.
Section Count.
Variable sub : tree expr -> list (action term).
Definition lw (e : expr) : nat := match e with EPar u => loads (sub u) | _ => 1%nat end.
Lemma total_loads acts : forall st st', performs lw (fun _ => 1%nat) (fun _ _ v => v) (fun _ v w => (v + w)%nat) acts st = Some st' ->
  total st' = (total st + loads (flat_map (place sub) acts))%nat.
Proof.
  induction acts as [|a acts IH]; intros st st'; cbn [performs]; [intros [= <-]; cbn; lia|].
  destruct (perform _ _ _ _ a st) as [s|] eqn:E; [|discriminate]. intros P. apply IH in P. rewrite P. cbn [flat_map]. rewrite loads_app.
  enough (total s = total st + loads (place sub a))%nat by lia. clear P IH.
  destruct a as [x|k|n|n m|q x|c]; cbn [perform] in E; cbn [place].
  - injection E as <-. destruct x; unfold total; cbn; lia.
  - destruct k; try discriminate. injection E as <-. unfold total. cbn. lia.
  - destruct (n <? 1); [discriminate|]. apply exchange_total in E. cbn. lia.
  - destruct (_ || _); [discriminate|]. destruct (exchange 0 _ st) eqn:E1; [|discriminate]. apply exchange_total in E, E1. cbn. lia.
  - destruct st as [|v r]; [discriminate|]. destruct (o_type q); try (destruct r as [|w r]; [discriminate|]); injection E as <-; unfold total; cbn; lia.
  - destruct st as [|v [|w r]]; try discriminate. injection E as <-. unfold total. cbn. lia.
Qed.
End Count.
Lemma value_sum trap (env : expr -> option Z) (f : expr -> nat) t : forall z v, int_value trap env t = Some z ->
  value f (fun _ => 1%nat) (fun _ _ v => v) (fun _ v w => (v + w)%nat) t = Some v -> v = tree_sum f t.
Proof.
  induction t as [x|s t IH|s x t IH|s l IHl r IHr]; intros z v; cbn [int_value ExprSpec.value tree_sum].
  - now intros _ [= <-].
  - destruct (look int_prefixes s); [|discriminate]. destruct (int_value trap env t) as [y|] eqn:Y; [|discriminate]. intros _.
    destruct (look prefixes s); [|discriminate]. destruct (ExprSpec.value _ _ _ _ t) as [w|]; [|discriminate]. cbn [app1]. intros [= <-]. eapply IH; eauto.
  - discriminate.
  - destruct (look (int_infixes trap) s) eqn:L; [|discriminate]. destruct (int_value trap env l) as [y|] eqn:Y; [|discriminate]. destruct (int_value trap env r) as [y'|] eqn:Y'; [|discriminate]. intros _.
    destruct (String.eqb_spec s "."); [subst s; discriminate|].
    destruct (option_map snd (look infixes s)); [|discriminate]. destruct (ExprSpec.value _ _ _ _ l) as [a|]; [|discriminate]. destruct (ExprSpec.value _ _ _ _ r) as [b|]; [|discriminate].
    cbn [app2]. intros [= <-]. rewrite (IHl _ _ eq_refl eq_refl), (IHr _ _ eq_refl eq_refl). reflexivity.
Qed.
Lemma int_operands trap (env : expr -> option Z) t : forall z, int_value trap env t = Some z -> forall e, In e (operands t) -> exists y, env e = Some y.
Proof.
  induction t as [x|s t IH|s x t IH|s l IHl r IHr]; intros z; cbn [int_value operands].
  - intros H e [<-|[]]. eauto.
  - destruct (look int_prefixes s); [|discriminate]. destruct (int_value trap env t) as [y|] eqn:Y; [|discriminate]. intros _. eapply IH; eauto.
  - discriminate.
  - destruct (look (int_infixes trap) s) eqn:L; [|discriminate]. destruct (int_value trap env l) as [y|] eqn:Y; [|discriminate]. destruct (int_value trap env r) as [y'|] eqn:Y'; [|discriminate]. intros _ e H.
    apply in_app_or in H. destruct H; eauto.
Qed.
Lemma sum_ext {leaf} (f g : leaf -> nat) t : (forall e, In e (operands t) -> f e = g e) -> tree_sum f t = tree_sum g t.
Proof.
  induction t as [x|s t IH|s x t IH|s l IHl r IHr]; cbn [tree_sum operands]; intros H; auto.
  - apply H. now left.
  - rewrite IHl, IHr; auto; intros e E; apply H; apply in_or_app; auto.
Qed.
Lemma max_in {leaf} (f : leaf -> nat) t e : In e (operands t) -> (f e <= tree_max f t)%nat.
Proof.
  induction t as [x|s t IH|s x t IH|s l IHl r IHr]; cbn [tree_max operands]; auto.
  - intros [<-|[]]. lia.
  - intros H. apply in_app_or in H. destruct H as [H|H]; [apply IHl in H|apply IHr in H]; lia.
Qed.
Lemma nat_lawful : lawful (fun (_ : opcode) (v w : nat) => (v + w)%nat).
Proof. split; intros; lia. Qed.

(* ---------------------------------------------------------------- the value *)
Section Values.
Variable trap : bool.
Variable m : mem.
Variable fb fw : nat.
Notation run := (performs (dval m fb fw) dhash dun (dbin trap)).
Definition rv (k : nat) (e : expr) : dom :=
  match e with
  | EPar u => match run (flat k u) [] with Some [v] => v | _ => None end
  | _ => dval m fb fw (simple_term e)
  end.
Lemma flat_run k acts : forall st st', performs (rv k) dhash dun (dbin trap) acts st = Some st' -> ~ In None st' ->
  run (flat_map (place (flat k)) acts) st = Some st'.
Proof.
  induction acts as [|a acts IH]; intros st st' P N; [exact P|]. cbn [performs] in P.
  destruct (perform _ _ _ _ a st) as [s|] eqn:E; [|discriminate]. pose proof (all_some _ _ _ _ _ _ P N) as N1. specialize (IH _ _ P N).
  cbn [flat_map]. rewrite performs_app. enough (run (place (flat k) a) st = Some s) as -> by exact IH. clear IH P.
  destruct a as [x|h|n|n p|q x|c]; cbn [place term_action performs]; try (cbn [perform] in *; rewrite E; reflexivity).
  - destruct x as [z|q n|u]; cbn [performs perform] in *; try (injection E as <-; reflexivity).
    injection E as <-. cbn [rv] in *. destruct (run (flat k u) []) as [[|v [|w r]]|] eqn:R; try (exfalso; apply N1; now left).
    exact (performs_below _ _ _ _ _ _ _ _ _ st R).
  - cbn [perform] in E. destruct h; try discriminate. injection E as <-. exfalso. apply N1. now left.
  - change (perform (dval m fb fw) dhash dun (dbin trap) (AOp q (map simple_term x)) st = Some s) in E. now rewrite E.
Qed.
Theorem flat_value n : forall t z, fine t -> (tree_max depth t < n)%nat -> expression_int trap m fb fw t = Some z ->
  exists f, run (flat n t) [] = Some [Some (z, f)] /\ (f = FromLit -> exists e, t = Atom e /\ (edge z = true -> edge_literal e)) /\
    (f = FromVar -> exists e, t = Atom e /\ bare e).
Proof.
  induction n as [|n IH]; intros t z F D H; [lia|]. destruct F as [t SH LT SW NE SUB]. cbn [flat].
  destruct (c32_accepted _ t SH LT) as [acts PA]. rewrite PA.
  destruct (c32_expression_value_partial _ _ (rv n) dhash dun (dbin trap) t acts (dbin_lawful trap) SH LT PA (SW _ PA)) as (v & V & P). specialize (P []).
  destruct (int_dom trap (operand_int trap m fb fw) (rv n) t z) as (f & V' & T); [|exact H|exact NE|].
  - intros e y IN OE. destruct e as [c|q c|u]; cbn [operand_int rv] in *.
    + exists FromLit. unfold dval, dlit. cbn [t_operand simple_term]. destruct (_ && _); [|discriminate]. injection OE as <-. split; [reflexivity|]. split; [|discriminate]. intros _. unfold edge. cbn [edge_literal]. lia.
    + exists FromVar. unfold dval, dvar. cbn [t_operand simple_term]. rewrite OE. split; [reflexivity|]. split; [discriminate|]. intros _. exact Logic.I.
    + pose proof (max_in depth t _ IN) as MX. cbn [depth] in MX. destruct (IH u y (SUB u IN)) as (g & R & G & GV); [lia|exact OE|].
      rewrite R. exists g. split; [reflexivity|]. split.
      * intros -> E. destruct (G eq_refl) as (e & -> & L). cbn [edge_literal]. auto.
      * intros ->. destruct (GV eq_refl) as (e & -> & L). exact L.
  - exists f. split; [|exact T]. rewrite V' in V. injection V as <-. apply flat_run; [exact P|]. intros [X|[]]. discriminate.
Qed.
Theorem flat_loads n : forall t z, fine t -> (tree_max depth t < n)%nat -> expression_int trap m fb fw t = Some z -> loads (flat n t) = tree_sum width t.
Proof.
  induction n as [|n IH]; intros t z F D H; [lia|]. destruct F as [t SH LT SW NE SUB]. cbn [flat].
  destruct (c32_accepted _ t SH LT) as [acts PA]. rewrite PA.
  destruct (c32_expression_value_partial _ _ (lw (flat n)) (fun _ => 1%nat) (fun _ _ v => v) _ t acts nat_lawful SH LT PA (SW _ PA)) as (v & V & P). specialize (P []).
  apply total_loads in P. cbn [total fold_right] in P. rewrite Nat.add_0_r in P. cbn [Nat.add] in P. rewrite <- P. rewrite (value_sum _ _ _ _ _ _ H V).
  apply sum_ext. intros e IN. destruct (int_operands _ _ _ _ H e IN) as [y OE]. destruct e as [c|q c|u]; try reflexivity. cbn [lw width].
  pose proof (max_in depth t _ IN) as MX. cbn [depth] in MX. eapply IH; [exact (SUB u IN)|lia|exact OE].
Qed.
End Values.
