(* Proofs about expressions, fourth part: from the text of a tree to the contexts. *)
From Coq Require Import String Permutation.
From Verif Require Import Base HashModel OpsModel VmModel EmitModel ExprModel ExprSpec ExprProofs ExprStack ExprRun.
Open Scope string_scope. Open Scope list_scope. Open Scope Z_scope.

Definition is_pre (t : optype) : bool := match t with Pre => true | _ => false end.
Definition is_post (t : optype) : bool := match t with Post => true | _ => false end.
Definition opq (f : optype -> bool) (s : string) : option oper := find (fun o => String.eqb s (o_tok o) && f (o_type o)) c_operations.
Definition dflt : oper := mkO "" 0 O_LAST true Post None.
Definition opof (f : optype -> bool) (s : string) : oper := match opq f s with Some q => q | None => dflt end.

Section Text.
Context {leaf : Type}.
Fixpoint tr (t : tree leaf) : itree leaf :=
  match t with
  | Atom l => A l
  | Prefix s t => U (opof is_pre s) [] (tr t)
  | Postfix s x t => U (opof is_post s) x (tr t)
  | Infix s l r => B (opof binary_type s) (tr l) (tr r)
  end.

Definition K (n : Z) : Z := nth (Z.to_nat n) [-1; 4; 7; 10; 12; 14; 18; 20; 22; 26; 28; 30; 32; 33] 0.
Lemma K_mono : forall m n, 0 <= m <= 13 -> 0 <= n <= 13 -> (m < n -> K m < K n) /\ (m <= n -> K m <= K n).
Proof.
  assert (H : forallb (fun m => forallb (fun n => implb (Z.of_nat m <? Z.of_nat n) (K (Z.of_nat m) <? K (Z.of_nat n))) (seq 0 14)) (seq 0 14) = true) by reflexivity.
  intros m n Hm Hn. assert (L : m < n -> K m < K n).
  { intro E. rewrite forallb_forall in H. specialize (H (Z.to_nat m) ltac:(apply in_seq; lia)).
    rewrite forallb_forall in H. specialize (H (Z.to_nat n) ltac:(apply in_seq; lia)).
    rewrite !Z2Nat.id in H by lia. replace (m <? n) with true in H by lia. cbn [implb] in H. lia. }
  split; [exact L|]. intro E. destruct (Z.eq_dec m n) as [->|]; [lia | specialize (L ltac:(lia)); lia].
Qed.

(* the tables agree *)
Definition start_found (s : string) : option oper := find (fun o => String.eqb s (o_tok o)) c_operations.
Definition later_found (s : string) : option oper := find (fun o => String.eqb s (o_tok o) && negb (is_pre (o_type o))) c_operations.
Definition pre_fact (p : string * opcode) : Prop := let (s, c) := p in exists q, opq is_pre s = Some q /\ start_found s = Some q /\
  o_code q = c /\ 6 <= key q <= 7 /\ o_type q = Pre.
Definition post_fact (p : string * opcode) : Prop := let (s, c) := p in exists q, opq is_post s = Some q /\ later_found s = Some q /\
  o_code q = c /\ key q = 4 /\ o_type q = Post /\ o_l2r q = true.
Definition in_fact (p : string * (Z * bool * opcode)) : Prop := let '(s, (n, d, c)) := p in exists q, opq binary_type s = Some q /\ later_found s = Some q /\
  o_code q = c /\ key q = K n /\ 1 <= n <= 13 /\ o_l2r q = d /\ binary_type (o_type q) = true /\ hashq q = String.eqb s "." /\ (c = O_HASH_PLACEHOLDER -> s = ".").
Lemma pre_facts : Forall pre_fact prefixes.
Proof. repeat (apply Forall_cons; [eexists; repeat split; try reflexivity; cbn; lia|]); apply Forall_nil. Qed.
Lemma post_facts : Forall post_fact postfixes.
Proof. repeat (apply Forall_cons; [eexists; repeat split; reflexivity|]); apply Forall_nil. Qed.
Lemma in_facts : Forall in_fact infixes.
Proof. repeat (apply Forall_cons; [eexists; repeat split; try reflexivity; try lia; try discriminate|]); apply Forall_nil. Qed.
Lemma look_in : forall {X} (l : list (string * X)) s v, look l s = Some v -> In (s, v) l.
Proof.
  intros X l s v H; unfold look in H. destruct (find _ l) as [[s' v']|] eqn:E; [|discriminate]. cbn in H; injection H as ->.
  apply find_some in E; destruct E as [E1 E2]; cbn in E2; apply String.eqb_eq in E2; subst; exact E1.
Qed.
Lemma opq_in : forall f s q, opq f s = Some q -> In q c_operations.
Proof. intros f s q H; unfold opq in H; apply find_some in H; tauto. Qed.
Lemma look_pre : forall s c, look prefixes s = Some c -> pre_fact (s, c).
Proof. intros s c H; apply look_in in H; revert H; apply (proj1 (Forall_forall _ _) pre_facts). Qed.
Lemma look_post : forall s c, look postfixes s = Some c -> post_fact (s, c).
Proof. intros s c H; apply look_in in H; revert H; apply (proj1 (Forall_forall _ _) post_facts). Qed.
Lemma look_infix : forall s v, look infixes s = Some v -> in_fact (s, v).
Proof. intros s c H; apply look_in in H; revert H; apply (proj1 (Forall_forall _ _) in_facts). Qed.

(* ---------------------------------------------------------------- the translated tree *)
Lemma shaped_good : forall t, shaped t -> good (tr t) /\ 0 <= looseness t <= 13 /\ lvl (tr t) <= K (looseness t) /\ legal (flat (tr t)).
Proof.
  induction t as [l|s t IH|s x t IH|s l IHl r IHr]; cbn [shaped tr looseness].
  - intros _. split; [exact I|]; split; [lia|]; split; [cbn; lia | repeat constructor].
  - intros (Hs & Hlo & Ht). destruct (IH Ht) as (G & R & L & Lg). destruct (look prefixes s) as [c|] eqn:E; [|congruence].
    destruct (look_pre s c E) as (q & Q1 & Q2 & Q3 & Q4 & Q5). unfold opof; rewrite Q1. cbn [good lvl flat]. rewrite Q5.
    pose proof (proj2 (K_mono (looseness t) 1 R ltac:(lia)) Hlo) as HK. change (K 1) with 4 in HK. change (K 2) with 7.
    split; [split; [exact G|split; lia]|]; split; [lia|]; split; [lia|]. constructor; [eapply opq_in; exact Q1 | exact Lg].
  - intros (Hs & Hlo & Ht). destruct (IH Ht) as (G & R & L & Lg). destruct (look postfixes s) as [c|] eqn:E; [|congruence].
    destruct (look_post s c E) as (q & Q1 & Q2 & Q3 & Q4 & Q5 & Q6). unfold opof; rewrite Q1. cbn [good lvl flat]. rewrite Q5.
    pose proof (proj2 (K_mono (looseness t) 1 R ltac:(lia)) Hlo) as HK. change (K 1) with 4 in *.
    split; [split; [exact G|split; [lia|split; [lia|exact Q6]]]|]; split; [lia|]; split; [lia|]. apply Forall_app; split; [exact Lg|]. constructor; [eapply opq_in; exact Q1 | constructor].
  - intros (Hl & Hr & Hdot & Hlv). destruct (IHl Hl) as (Gl & Rl & Ll & Lgl). destruct (IHr Hr) as (Gr & Rr & Lr & Lgr).
    destruct (look infixes s) as [[[n d] c]|] eqn:E; [|contradiction].
    destruct (look_infix s _ E) as (q & Q1 & Q2 & Q3 & Q4 & Q5 & Q6 & Q7 & Q8 & Q9). unfold opof; rewrite Q1. cbn [good lvl flat].
    pose proof (proj2 (K_mono n 13 ltac:(lia) ltac:(lia)) ltac:(lia)) as H13. change (K 13) with 33 in H13.
    pose proof (proj1 (K_mono 0 n ltac:(lia) ltac:(lia)) ltac:(lia)) as H0. change (K 0) with (-1) in H0.
    split; [|split; [lia|split; [lia|]]].
    + split; [exact Gl|]; split; [exact Gr|]; split; [lia|]; split; [exact Q7|]. rewrite Q6.
      pose proof (K_mono (looseness l) n Rl ltac:(lia)) as [M1 M2]. pose proof (K_mono (looseness r) n Rr ltac:(lia)) as [M3 M4].
      split; [destruct d; destruct Hlv as [V1 V2]; split; lia|].
      intro Hc. rewrite Q3 in Hc. destruct (Hdot (Q9 Hc)) as (y & ->). exists y; reflexivity.
    + apply Forall_app; split; [exact Lgl|]. constructor; [eapply opq_in; exact Q1 | exact Lgr].
Qed.
Lemma flat_text : forall t, shaped t -> length (flat (tr t)) = length (text t).
Proof.
  induction t as [l|s t IH|s x t IH|s l IHl r IHr]; cbn [shaped tr text]; intro H.
  - reflexivity.
  - destruct H as (Hs & _ & Ht). destruct (look prefixes s) as [c|] eqn:E; [|congruence].
    destruct (look_pre s c E) as (q & Q1 & Q2 & Q3 & Q4 & Q5). unfold opof; rewrite Q1. cbn [flat]; rewrite Q5. cbn; rewrite IH by exact Ht; reflexivity.
  - destruct H as (Hs & _ & Ht). destruct (look postfixes s) as [c|] eqn:E; [|congruence].
    destruct (look_post s c E) as (q & Q1 & Q2 & Q3 & Q4 & Q5 & Q6). unfold opof; rewrite Q1. cbn [flat]; rewrite Q5. rewrite !app_length, IH by exact Ht; reflexivity.
  - destruct H as (Hl & Hr & _). cbn [flat]. rewrite !app_length; cbn; rewrite IHl, IHr by assumption; reflexivity.
Qed.

(* ---------------------------------------------------------------- operatorFound *)
Lemma find_ext : forall {X} (f g : X -> bool) l, (forall x, f x = g x) -> find f l = find g l.
Proof. intros X f g l H; induction l as [|x l IH]; cbn; [reflexivity|]. rewrite H, IH; reflexivity. Qed.
Definition opens (e : option (ectx leaf)) : Prop :=
  match e with None => True | Some e => match e_kind e with KOp q _ => binary_type (o_type q) = true | _ => False end end.
Definition ends (e : ectx leaf) : Prop := match e_kind e with KLeaf _ => True | KOp q _ => o_type q = Post | _ => False end.
Lemma found_start : forall s p, opens p -> operator_found s p = start_found s.
Proof.
  intros s p H; unfold operator_found, start_found; apply find_ext; intro o. destruct (o_type o); rewrite ?andb_true_r; try reflexivity.
  destruct p as [e|]; [|rewrite andb_true_r; reflexivity]. cbn in H. destruct (e_kind e); try contradiction. rewrite H, andb_true_r; reflexivity.
Qed.
Lemma found_later : forall s e, ends e -> operator_found s (Some e) = later_found s.
Proof.
  intros s e H; unfold operator_found, later_found; apply find_ext; intro o. unfold ends in H. destruct (o_type o); cbn [is_pre negb]; try reflexivity.
  destruct (e_kind e); try contradiction; [reflexivity | rewrite H; reflexivity].
Qed.
(* what may come before a tree *)
Definition fits (p : option (ectx leaf)) (t : tree leaf) : Prop :=
  opens p \/ (looseness t <= 1 /\ match p with Some e => match e_kind e with KOp q _ => o_type q = Pre | _ => False end | None => False end).
Lemma fits_leaf : forall p t, fits p t -> match p with Some (mkE (KLeaf _) _) => False | _ => True end.
Proof. intros [[[|l|q x|] z]|] t [H|[_ H]]; cbn in *; auto. Qed.
Lemma contexts_text : forall t, shaped t -> forall rest p, fits p t ->
  exists e, ends e /\ contexts (text t ++ rest) p = cbind (contexts rest (Some e)) (fun es => COk (map ectx_of (flat (tr t)) ++ es)).
Proof.
  induction t as [l|s t IH|s x t IH|s l IHl r IHr]; cbn [shaped tr text]; intros H rest p Hf.
  - exists (mkE (KLeaf l) (-1)); split; [exact I|]. cbn [app contexts]. pose proof (fits_leaf _ _ Hf) as Hl.
    destruct p as [[[|l0|q x|] z]|]; try contradiction; reflexivity.
  - destruct H as (Hs & Hlo & Ht). destruct (look prefixes s) as [c|] eqn:E; [|congruence].
    destruct (look_pre s c E) as (q & Q1 & Q2 & Q3 & Q4 & Q5). unfold opof; rewrite Q1. cbn [flat]; rewrite Q5.
    cbn [app contexts]. destruct Hf as [Hf|[Hf _]]; [|cbn [looseness] in Hf; lia]. rewrite (found_start _ _ Hf), Q2. cbn [cbind].
    destruct (IH Ht rest (Some (mkE (KOp q []) (-1)))) as (e & He & Ec); [right; split; [exact Hlo | exact Q5]|].
    exists e; split; [exact He|]. rewrite Ec. destruct (contexts rest (Some e)); reflexivity.
  - destruct H as (Hs & Hlo & Ht). destruct (look postfixes s) as [c|] eqn:E; [|congruence].
    destruct (look_post s c E) as (q & Q1 & Q2 & Q3 & Q4 & Q5 & Q6). unfold opof; rewrite Q1. cbn [flat]; rewrite Q5.
    rewrite <- app_assoc; cbn [app].
    destruct (IH Ht (ISym s x :: rest) p) as (e & He & Ec); [destruct Hf as [Hf|[_ Hf]]; [now left | right; split; [exact Hlo | exact Hf]]|].
    exists (mkE (KOp q x) (-1)); split; [exact Q5|]. rewrite Ec. cbn [contexts]. rewrite (found_later _ _ He), Q2. cbn [cbind].
    destruct (contexts rest (Some (mkE (KOp q x) (-1)))); cbn; try reflexivity. rewrite map_app, <- app_assoc; reflexivity.
  - destruct H as (Hl & Hr & Hdot & Hlv). destruct (look infixes s) as [[[n d] c]|] eqn:E; [|contradiction].
    destruct (look_infix s _ E) as (q & Q1 & Q2 & Q3 & Q4 & Q5 & Q6 & Q7 & Q8 & Q9). unfold opof; rewrite Q1. cbn [flat].
    rewrite <- app_assoc; cbn [app].
    destruct (IHl Hl (ISym s [] :: text r ++ rest) p) as (e & He & Ec).
    { destruct Hf as [Hf|[Hf1 Hf]]; [now left | right; split; [|exact Hf]].
      cbn [looseness] in Hf1; rewrite E in Hf1. destruct d; lia. }
    destruct (IHr Hr rest (Some (mkE (KOp q []) (-1)))) as (e2 & He2 & Ec2); [left; exact Q7|].
    exists e2; split; [exact He2|]. rewrite Ec. cbn [contexts]. rewrite (found_later _ _ He), Q2. cbn [cbind]. rewrite Ec2.
    destruct (contexts rest (Some e2)); cbn; try reflexivity. rewrite map_app, <- app_assoc; reflexivity.
Qed.
Lemma parse_text : forall t, shaped t -> parse_expression (text t) = resolve_expression (map ectx_of (flat (tr t))).
Proof.
  intros t H. unfold parse_expression. destruct (contexts_text t H [] None) as (e & _ & E); [left; exact I|].
  rewrite app_nil_r in E. rewrite E. cbn [contexts cbind]. rewrite app_nil_r; reflexivity.
Qed.

(* ---------------------------------------------------------------- values *)
Context {V : Type} (val hash : leaf -> V) (un : opcode -> list leaf -> V -> V) (bin : opcode -> V -> V -> V).
Lemma value_tr : forall t, shaped t -> value val hash un bin t = Some (ieval val hash un bin (tr t)).
Proof.
  induction t as [l|s t IH|s x t IH|s l IHl r IHr]; cbn [shaped tr value ieval]; intro H.
  - reflexivity.
  - destruct H as (Hs & _ & Ht). destruct (look prefixes s) as [c|] eqn:E; [|congruence].
    destruct (look_pre s c E) as (q & Q1 & Q2 & Q3 & Q4 & Q5). unfold opof; rewrite Q1. rewrite (IH Ht). cbn. rewrite Q3; reflexivity.
  - destruct H as (Hs & _ & Ht). destruct (look postfixes s) as [c|] eqn:E; [|congruence].
    destruct (look_post s c E) as (q & Q1 & Q2 & Q3 & Q4 & Q5 & Q6). unfold opof; rewrite Q1. rewrite (IH Ht). cbn. rewrite Q3; reflexivity.
  - destruct H as (Hl & Hr & Hdot & Hlv). destruct (look infixes s) as [[[n d] c]|] eqn:E; [|contradiction].
    destruct (look_infix s _ E) as (q & Q1 & Q2 & Q3 & Q4 & Q5 & Q6 & Q7 & Q8 & Q9). unfold opof; rewrite Q1. rewrite (IHl Hl).
    cbn [option_map snd]. rewrite Q8. destruct (String.eqb s ".") eqn:Es.
    + apply String.eqb_eq in Es. destruct (Hdot Es) as (y & ->). cbn. rewrite Q3; reflexivity.
    + rewrite (IHr Hr). cbn. rewrite Q3; reflexivity.
Qed.
Lemma com_table : Forall (fun q => o_type q = Commute -> In (o_code q) commuting /\ op_eqb (o_code q) O_HASH_PLACEHOLDER = false) c_operations.
Proof.
  repeat (apply Forall_cons; [cbn [o_type o_code]; intro H; first [discriminate H | split; [repeat (first [left; reflexivity | right]) | reflexivity]]|]).
  apply Forall_nil.
Qed.
Lemma alt_table : Forall (fun q => match o_alt q with Some c => In (c, o_code q) mirrored | None => True end) c_operations.
Proof. repeat (apply Forall_cons; [cbn; first [exact I | repeat (first [left; reflexivity | right])]|]); apply Forall_nil. Qed.
Theorem expression_text : lawful bin -> forall t, shaped t -> (length (text t) <= 255)%nat ->
  match parse_expression (text t) with
  | COk a => (forall n m, In (ASwap2 n m) a -> n <= 2) \/ (forall v w : V, v = w) ->
             (exists v, value val hash un bin t = Some v /\ performs val hash un bin a [] = Some [v]) /\
             (isimple (tr t) -> forall n m, In (ASwap2 n m) a -> n <= 2)
  | _ => ~ (forall v w : V, v = w)
  end.
Proof.
  intros [Lc Lm] t H Hl. rewrite (parse_text t H). destruct (shaped_good t H) as (G & _ & _ & Lg).
  assert (Hcom : forall q, In q c_operations -> o_type q = Commute -> (forall x y, bin (o_code q) x y = bin (o_code q) y x) /\ op_eqb (o_code q) O_HASH_PLACEHOLDER = false).
  { intros q Hq Ht. destruct (proj1 (Forall_forall _ _) com_table q Hq Ht) as [C1 C2]. split; [intros; apply Lc; exact C1 | exact C2]. }
  assert (Halt : forall q c, In q c_operations -> o_alt q = Some c -> forall x y, bin c x y = bin (o_code q) y x).
  { intros q c Hq Hc x y. pose proof (proj1 (Forall_forall _ _) alt_table q Hq) as C; cbn beta in C. rewrite Hc in C. apply Lm; exact C. }
  pose proof (expression_run val hash un bin Hcom Halt (tr t) G Lg ltac:(rewrite flat_text by exact H; exact Hl)) as R.
  destruct (resolve_expression (map ectx_of (flat (tr t)))) as [a| |]; [|exact R|exact R].
  intro N. destruct (R N) as [R1 R2]. split; [|exact R2].
  exists (ieval val hash un bin (tr t)). split; [apply value_tr; exact H | exact R1].
Qed.
End Text.
