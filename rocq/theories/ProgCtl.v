(* Proofs for C57: the statements of a program satisfy what the compiler of statements (C35) asks of the
   code of their expressions. *)
From Coq Require Import String.
From Verif Require Import Base BaseLemmas HashModel FloatModel OpsModel VmModel VmSpec EmitModel CcModel JumpSpec LinkModel LinkSpec JumpProofs ExprModel ExprEmit ExprSpec ExprNest ExprText ExprStack ExprProps
  OpsProofs2 FuseSpec FuseRules FuseChunks FuseProofs EvalSpec EvalProofs EvalRun EvalNest EvalBlock ExprAssign ProgSpec ProgCode.
From Verif Require CtlSpec LayProofs.
Open Scope string_scope. Open Scope list_scope. Open Scope Z_scope.
Notation inert := CtlSpec.inert. Notation ctx_ok := CtlSpec.ctx_ok.

(* ---------------------------------------------------------------- the block of an expression *)
Record neat (b : bcode) : Prop := mkNeat {
  ne_pure : pure b; ne_some : b_all b <> []; ne_ops : Forall plain_op (b_ops b);
  ne_one : length (b_all b) = 1%nat -> b_ops b = [O_LiteralZero] /\ b_all b = [byte_of O_LiteralZero] }.
Lemma block_neat n t b : fine t -> arithmetic t -> (tree_sum width t <= 255)%nat -> (tree_max depth t < n)%nat -> block append_bytecode n t = COk b -> neat b.
Proof.
  intros F A W D H. pose proof (flat_sound n t F A D W) as S. pose proof (block_shape _ _ _ H S) as [P O N NE L].
  destruct (flat_first n t F A D) as (x & r & E & U). rewrite E in *. constructor; auto.
  - apply NE. discriminate.
  - intros X. destruct (L X) as (o & EC & EO & EA). cbn [map] in EC. injection EC as EC _. rewrite EO, EA.
    assert (o = O_LiteralZero) as ->; [|auto]. clear - EC. cbn in EC. unfold chunk_of in EC. destruct x as [h [z|q k|c]]; cbn in EC.
    + unfold lit_chunk in EC. repeat match type of EC with (if ?x then _ else _) = _ => destruct x end; cbv [wr_pack16 wr_pack32] in EC; congruence.
    + destruct q; congruence.
    + congruence.
Qed.
Lemma neat_append b c : neat c -> append_bytecode b c = COk (set_code b (b_all b ++ b_all c) (b_ops c ++ b_ops b)).
Proof.
  intros [P S O L]. destruct (Nat.eq_dec (length (b_all c)) 1) as [E|E].
  - destruct (L E) as [EO EA]. rewrite (append_zero b c _ P EA EO), push_zero, EA, EO. reflexivity.
  - apply append_pure; auto. destruct (b_ops c); [exact I|exact (Forall_inv O)].
Qed.
Lemma pure_plain b : pure b -> CtlSpec.plain b.
Proof. intros ->. now split. Qed.
Lemma pure_sites b l : pure b -> CtlSpec.sites_within b l.
Proof. intros ->. repeat split; constructor. Qed.

Definition load_op (q : space) : opcode := match q with SL => O_LoadFromLocal | SG => O_LoadFromGlobal end.
Lemma load_of_op q : load_of (load_op q) = Some q.
Proof. now destruct q. Qed.
(* what the operator c does to the variable *)
Definition assigned_by (c : opcode) (q : space) (n : Z) (b : bcode) : bcode :=
  set_code b (b_all b ++ [byte_of (load_op q); u8 n; byte_of c]) (c :: load_op q :: b_ops b).
Notation assigned := (assigned_by O_Assign).
Lemma emit_all_app app blk l1 : forall l2 b, emit_all_nested app blk (l1 ++ l2) b = (b1 <~ emit_all_nested app blk l1 b ;; emit_all_nested app blk l2 b1).
Proof.
  induction l1 as [|a l IH]; intros l2 b; [reflexivity|]. cbn [List.app emit_all_nested]. destruct (emit_nested app blk a b); cbn [cbind]; auto.
Qed.
Definition assign_op : oper := match later_found "=" with Some q => q | None => mkO "" 0 O_Assign true Binary None end.
Lemma setting_parse q n e : fine e -> looseness e <= 11 ->
  exists acts, parse_expression (text e) = COk acts /\ parse_expression (text (setting_tree (Sets q n e))) = COk (acts ++ [ALoad (EVar q n); AOp assign_op []]).
Proof.
  intros F L. destruct F as [t SH LT SW NE SUB]. destruct (c32_accepted _ t SH LT) as [acts PA]. exists acts. split; [exact PA|].
  unfold setting_tree. apply assign_parse; auto; try reflexivity. discriminate.
Qed.
Lemma assign_emit q n b : emit_action (ALoad (simple_term (EVar q n))) b = COk (set_code b (b_all b ++ [byte_of (load_op q); u8 n]) (load_op q :: b_ops b)).
Proof.
  cbn. unfold push_opcode. assert (F : fuse (load_op q) (b_ops b) (rev (b_all b)) = NoFuse) by (destruct q, (b_ops b); reflexivity).
  destruct q; cbn [load_op] in *; rewrite F; cbn [cbind]; unfold push_data; cbn [b_all b_ops set_code]; rewrite <- app_assoc; reflexivity.
Qed.
(* the operators += and the like *)
Definition change_op (s : string) : oper := match later_found s with Some q => q | None => assign_op end.
Lemma change_known s : look (int_changes true) s <> None -> exists p, later_found s = Some (change_op s) /\ o_prec (change_op s) = 16 /\ o_type (change_op s) = Binary /\
  pop_form (o_code (change_op s)) = Some p.
Proof.
  unfold look, int_changes. cbn [find fst]. repeat (match goal with |- context [String.eqb s ?u] => destruct (String.eqb_spec s u) as [->|_] end; [intros _; eexists; repeat split; reflexivity|]). intros H. exfalso. now apply H.
Qed.
Lemma change_parse s q n e : look (int_changes true) s <> None -> fine e -> looseness e <= 11 ->
  exists acts, parse_expression (text e) = COk acts /\ parse_expression (text (setting_tree (Changes s q n e))) = COk (acts ++ [ALoad (EVar q n); AOp (change_op s) []]).
Proof.
  intros K F L. destruct (change_known _ K) as (p & K1 & K2 & K3 & K4). destruct F as [t SH LT SW NE SUB]. destruct (c32_accepted _ t SH LT) as [acts PA]. exists acts. split; [exact PA|].
  unfold setting_tree. apply assign_parse; auto. intros X. rewrite X in K4. discriminate.
Qed.
Definition step_code (s : string) (after : bool) : opcode :=
  if String.eqb s "++" then if after then O_PostIncrement else O_PreIncrement else if after then O_PostDecrement else O_PreDecrement.
Lemma step_parse s after q n : look int_steps s <> None -> exists o, o_code o = step_code s after /\
  parse_expression (text (setting_tree (Steps s after q n))) = COk [ALoad (EVar q n); AOp o []].
Proof.
  unfold look, int_steps. cbn [find fst]. repeat (match goal with |- context [String.eqb s ?u] => destruct (String.eqb_spec s u) as [->|_] end; [intros _; destruct after, q; eexists; (split; [|reflexivity]); reflexivity|]). intros H. exfalso. now apply H.
Qed.
(* the opcodes of these operators: none is fused with the load of the variable *)
Inductive setter : opcode -> Prop :=
| SetAssign : setter O_Assign
| SetChange : forall c p, pop_form c = Some p -> setter c
| SetStep : forall s after, setter (step_code s after).
Lemma assign_emit2 o q b r : setter (o_code o) -> b_ops b = load_op q :: r -> emit_action (AOp o []) b = COk (set_code b (b_all b ++ [byte_of (o_code o)]) (o_code o :: b_ops b)).
Proof.
  intros S E. unfold emit_action. generalize dependent (o_code o). intros c S.
  assert (K : fuse c (b_ops b) (rev (b_all b)) = NoFuse /\ push_opcode c empty_bc = COk (set_code empty_bc [byte_of c] [c])).
  { rewrite E. destruct S as [|c p H|s after]; [destruct q; split; reflexivity|destruct c; try discriminate H; destruct q; split; reflexivity|].
    unfold step_code. destruct (String.eqb s "++"), after, q; split; reflexivity. }
  destruct K as [K1 K2]. cbn [map fold_left emit_all]. rewrite K2. cbn [cbind]. 
  unfold append_bytecode. rewrite merge_empty. cbn [set_code empty_bc b_ops b_all b_gotos last].
  rewrite E, load_of_op. unfold push_opcode. rewrite <- E, K1. rewrite E.
  destruct S as [|c p H|s after]; [destruct q; reflexivity|destruct c; try discriminate H; destruct q; reflexivity|].
  unfold step_code. destruct (String.eqb s "++"), after, q; reflexivity.
Qed.
Lemma setter_emit app blk o q n b : setter (o_code o) -> emit_all_nested app blk [ALoad (EVar q n); AOp o []] b = COk (assigned_by (o_code o) q n b).
Proof.
  intros S. cbn [emit_all_nested emit_nested]. cbn [term_action map]. rewrite assign_emit. cbn [cbind]. rewrite (assign_emit2 o q _ (b_ops b) S) by reflexivity.
  cbn [cbind]. unfold assigned_by. destruct b; cbn. now rewrite <- app_assoc.
Qed.
Definition setter_of (a : setting) : opcode :=
  match a with Sets _ _ _ => O_Assign | Changes s _ _ _ => o_code (change_op s) | Steps s after _ _ => step_code s after end.
Theorem setting_block app q n e k b : fine e -> looseness e <= 11 -> block app (S k) (setting_tree (Sets q n e)) = COk b ->
  exists b0, block app (S k) e = COk b0 /\ b = assigned q n b0.
Proof.
  intros F L H. destruct (setting_parse q n e F L) as (acts & P1 & P2). cbn [block] in *. rewrite P1. rewrite P2 in H. cbn [cbind] in *.
  rewrite emit_all_app in H. destruct (emit_all_nested app (block app k) acts empty_bc) as [b0| |]; try discriminate. cbn [cbind] in H. exists b0. split; [reflexivity|].
  rewrite setter_emit in H by apply SetAssign. now injection H as <-.
Qed.
Theorem change_block app s q n e k b : look (int_changes true) s <> None -> fine e -> looseness e <= 11 -> block app (S k) (setting_tree (Changes s q n e)) = COk b ->
  exists b0, block app (S k) e = COk b0 /\ b = assigned_by (o_code (change_op s)) q n b0.
Proof.
  intros K F L H. destruct (change_parse s q n e K F L) as (acts & P1 & P2). cbn [block] in *. rewrite P1. rewrite P2 in H. cbn [cbind] in *.
  rewrite emit_all_app in H. destruct (emit_all_nested app (block app k) acts empty_bc) as [b0| |]; try discriminate. cbn [cbind] in H. exists b0. split; [reflexivity|].
  destruct (change_known _ K) as (p & _ & _ & _ & K4). rewrite setter_emit in H by exact (SetChange _ _ K4). now injection H as <-.
Qed.
Theorem step_block app s after q n k : look int_steps s <> None -> block app (S k) (setting_tree (Steps s after q n)) = COk (assigned_by (step_code s after) q n empty_bc).
Proof.
  intros K. destruct (step_parse s after q n K) as (o & EO & P). cbn [block]. rewrite P. cbn [cbind]. rewrite setter_emit by (rewrite EO; apply SetStep). now rewrite EO.
Qed.

(* ---------------------------------------------------------------- x = e; *)
(* with the cache of the code in front added *)
Lemma assign_pop_app s o0 ops cops x1 x2 x3 rl ops' rl' y : ctx_ok cops ->
  fuse_assign_pop s ops o0 (load_op s) (x1 :: x2 :: x3 :: rl) = Fuse ops' rl' ->
  exists ops'', fuse_assign_pop s (ops ++ cops) o0 (load_op s) ((x1 :: x2 :: x3 :: rl) ++ y) = Fuse ops'' (rl' ++ y) /\
    (ops'' = [] \/ exists r, ops'' = O_AssignToGlobalAndPop :: r).
Proof.
  intros CO. destruct ops as [|o r].
  - cbn [fuse_assign_pop List.app]. intros [= <- <-]. destruct cops as [|c cops].
    + eexists. cbn. eauto.
    + cbn in CO. destruct c; try discriminate CO; try (eexists; cbn; eauto; fail). destruct s; eexists; cbn; eauto.
  - cbn [List.app]. destruct o; cbn [fuse_assign_pop]; intros H;
    try (injection H as <- <-; eexists; cbn; eauto; fail);
    try (cases H; injection H as <- <-; eexists; cbn; eauto; fail).
Qed.
Lemma assign_pop_size s ops o0 o1 x1 x2 x3 rl ops' rl' : fuse_assign_pop s ops o0 o1 (x1 :: x2 :: x3 :: rl) = Fuse ops' rl' -> (2 <= length rl')%nat.
Proof.
  destruct ops as [|o r]; [intros [= <- <-]; cbn; lia|]. destruct o; cbn [fuse_assign_pop]; intros H;
    try (injection H as <- <-; cbn; lia); try (cases H; injection H as <- <-; cbn; lia).
Qed.
Lemma pop_assigned q n b : push_opcode O_PopOne (assigned q n b) =
  match fuse_assign_pop q (b_ops b) O_Assign (load_op q) (byte_of O_Assign :: u8 n :: byte_of (load_op q) :: rev (b_all b)) with
  | Fuse ops rl => COk (set_code b (rev rl) ops) | NoFuse => COk (set_code b ((b_all b ++ [byte_of (load_op q); u8 n; byte_of O_Assign]) ++ [byte_of O_PopOne]) (O_PopOne :: b_ops (assigned q n b))) | FuseUB => CUB
  end.
Proof.
  unfold push_opcode, assigned_by. cbn [b_ops b_all set_code fuse fuse_pop]. rewrite load_of_op, rev_app_distr. cbn [rev List.app].
  destruct (fuse_assign_pop _ _ _ _ _); reflexivity.
Qed.
(* the code of x = e; *)
Definition quiet (o : opcode) : bool :=
  match o with
  | O_AssignToGlobalAndPop | O_SubtractAssignAndPop | O_AddAssignAndPop | O_ModAssignAndPop | O_MultiplyAssignAndPop | O_DivideAssignAndPop
  | O_ORAssignAndPop | O_ANDAssignAndPop | O_XORAssignAndPop | O_RightShiftAssignAndPop | O_LeftShiftAssignAndPop => true
  | _ => false
  end.
Definition set_out (o : list opcode) : Prop := match o with [] => True | c :: _ => quiet c = true end.
Lemma set_out_ctx o : set_out o -> ctx_ok o.
Proof. destruct o as [|[] r]; try discriminate; reflexivity || (intros _; exact I). Qed.
Lemma set_out_indexes o : set_out o -> match o with c :: _ => indexes c = false | [] => True end.
Proof. destruct o as [|[] r]; try discriminate; reflexivity || (intros _; exact I). Qed.
Lemma no_nofuse s ops o0 o1 rl : fuse_assign_pop s ops o0 o1 rl <> NoFuse.
Proof.
  unfold fuse_assign_pop. destruct ops as [|o r]; [repeat match goal with |- match ?x with _ => _ end <> _ => destruct x end; discriminate|].
  destruct o; repeat match goal with |- match ?x with _ => _ end <> _ => destruct x end; discriminate.
Qed.
(* code to which the operator c is applied *)
Inductive settable : opcode -> bcode -> Prop :=
| SA_assign : forall b, neat b -> settable O_Assign b
| SA_change : forall c p b, pop_form c = Some p -> neat b -> settable c b
| SA_step : forall s after, settable (step_code s after) empty_bc.
Definition step_form (q : space) (s : string) : opcode := if String.eqb s "++" then lit_to q O_IncGlobal O_IncLocal else lit_to q O_DecGlobal O_DecLocal.
Lemma settable_pure c b : settable c b -> pure b.
Proof. intros [? N|? ? ? _ N|? ?]; [apply N|apply N|reflexivity]. Qed.
Lemma settable_plain c b : settable c b -> indexes c = false.
Proof. intros [? N|? p ? H N|s after]; [reflexivity|destruct c0; try discriminate H; reflexivity|]. unfold step_code. now destruct (String.eqb s "++"), after. Qed.
Lemma pop_changed c p q n b : pop_form c = Some p -> push_opcode O_PopOne (assigned_by c q n b) = COk (set_code b (b_all b ++ [byte_of (load_op q); u8 n; byte_of p]) (p :: load_op q :: b_ops b)).
Proof.
  intros H. unfold push_opcode, assigned_by. cbn [b_ops b_all set_code]. rewrite rev_app_distr. cbn [rev List.app].
  destruct c; try discriminate H; injection H as <-; cbn [fuse fuse_pop pop_form rev]; rewrite rev_involutive, <- !app_assoc; reflexivity.
Qed.
Lemma pop_stepped s after q n b : push_opcode O_PopOne (assigned_by (step_code s after) q n b) = COk (set_code b (b_all b ++ [byte_of (step_form q s); u8 n]) []).
Proof.
  unfold push_opcode, assigned_by. cbn [b_ops b_all set_code]. rewrite rev_app_distr. cbn [rev List.app].
  unfold step_code, step_form. destruct (String.eqb s "++"), after; cbn [fuse fuse_pop]; unfold fuse_incdec_pop; destruct q; cbn [load_op load_of lit_to rev]; rewrite rev_involutive, <- !app_assoc; reflexivity.
Qed.
Lemma setting_pop c q n b b1 ctx : settable c b -> push_opcode O_PopOne (assigned_by c q n b) = COk b1 -> ctx_ok (b_ops ctx) ->
  pure b1 /\ (2 <= length (b_all b1))%nat /\ set_out (b_ops b1) /\
  exists b2, (b0 <~ append_bytecode ctx (assigned_by c q n b) ;; push_opcode O_PopOne b0) = COk b2 /\ b_all b2 = b_all ctx ++ b_all b1 /\ set_out (b_ops b2).
Proof.
  intros SB H CO.
  assert (AP : append_bytecode ctx (assigned_by c q n b) = COk (assigned_by c q n (set_code ctx (b_all ctx ++ b_all b) (b_ops b ++ b_ops ctx)))).
  { rewrite append_pure; [unfold assigned_by; cbn; now rewrite app_assoc|apply pure_code, (settable_pure _ _ SB)|exact (settable_plain _ _ SB)|]. cbn. rewrite app_length. cbn. lia. }
  rewrite AP. cbn [cbind]. destruct SB as [b NB|c p b PF NB|s after].
  - rewrite pop_assigned in H. destruct (fuse_assign_pop _ _ _ _ _) as [ops rl| |] eqn:E; [|now apply no_nofuse in E|discriminate]. injection H as <-.
    pose proof (assign_pop_size _ _ _ _ _ _ _ _ _ _ E) as SZ.
    assert (OUT : forall o, o = [] \/ (exists r, o = O_AssignToGlobalAndPop :: r) -> set_out o) by (intros o [->|[r ->]]; [exact I|reflexivity]).
    destruct (assign_pop_app q O_Assign (b_ops b) [] _ _ _ _ _ _ [] I E) as (o1 & E1 & S1). rewrite !app_nil_r in E1. assert (EO : o1 = ops) by congruence. subst o1.
    split; [apply pure_code, NB|]. split; [cbn; now rewrite rev_length|]. split; [apply OUT, S1|].
    rewrite pop_assigned. cbn [b_ops b_all set_code]. rewrite rev_app_distr.
    destruct (assign_pop_app q O_Assign (b_ops b) (b_ops ctx) _ _ _ _ _ _ (rev (b_all ctx)) CO E) as (o2 & E2 & S2). cbn [List.app] in E2. rewrite E2.
    eexists. split; [reflexivity|]. cbn. rewrite rev_app_distr, rev_involutive. auto.
  - rewrite (pop_changed _ _ _ _ _ PF) in H. injection H as <-. rewrite (pop_changed _ _ _ _ _ PF). assert (Q : quiet p = true) by (destruct c; try discriminate PF; injection PF as <-; reflexivity).
    split; [apply pure_code, NB|]. split; [cbn; rewrite app_length; cbn; lia|]. split; [exact Q|]. eexists. split; [reflexivity|]. cbn. rewrite <- app_assoc. auto.
  - rewrite pop_stepped in H. injection H as <-. rewrite pop_stepped. split; [reflexivity|]. split; [cbn; lia|]. split; [exact I|]. eexists. split; [reflexivity|]. cbn. rewrite app_nil_r. auto.
Qed.
Lemma set_out_ends b : set_out (b_ops b) -> CtlSpec.ends_plain b.
Proof. unfold set_out, CtlSpec.ends_plain, last_op_is. destruct (b_ops b) as [|[] r]; try discriminate; auto. Qed.
(* the code e of a setting and the code P of the statement *)
Definition sets (e : bcode) (P : list Z) : Prop :=
  exists c q n b b1, settable c b /\ e = assigned_by c q n b /\ push_opcode O_PopOne e = COk b1 /\ P = b_all b1.
Lemma sets_some e P : sets e P -> (2 <= length P)%nat.
Proof. intros (c & q & n & b & b1 & NB & -> & H & ->). now destruct (setting_pop _ _ _ _ _ empty_bc NB H I) as (_ & S & _). Qed.
Lemma sets_pure e P : sets e P -> pure e.
Proof. intros (c & q & n & b & b1 & NB & -> & _). apply pure_code, (settable_pure _ _ NB). Qed.
Lemma sets_pops e P : sets e P -> CtlSpec.pops e P.
Proof.
  intros S. pose proof (sets_pure _ _ S) as PU. split; [now apply pure_plain|]. split; [now apply pure_sites|]. intros ctx CO.
  destruct S as (c & q & n & b & b1 & NB & -> & H & ->). destruct (setting_pop _ _ _ _ _ ctx NB H CO) as (_ & _ & _ & b2 & E & A & O).
  exists b2. split; [exact E|]. split; [exact A|]. split; [now apply set_out_ctx|now apply set_out_ends].
Qed.
Lemma append_set ctx b : pure b -> set_out (b_ops b) -> length (b_all b) <> 1%nat -> append_bytecode ctx b = COk (set_code ctx (b_all ctx ++ b_all b) (b_ops b ++ b_ops ctx)).
Proof. intros P S L. apply append_pure; auto. now apply set_out_indexes. Qed.
Lemma out_app a b : set_out a -> ctx_ok b -> ctx_ok (a ++ b).
Proof. destruct a as [|c a]; [auto|]. intros H _. exact (set_out_ctx (c :: a) H). Qed.
Lemma sets_clause e P : sets e P -> CtlSpec.clause e P.
Proof.
  intros S. pose proof (sets_pure _ _ S) as PU. split; [now apply pure_plain|]. split; [now apply pure_sites|].
  destruct S as (c & q & n & b & b1 & NB & -> & H & ->). exists b1. split; [exact H|]. intros ctx CO.
  destruct (setting_pop _ _ _ _ _ ctx NB H CO) as (P1 & L1 & O1 & _). rewrite append_set by (auto; lia). eexists. split; [reflexivity|]. split; [reflexivity|]. now apply out_app.
Qed.
Lemma sets_post l Ps : Forall2 sets l Ps -> forall post, pure post -> set_out (b_ops post) -> length (b_all post) <> 1%nat ->
  exists b, CtlSpec.post_block l post = COk b /\ pure b /\ set_out (b_ops b) /\ length (b_all b) <> 1%nat /\ b_all b = b_all post ++ concat Ps.
Proof.
  induction 1 as [|e P l Ps S _ IH]; intros post PP PO PL; cbn [CtlSpec.post_block concat].
  - exists post. rewrite app_nil_r. auto.
  - pose proof (sets_some _ _ S) as SZ. destruct S as (c & q & n & b & b1 & NB & -> & H & ->). rewrite H. cbn [cbind].
    destruct (setting_pop _ _ _ _ _ post NB H (set_out_ctx _ PO)) as (P1 & L1 & O1 & _). rewrite append_set by (auto; lia). cbn [cbind].
    destruct (IH (set_code post (b_all post ++ b_all b1) (b_ops b1 ++ b_ops post))) as (b' & E & P' & O' & L' & A').
    + now apply pure_code.
    + cbn. destruct (b_ops b1); [exact PO|exact O1].
    + cbn. rewrite app_length. lia.
    + exists b'. split; [exact E|]. split; [exact P'|]. split; [exact O'|]. split; [exact L'|]. rewrite A'. cbn. now rewrite <- app_assoc.
Qed.
Lemma sets_clauses l Ps : Forall2 sets l Ps -> CtlSpec.clauses l Ps.
Proof.
  intros S. split; [induction S; constructor; auto; now apply sets_clause|].
  destruct (sets_post _ _ S empty_bc) as (b & E & P & O & L & A); [reflexivity|exact I|discriminate|]. exists b. split; [exact E|]. intros ctx CO.
  rewrite append_set by auto. eexists. split; [reflexivity|]. cbn. rewrite A. split; [reflexivity|]. now apply out_app.
Qed.

(* ---------------------------------------------------------------- conditions *)
Lemma upd_app1 {A} (l y : list A) i x : (i < length l)%nat -> Base.upd (l ++ y) i x = Base.upd l i x ++ y.
Proof. revert i. induction l as [|a l IH]; intros i H; [cbn in H; lia|]. destruct i; [reflexivity|]. cbn. f_equal. apply IH. cbn in H. lia. Qed.
Lemma bz_inv ops rl ops' rl' : fuse O_BZ ops rl = Fuse ops' rl' -> exists o0 rest op k, ops = o0 :: rest /\ bz_form o0 = Some (op, k) /\ 0 <= k < lenZ rl /\
  ops' = op :: rest /\ rl' = Base.upd rl (Z.to_nat k) (byte_of op).
Proof.
  destruct ops as [|o0 rest]; [discriminate|]. cbn [fuse]. unfold fuse_bz. destruct (_ && _); [discriminate|]. destruct (bz_form o0) as [[op k]|] eqn:E; [|discriminate].
  destruct (k <? lenZ rl) eqn:L; [|discriminate]. intros [= <- <-]. exists o0, rest, op, k. split; [reflexivity|]. split; [exact E|]. split; [|auto].
  apply Z.ltb_lt in L. split; [|exact L]. clear L. destruct o0; try discriminate E; injection E as <- <-; lia.
Qed.
Lemma not_load o : inert o = true -> load_of o = None.
Proof. now destruct o. Qed.
Lemma inert_bz o : inert o = true -> is_compare o = false /\ bz_form o = None.
Proof. destruct o; try discriminate; auto. Qed.
Lemma bz_check o0 rest cops : ctx_ok cops ->
  match rest ++ cops with o1 :: o2 :: _ => match load_of o1, load_of o2 with Some SL, Some SL | Some SG, Some SG => true | _, _ => false end | _ => false end =
  match rest with o1 :: o2 :: _ => match load_of o1, load_of o2 with Some SL, Some SL | Some SG, Some SG => true | _, _ => false end | _ => false end /\ o0 = o0 :> opcode.
Proof.
  intros CO. split; [|reflexivity]. destruct rest as [|o1 [|o2 r]]; cbn [List.app].
  - destruct cops as [|c [|c2 r]]; try reflexivity. cbn in CO. now rewrite (not_load _ CO).
  - destruct cops as [|c r]; [reflexivity|]. cbn in CO. rewrite (not_load _ CO). destruct (load_of o1) as [[|]|]; reflexivity.
  - reflexivity.
Qed.
Lemma bz_app ops cops rl y : ctx_ok cops ->
  match fuse O_BZ ops rl with
  | Fuse ops' rl' => fuse O_BZ (ops ++ cops) (rl ++ y) = Fuse (ops' ++ cops) (rl' ++ y)
  | NoFuse => fuse O_BZ (ops ++ cops) (rl ++ y) = NoFuse
  | FuseUB => True
  end.
Proof.
  intros CO. destruct ops as [|o0 rest].
  - cbn [fuse List.app]. destruct cops as [|c r]; [reflexivity|]. cbn [fuse]. cbn in CO. destruct (inert_bz _ CO) as [C B]. unfold fuse_bz. rewrite C, B. reflexivity.
  - cbn [List.app fuse]. unfold fuse_bz. rewrite (proj1 (bz_check o0 rest cops CO)). destruct (_ && _); [exact I|].
    destruct (bz_form o0) as [[op k]|] eqn:E; [|reflexivity]. destruct (k <? lenZ rl) eqn:L; [|exact I]. rewrite lenZ_app'.
    assert (0 <= k) by (clear L; destruct o0; try discriminate E; injection E as <- <-; lia).
    assert (k <? lenZ rl + lenZ y = true) as -> by (apply Z.ltb_lt in L; apply Z.ltb_lt; pose proof (Zle_0_nat (length y)); unfold lenZ in *; lia).
    rewrite upd_app1; [reflexivity|]. apply Z.ltb_lt in L. unfold lenZ in L. lia.
Qed.
(* the branch instruction, after its operands *)
Lemma upd_cut {A} (l : list A) i x : (i < length l)%nat -> Base.upd l i x = firstn i l ++ x :: skipn (S i) l.
Proof. revert i. induction l as [|a l IH]; intros i H; [cbn in H; lia|]. destruct i; [reflexivity|]. cbn [Base.upd firstn skipn List.app]. rewrite IH by (cbn in H; lia). reflexivity. Qed.
Lemma branch_decodes o0 op k (d : list Z) A : bz_form o0 = Some (op, k) -> lenZ d = k -> exists kd t, jump_at (A ++ (byte_of op :: d) ++ [9; 9]) (lenZ A) = Some (kd, t, lenZ A + 1 + k + 2).
Proof.
  intros B L.
  assert (J : exists kd t, jump_at ((byte_of op :: d) ++ [9; 9]) 0 = Some (kd, t, 1 + k + 2)).
  { destruct o0; try discriminate B; injection B as <- <-; (destruct d as [|d1 [|d2 [|d3 d]]]; try (unfold lenZ in L; cbn [length] in L; lia)); eexists; eexists; vm_compute; reflexivity. }
  destruct J as (kd & t & J). exists kd, (lenZ A + t). rewrite <- (Z.add_0_r (lenZ A)) at 1. replace (lenZ A + 1 + k + 2) with (lenZ A + (1 + k + 2)) by lia.
  apply (LayProofs.jump_at_shift _ _ _ _ _ _ _ J). intros x X. apply LayProofs.nthZ_app2. lia.
Qed.
Lemma bz_decodes A : exists kd t, jump_at (A ++ [byte_of O_BZ] ++ [9; 9]) (lenZ A) = Some (kd, t, lenZ A + 3).
Proof.
  assert (J : exists kd t, jump_at ([byte_of O_BZ] ++ [9; 9]) 0 = Some (kd, t, 3)) by (eexists; eexists; vm_compute; reflexivity).
  destruct J as (kd & t & J). exists kd, (lenZ A + t). rewrite <- (Z.add_0_r (lenZ A)) at 1.
  apply (LayProofs.jump_at_shift _ _ _ _ _ _ _ J). intros x X. apply LayProofs.nthZ_app2. lia.
Qed.
Lemma bz_inert o0 op k : bz_form o0 = Some (op, k) -> inert op = true /\ source_back op = k /\ CtlSpec.ends_plain (set_code empty_bc [] [op]).
Proof. intros B. destruct o0; try discriminate B; injection B as <- <-; (split; [reflexivity|split; [reflexivity|repeat split]]). Qed.
Theorem neat_branches b b1 : neat b -> push_opcode O_BZ b = COk b1 -> exists k, CtlSpec.branches b (b_all b1) k.
Proof.
  intros NB H. pose proof (ne_pure _ NB) as PU. unfold push_opcode in H.
  assert (PRE : forall ctx, append_bytecode ctx b = COk (set_code ctx (b_all ctx ++ b_all b) (b_ops b ++ b_ops ctx))) by (intros; now apply neat_append).
  destruct (fuse O_BZ (b_ops b) (rev (b_all b))) as [ops' rl'| |] eqn:F; [| |discriminate]; injection H as <-; cbn [b_all set_code].
  - destruct (bz_inv _ _ _ _ F) as (o0 & rest & op & k & EO & B & K & EO' & ER). destruct (bz_inert _ _ _ B) as (IN & SB & EP).
    assert (LR : lenZ (rev rl') = lenZ (b_all b)) by (rewrite ER; unfold lenZ; rewrite rev_length, upd_length, rev_length; reflexivity).
    assert (LK : lenZ (rev (b_all b)) = lenZ (b_all b)) by (unfold lenZ; now rewrite rev_length). rewrite LK in K.
    assert (CUT : exists A d, rev rl' = A ++ byte_of op :: d /\ lenZ d = k).
    { rewrite ER, upd_cut by (rewrite rev_length; unfold lenZ in K; lia). rewrite rev_app_distr. cbn [rev]. rewrite <- app_assoc. eexists. eexists. split; [reflexivity|].
      unfold lenZ in *. rewrite rev_length, firstn_length, rev_length. lia. }
    destruct CUT as (A & d & EC & LD).
    exists (lenZ (rev rl') - k). split; [now apply pure_plain|]. split; [now apply pure_sites|]. split; [lia|]. split.
    + destruct (branch_decodes _ _ _ d A B LD) as (kd & t & J). exists kd, t. rewrite EC. rewrite lenZ_app'. change (byte_of op :: d) with ([byte_of op] ++ d) at 2 3. rewrite lenZ_app'. change (lenZ [byte_of op]) with 1.
      rewrite <- app_assoc. replace (lenZ A + (1 + lenZ d) - k - 1) with (lenZ A) by lia. rewrite J. do 3 f_equal. lia.
    + intros ctx CO. rewrite PRE. cbn [cbind]. unfold push_opcode. cbn [b_ops b_all set_code]. rewrite rev_app_distr.
      pose proof (bz_app (b_ops b) (b_ops ctx) (rev (b_all b)) (rev (b_all ctx)) CO) as X. rewrite F in X. rewrite X, EO'. eexists. exists op. eexists. split; [reflexivity|].
      cbn [b_all b_ops set_code List.app]. rewrite rev_app_distr, rev_involutive. split; [reflexivity|]. split; [reflexivity|]. split; [exact IN|]. split; [exact EP|]. rewrite SB. reflexivity.
  - exists (lenZ (b_all b) + 1). split; [now apply pure_plain|]. split; [now apply pure_sites|]. split; [unfold lenZ; lia|]. split.
    + destruct (bz_decodes (b_all b)) as (kd & t & J). exists kd, t. rewrite <- app_assoc, lenZ_app'. change (lenZ [byte_of O_BZ]) with 1.
      replace (lenZ (b_all b) + 1 - 1) with (lenZ (b_all b)) by lia. refine (eq_trans J _). change (lenZ [56]) with 1. replace (lenZ (b_all b) + 1 + 2) with (lenZ (b_all b) + 3) by lia. reflexivity.
    + intros ctx CO. rewrite PRE. cbn [cbind]. unfold push_opcode. cbn [b_ops b_all set_code]. rewrite rev_app_distr.
      pose proof (bz_app (b_ops b) (b_ops ctx) (rev (b_all b)) (rev (b_all ctx)) CO) as X. rewrite F in X. rewrite X. eexists. exists O_BZ. eexists. split; [reflexivity|].
      cbn [b_all b_ops set_code]. rewrite <- app_assoc. split; [reflexivity|]. split; [reflexivity|]. split; [reflexivity|]. split; [repeat split|]. rewrite lenZ_app'. cbn. lia.
Qed.

(* ---------------------------------------------------------------- values *)
Theorem neat_pushes b : neat b -> CtlSpec.pushes b (b_all b).
Proof.
  intros NB. pose proof (ne_pure _ NB) as PU. split; [now apply pure_plain|]. split; [now apply pure_sites|]. intros ctx _. rewrite neat_append by assumption.
  eexists. split; reflexivity.
Qed.
Definition ends_a_function (ret : opcode) : Prop := ret = O_Return \/ ret = O_GlobalStop.
Lemma neat_returns ret b b1 : ends_a_function ret -> neat b -> push_opcode ret b = COk b1 -> CtlSpec.returns ret (Some b) (b_all b1).
Proof.
  intros RR NB H. pose proof (ne_pure _ NB) as PU. split; [split; [now apply pure_plain|now apply pure_sites]|]. intros ctx CO. rewrite neat_append by assumption. cbn [cbind].
  unfold push_opcode in *. cbn [b_ops b_all set_code].
  assert (G : forall ret, (forall ops rl, fuse ret ops rl = NoFuse) -> inert ret = true -> op_eqb ret O_RelativeJump = false ->
     match fuse ret (b_ops b) (rev (b_all b)) with
     | Fuse ops rl => COk (set_code b (rev rl) ops) | NoFuse => COk (set_code b (b_all b ++ [byte_of ret]) (ret :: b_ops b)) | FuseUB => CUB end = COk b1 ->
     exists b0, match fuse ret (b_ops b ++ b_ops ctx) (rev (b_all ctx ++ b_all b)) with
      | Fuse ops rl => COk (set_code (set_code ctx (b_all ctx ++ b_all b) (b_ops b ++ b_ops ctx)) (rev rl) ops)
      | NoFuse => COk (set_code (set_code ctx (b_all ctx ++ b_all b) (b_ops b ++ b_ops ctx)) ((b_all ctx ++ b_all b) ++ [byte_of ret]) (ret :: b_ops b ++ b_ops ctx))
      | FuseUB => CUB end = COk b0 /\ b_all b0 = b_all ctx ++ b_all b1 /\ b_all b1 <> [] /\ ctx_ok (b_ops b0) /\ last_op_is O_RelativeJump b0 = false).
  { clear. intros ret F IN NR H. rewrite F in *. injection H as <-. eexists. split; [reflexivity|]. cbn. rewrite <- app_assoc. split; [reflexivity|]. split; [now destruct (b_all b)|]. split; [exact IN|exact NR]. }
  destruct RR as [-> | ->].
  - destruct (b_ops b) as [|o r] eqn:EO.
    + cbn [fuse] in H. injection H as <-. cbn [List.app]. assert (F : fuse O_Return (b_ops ctx) (rev (b_all ctx ++ b_all b)) = NoFuse).
      { destruct (b_ops ctx) as [|c r]; [reflexivity|]. cbn in CO. destruct c; try discriminate CO; reflexivity. }
      rewrite F. eexists. split; [reflexivity|]. cbn. rewrite <- app_assoc. split; [reflexivity|]. split; [now destruct (b_all b)|]. now split.
    + assert (Z : o = O_LiteralZero \/ o <> O_LiteralZero) by (destruct o; ((left; reflexivity) || (right; discriminate))). destruct Z as [->|NZ].
      * cbn [fuse List.app] in *. rewrite rev_app_distr. destruct (rev (b_all b)) as [|x rl]; [discriminate|]. injection H as <-. cbn [List.app]. eexists. split; [reflexivity|].
        cbn. rewrite rev_app_distr, rev_involutive, <- app_assoc. split; [reflexivity|]. split; [now destruct (rev rl)|]. now split.
      * cbn [fuse List.app] in *. assert (F : forall l : list Z, match o, l with O_LiteralZero, _ :: r0 => Fuse (O_ReturnZero :: r) (byte_of O_ReturnZero :: r0) | O_LiteralZero, _ => FuseUB | _, _ => NoFuse end = NoFuse) by (destruct o; try reflexivity; contradiction).
        assert (F2 : forall l : list Z, match o, l with O_LiteralZero, _ :: r0 => Fuse (O_ReturnZero :: r ++ b_ops ctx) (byte_of O_ReturnZero :: r0) | O_LiteralZero, _ => FuseUB | _, _ => NoFuse end = NoFuse) by (destruct o; try reflexivity; contradiction).
        rewrite F in H. rewrite F2. injection H as <-. eexists. split; [reflexivity|]. cbn. rewrite <- app_assoc. split; [reflexivity|]. split; [now destruct (b_all b)|]. now split.
  - apply G; auto. intros [|? ?] ?; reflexivity.
Qed.
Definition nothing_returned (ret : opcode) : list Z := match ret with O_Return => [byte_of O_ReturnZero] | _ => [byte_of O_LiteralZero; byte_of ret] end.
Lemma none_returns ret : ends_a_function ret -> CtlSpec.returns ret None (nothing_returned ret).
Proof.
  intros RR. split; [exact I|]. intros ctx CO. rewrite push_zero. cbn [cbind]. unfold push_opcode. cbn [b_ops b_all set_code]. rewrite rev_app_distr. destruct RR as [-> | ->]; cbn [fuse rev List.app compare_forms skip_form].
  - eexists. split; [reflexivity|]. cbn. rewrite rev_involutive. split; [reflexivity|]. split; [discriminate|]. now split.
  - eexists. split; [reflexivity|]. cbn. rewrite <- app_assoc. split; [reflexivity|]. split; [discriminate|]. now split.
Qed.

(* ---------------------------------------------------------------- calls *)
Lemma bind_some {A B} (a : cres A) (f : A -> cres B) y : cbind a f = COk y -> exists x, a = COk x /\ f x = COk y.
Proof. destruct a; try discriminate. cbn. eauto. Qed.
Ltac binds H := repeat match type of H with cbind _ _ = COk _ => let x := fresh "x" in let E := fresh "E" in apply bind_some in H; destruct H as (x & E & H) end.
Lemma append_long b c : b_jumps c = [] -> b_gotos c = [] -> match b_ops c with o :: _ => indexes o = false | [] => True end -> length (b_all c) <> 1%nat ->
  append_bytecode b c = COk (set_code (merge_spaces b c) (b_all b ++ b_all c) (b_ops c ++ b_ops b)).
Proof.
  intros JJ GG IX L. destruct c as [all ops lo fn ob ju go]. cbn [b_ops b_all b_jumps b_gotos] in *. subst ju go.
  set (c := mkB all ops lo fn ob [] []). set (m := merge_spaces b c). assert (MO : b_ops m = b_ops b) by reflexivity. assert (MA : b_all m = b_all b) by reflexivity.
  unfold append_bytecode. fold m. rewrite <- MO, <- MA. clear MO MA.
  assert (J : append_plain m c = COk (set_code m (b_all m ++ all) (ops ++ b_ops m))) by reflexivity.
  assert (K : match b_ops c, b_all c with
              | o :: _, [_] => if op_eqb (last (b_ops c) o) O_HASH_PLACEHOLDER then
                  match b_ops m, rev (b_all m) with
                  | O_LoadFromLocal :: O_LiteralInt32 :: _, p0 :: _ :: p2 :: p3 :: p4 :: p5 :: _ :: r =>
                    COk (set_code m (rev r ++ [byte_of O_LocalIndexHash; p0; p5; p4; p3; p2]) [])
                  | O_LoadFromGlobal :: O_LiteralInt32 :: _, p0 :: _ :: p2 :: p3 :: p4 :: p5 :: _ :: r =>
                    COk (set_code m (rev r ++ [byte_of O_GlobalIndexHash; p0; p5; p4; p3; p2]) [])
                  | O_StackSwap :: O_LiteralInt32 :: _, _ :: _ :: p2 :: p3 :: p4 :: p5 :: _ :: r =>
                    COk (set_code m (rev r ++ [byte_of O_StackIndexHash; p5; p4; p3; p2]) [])
                  | _, _ => CErr E_compiler_panic
                  end
                else push_opcode (last (b_ops c) o) m
              | [], [_] => CUB
              | _, _ => append_plain m c
              end = append_plain m c).
  { cbn [c b_ops b_all]. destruct ops as [|o r], all as [|x [|y l]]; try reflexivity; contradiction L; reflexivity. }
  change (b_all c) with all in *. change (b_ops c) with ops in *. change (b_gotos c) with (@nil (Z * Z)). cbn iota. rewrite <- J. clearbody m. clear J.
  destruct (match b_ops m with [] => None | o :: _ => load_of o end); [|exact K].
  destruct ops as [|o r]; [exact K|]. destruct o; try discriminate IX; exact K.
Qed.
Definition call_bytes (n : Z) : list Z := [byte_of O_FUNCTION_CALL_PLACEHOLDER; u8 n; 88; 88; 88; 88].
(* the code of a call, with the code A of its arguments *)
Definition call_block (A : list Z) (ops : list opcode) (n h : Z) : bcode :=
  mkB (A ++ call_bytes n) (O_FUNCTION_CALL_PLACEHOLDER :: ops) [] [(h, [lenZ A])] [] [] [].
Definition assign_to (q : space) : opcode := lit_to q O_AssignToGlobalAndPop O_AssignToLocalAndPop.
Definition call_target (to : option (space * Z)) (b : bcode) : bcode := match to with Some (q, n) => assigned q n b | None => b end.
Definition call_code (to : option (space * Z)) (A : list Z) (n : Z) : list Z :=
  match to with
  | Some (q, x) => A ++ call_bytes n ++ [byte_of (assign_to q); u8 x]
  | None => A ++ [byte_of O_FUNCTION_CALL_PLACEHOLDER; u8 n; 88; 88; 88; byte_of O_PopOne]
  end.
Lemma args_block wide n l : (wide <= 255)%nat -> Forall (usable_argument wide n) l -> forall b b1, compile_args l b = COk b1 ->
  exists cs ops, Forall2 (fun e c => compile e = COk c) l cs /\ Forall neat cs /\ b1 = set_code b (b_all b ++ concat (map b_all cs)) ops.
Proof.
  intros W U. induction U as [|e l (F & A & _ & LE & _) _ IH]; intros b b1 H; cbn [compile_args] in H.
  - injection H as <-. exists [], (b_ops b). split; [constructor|]. split; [constructor|]. cbn. rewrite app_nil_r. now destruct b.
  - binds H. assert (NE : neat x) by (eapply block_neat; [exact F|exact A|lia| |exact E]; lia). rewrite (neat_append _ _ NE) in E0. injection E0 as <-.
    destruct (IH _ _ H) as (cs & ops & F2 & NS & EQ). exists (x :: cs), ops. split; [constructor; auto|]. split; [constructor; auto|]. rewrite EQ. cbn. now rewrite <- app_assoc.
Qed.
Lemma call_parsed to : parse_expression (text (call_tree to)) =
  COk (match to with Some (q, n) => [ALoad (EPar (Atom (EInt 0))); ALoad (EVar q n); AOp assign_op []] | None => [ALoad (EPar (Atom (EInt 0)))] end).
Proof.
  destruct to as [[q n]|]; [|reflexivity]. cbn [call_tree]. destruct (setting_parse q n call_operand) as (acts & P1 & P2).
  - assert (FI : forall t, shaped t -> (length (text t) <= 255)%nat -> (exists x, parse_expression (text t) = COk [ALoad x]) -> ~ negates_edge t -> (forall u, In (EPar u) (operands t) -> fine u) -> fine t).
    { intros t SH LT (x & E) NE SU. constructor; auto. intros a E1 n0 m IN. rewrite E in E1. injection E1 as <-. destruct IN as [[=]|[]]. }
    apply FI; [exact I|vm_compute; repeat constructor|eexists; reflexivity|cbn; intuition discriminate|].
    intros u [[= <-]|[]]. apply FI; [exact I|vm_compute; repeat constructor|eexists; reflexivity|cbn; intuition discriminate|]. intros u [[=]|[]].
  - vm_compute. discriminate.
  - rewrite P2. assert (Q : parse_expression (text call_operand) = COk [ALoad (EPar (Atom (EInt 0)))]) by reflexivity. rewrite Q in P1. injection P1 as <-. reflexivity.
Qed.
Lemma call_made wide to h args e : (wide <= 255)%nat -> usable_call wide to h args -> compile_call_to to h args = COk e ->
  exists cs ops, Forall2 (fun e c => compile e = COk c) args cs /\ Forall neat cs /\ e = call_target to (call_block (concat (map b_all cs)) ops (lenZ args) h).
Proof.
  intros W (_ & HR & NY & U) H. unfold compile_call_to in H. rewrite call_parsed in H. cbn [cbind] in H.
  assert (X : forall b, compile_call h args = COk b -> exists cs ops, Forall2 (fun e c => compile e = COk c) args cs /\ Forall neat cs /\ b = call_block (concat (map b_all cs)) ops (lenZ args) h).
  { intros b E. unfold compile_call in E. binds E. destruct (args_block wide _ args W U _ _ E0) as (cs & ops & F2 & NS & ->).
    exists cs, ops. split; [exact F2|]. split; [exact NS|]. cbn [set_code empty_bc b_all b_ops b_locals b_objs b_jumps b_gotos List.app] in E1. unfold push_opcode in E1. cbn [b_ops b_all] in E1.
    assert (NF : forall rl, fuse O_FUNCTION_CALL_PLACEHOLDER ops rl = NoFuse) by (intros; destruct ops; reflexivity). rewrite NF in E1. injection E1 as <-. injection E as <-.
    unfold push_data, call_block, size, set_code. cbn. now rewrite <- app_assoc. }
  assert (Y : forall b, compile_call h args = COk b -> append_bytecode empty_bc b = COk b).
  { intros b E. destruct (X b E) as (cs & ops & _ & _ & ->). rewrite append_long; try reflexivity.
    - unfold call_block, merge_spaces, set_code, shift_refs. change (size empty_bc) with 0. cbn [b_all b_ops b_locals b_fns b_objs b_jumps b_gotos empty_bc List.app map fst snd merge_locals fold_left filter]. now rewrite app_nil_r, Z.add_0_r.
    - cbn. rewrite app_length. cbn. lia. }
  destruct to as [[q n]|]; cbn [emit_all_nested emit_nested] in H; apply bind_some in H as (b & E & H); apply bind_some in E as (b' & E & E1); rewrite (Y _ E) in E1; injection E1 as <-.
  - destruct (X _ E) as (cs & ops & F2 & NS & EQ). exists cs, ops. split; [exact F2|]. split; [exact NS|]. rewrite <- EQ. cbn [call_target].
    change (emit_all_nested append_bytecode (block append_bytecode 0) [ALoad (EVar q n); AOp assign_op []] b' = COk e) in H. rewrite setter_emit in H by apply SetAssign. now injection H as <-.
  - injection H as <-. destruct (X _ E) as (cs & ops & F2 & NS & EQ). exists cs, ops. auto.
Qed.
Lemma call_sites_in to A ops n h : 0 <= h < 4294967296 -> h <> yield_hash -> CtlSpec.sites_within (call_target to (call_block A ops n h)) (call_code to A n).
Proof.
  intros HR NY. assert (CL : call_len h = 6) by (unfold call_len; destruct (Z.eqb_spec h yield_hash); [contradiction|reflexivity]).
  assert (IV : intervals (call_target to (call_block A ops n h)) = [(lenZ A, 6)]) by (destruct to as [[q x]|]; cbn -[call_len]; now rewrite CL).
  split; [|split].
  - rewrite IV. constructor; [|constructor]. cbn [fst snd]. pose proof (lenZ_nonneg A). split; [lia|]. split.
    + destruct to as [[q x]|]; unfold call_code; rewrite lenZ_app'; [rewrite lenZ_app'; change (lenZ (call_bytes n)) with 6; change (lenZ [byte_of (assign_to q); u8 x]) with 2; lia|].
      change (lenZ [_; _; _; _; _; _]) with 6. lia.
    + assert (Q : nthZ (call_code to A n) (lenZ A + 0) = Some (byte_of O_FUNCTION_CALL_PLACEHOLDER)) by (destruct to as [[q x]|]; unfold call_code; rewrite LayProofs.nthZ_app2 by lia; reflexivity).
      rewrite Z.add_0_r in Q. rewrite Q. discriminate.
  - rewrite IV. constructor; [constructor|constructor].
  - unfold names_fit, call_sites. replace (b_fns (call_target to (call_block A ops n h))) with [(h, [lenZ A])] by (destruct to as [[q x]|]; reflexivity). cbn. constructor; [exact HR|constructor].
Qed.
Definition call_out (o : list opcode) : Prop := set_out o \/ exists r, o = O_FUNCTION_CALL_PLACEHOLDER :: r.
Lemma call_out_ctx o : call_out o -> ctx_ok o.
Proof. intros [H|[r ->]]; [now apply set_out_ctx|reflexivity]. Qed.
Lemma call_out_ends b : call_out (b_ops b) -> CtlSpec.ends_plain b.
Proof. intros [H|[r E]]; [now apply set_out_ends|]. unfold CtlSpec.ends_plain, last_op_is. rewrite E. auto. Qed.
(* [PopOne] behind the call *)
Lemma call_popped to b A ops0 n : b_all b = A ++ call_bytes n -> b_ops b = O_FUNCTION_CALL_PLACEHOLDER :: ops0 ->
  exists ops, push_opcode O_PopOne (call_target to b) = COk (set_code b (call_code to A n) ops) /\ call_out ops.
Proof.
  intros EA EO. destruct to as [[q x]|]; cbn [call_target call_code].
  - rewrite pop_assigned, EO. destruct q; cbn [fuse_assign_pop load_op]; (eexists; split; [cbn [rev List.app]; rewrite rev_involutive, EA, <- !app_assoc; reflexivity|]); left; [reflexivity|exact I].
  - unfold push_opcode. rewrite EO, EA, rev_app_distr. cbn [call_bytes rev List.app fuse fuse_pop]. eexists. split; [cbn [rev]; rewrite <- !app_assoc, rev_involutive; reflexivity|]. right; eauto.
Qed.
Lemma call_ctx to ctx A ops n h : append_bytecode ctx (call_target to (call_block A ops n h)) =
  COk (call_target to (set_code (merge_spaces ctx (call_block A ops n h)) (b_all ctx ++ A ++ call_bytes n) (O_FUNCTION_CALL_PLACEHOLDER :: ops ++ b_ops ctx))).
Proof.
  rewrite append_long; [|destruct to as [[q x]|]; reflexivity|destruct to as [[q x]|]; reflexivity|destruct to as [[[] x]|]; reflexivity|destruct to as [[q x]|]; cbn; rewrite ?app_length; cbn; lia].
  destruct to as [[q x]|]; [|reflexivity]. cbn [call_target]. unfold assigned_by, set_code, merge_spaces. cbn [b_all b_ops b_locals b_fns b_objs b_jumps b_gotos call_block List.app]. now rewrite <- !app_assoc.
Qed.
Lemma call_pops to A ops n h : 0 <= h < 4294967296 -> h <> yield_hash -> CtlSpec.pops (call_target to (call_block A ops n h)) (call_code to A n).
Proof.
  intros HR NY. split; [destruct to as [[q x]|]; split; reflexivity|]. split; [now apply call_sites_in|]. intros ctx CO. rewrite call_ctx. cbn [cbind].
  set (b := set_code _ _ _). destruct (call_popped to b (b_all ctx ++ A) (ops ++ b_ops ctx) n) as (o & E & OUT); [unfold b; cbn; now rewrite <- app_assoc|reflexivity|].
  eexists. split; [exact E|]. cbn [b_all b_ops set_code]. split; [destruct to as [[q x]|]; unfold call_code; now rewrite <- app_assoc|]. split; [now apply call_out_ctx|now apply call_out_ends].
Qed.
Lemma call_only to A ops n h P : CtlSpec.pops (call_target to (call_block A ops n h)) P \/ CtlSpec.clause (call_target to (call_block A ops n h)) P -> P = call_code to A n.
Proof.
  intros [(_ & _ & H)|(_ & _ & e1 & H1 & H)].
  - destruct (H empty_bc I) as (b1 & E & L & _). rewrite call_ctx in E. cbn [cbind] in E. set (b := set_code _ _ _) in E.
    destruct (call_popped to b A (ops ++ []) n eq_refl eq_refl) as (o & E2 & _). rewrite E2 in E. injection E as <-. cbn in L. now symmetry.
  - destruct (call_popped to (call_block A ops n h) A ops n eq_refl eq_refl) as (o & E2 & OUT). rewrite E2 in H1. injection H1 as <-. destruct (H empty_bc I) as (b1 & E & L & _).
    rewrite append_long in E; [injection E as <-; cbn in L; now symmetry|reflexivity|reflexivity| |].
    + cbn [b_ops set_code]. destruct OUT as [OUT|[r ->]]; [now apply set_out_indexes|reflexivity].
    + cbn [b_all set_code]. destruct to as [[q x]|]; unfold call_code; rewrite !app_length; cbn; lia.
Qed.
Lemma call_code_some to A n : call_code to A n <> [].
Proof. destruct to as [[q x]|]; unfold call_code; destruct A; discriminate. Qed.
(* ---------------------------------------------------------------- all the statements of a program *)
Lemma usable_neat op wide t b : (wide <= 255)%nat -> usable wide op t -> compile t = COk b -> neat b /\ exists b1, push_opcode op b = COk b1.
Proof.
  intros W (F & A & (b' & h & b1 & h1 & E & _ & _ & E1 & _) & LE) H. rewrite H in E. injection E as <-. split; [|eauto].
  eapply block_neat; [exact F|exact A|lia| |exact H]. lia.
Qed.
Lemma misled_pop t b : not_misled_before O_PopOne t -> compile t = COk b -> exists b1, push_opcode O_PopOne b = COk b1.
Proof. intros (b' & h & b1 & h1 & E & _ & _ & E1 & _) H. rewrite H in E. injection E as <-. eauto. Qed.
Lemma setting_sets wide a b : (wide <= 255)%nat -> usable_setting wide a -> compile_setting a = COk b -> exists P, sets b P.
Proof.
  intros W U H. unfold compile_setting in H. destruct a as [q n e|s q n e|s after q n]; unfold usable_setting in U.
  - destruct U as ((N & F & A & L & LT & M & LE) & _). destruct (misled_pop _ _ M H) as (b1 & E1).
    unfold compile in H. change (tree_max depth _) with (tree_max depth e) in H. destruct (setting_block _ _ _ _ _ _ F L H) as (b0 & B0 & ->).
    exists (b_all b1), O_Assign, q, n, b0, b1. split; [|auto]. constructor. eapply block_neat; [exact F|exact A|lia| |exact B0]. lia.
  - destruct U as ((N & F & A & L & LT & M & LE) & K). destruct (misled_pop _ _ M H) as (b1 & E1).
    unfold compile in H. change (tree_max depth _) with (tree_max depth e) in H. destruct (change_block _ _ _ _ _ _ _ K F L H) as (b0 & B0 & ->).
    destruct (change_known _ K) as (p & _ & _ & _ & PF).
    exists (b_all b1), (o_code (change_op s)), q, n, b0, b1. split; [|auto]. econstructor; [exact PF|]. eapply block_neat; [exact F|exact A|lia| |exact B0]. lia.
  - destruct U as (N & K). unfold compile in H. rewrite (step_block _ _ _ _ _ _ K) in H. injection H as <-.
    eexists _, (step_code s after), q, n, empty_bc, _. split; [constructor|]. split; [reflexivity|]. split; [apply pop_stepped|reflexivity].
Qed.
Lemma settings_sets wide l : (wide <= 255)%nat -> Forall (usable_setting wide) l -> forall bs, compile_settings l = COk bs -> exists Ps, Forall2 sets bs Ps.
Proof.
  intros W. induction 1 as [|a l U _ IH]; intros bs H; cbn [compile_settings] in H.
  - injection H as <-. exists []. constructor.
  - destruct (compile_setting a) as [b| |] eqn:E; try discriminate. cbn [cbind] in H. destruct (compile_settings l) as [bs0| |]; try discriminate. cbn [cbind] in H. injection H as <-.
    destruct (setting_sets _ _ _ W U E) as [P S]. destruct (IH _ eq_refl) as [Ps SS]. exists (P :: Ps). now constructor.
Qed.
Section Good.
Variable ret : opcode.
Hypothesis RET : ends_a_function ret.
Variable wide : nat.
Hypothesis WIDE : (wide <= 255)%nat.
Lemma cond_good c b : usable wide O_BZ c -> compile c = COk b -> exists Q k, CtlSpec.branches b Q k.
Proof.
  intros U E. destruct (usable_neat _ _ _ _ WIDE U E) as (NB & b1 & H). destruct (neat_branches _ _ NB H) as [k B]. eauto.
Qed.
Theorem statement_good s : forall c, usable_prog ret wide s -> statement s = COk c ->
  (forall w, CtlSpec.tidy w c -> CtlSpec.good ret c) /\ (forall w, CtlSpec.tail w c <> None -> CtlSpec.weighs c).
Proof.
  induction s as [|s1 IH1 s2 IH2|a|c0 s IH|c0 s1 IH1 s2 IH2|c0 s IH|s IH c0|i c0 p s IH| | |e|e s IH|z| |s IH|to h args]; intros c U H; cbn [statement usable_prog] in *.
  - injection H as <-. split; intros w T; [exact I|now destruct T].
  - binds H. injection H as <-. destruct U as [U1 U2]. destruct (IH1 _ U1 E) as [G1 W1]. destruct (IH2 _ U2 E0) as [G2 W2]. split; intros w T.
    + cbn in T. destruct T as (_ & T1 & T2). cbn. eauto.
    + cbn in T. cbn. destruct (CtlSpec.tail w x0) eqn:X; [right; eapply W2; rewrite X; discriminate|left; eapply W1; exact T].
  - binds H. injection H as <-. destruct (setting_sets _ _ _ WIDE U E) as [P S]. split; intros w T; cbn; exists P; [now apply sets_pops|]. split; [now apply sets_pops|].
    pose proof (sets_some _ _ S). intros ->. cbn in *. lia.
  - binds H. injection H as <-. destruct U as [U1 U2]. destruct (IH _ U2 E0) as [G W]. split; intros w T; [|exact I]. cbn in *. split; [eapply cond_good; eauto|eauto].
  - binds H. injection H as <-. destruct U as (U0 & U1 & U2). destruct (IH1 _ U1 E0) as [G1 W1]. destruct (IH2 _ U2 E1) as [G2 W2]. split; intros w T; [|exact I]. cbn in *.
    destruct T as (T1 & T2 & _). split; [eapply cond_good; eauto|eauto].
  - binds H. injection H as <-. destruct U as [U1 U2]. destruct (IH _ U2 E0) as [G W]. split; intros w T; [|exact I]. cbn in *. split; [eapply cond_good; eauto|eauto].
  - binds H. injection H as <-. destruct U as [U1 U2]. destruct (IH _ U2 E) as [G W]. split; intros w T; [|exact I]. cbn in *. split; [eapply cond_good; eauto|eauto].
  - binds H. injection H as <-. destruct U as (U1 & U2 & U3 & U4). destruct (IH _ U4 E2) as [G W]. split; intros w T; [|exact I]. cbn in *.
    destruct (settings_sets _ _ WIDE U1 _ E) as [Pi Si]. destruct (settings_sets _ _ WIDE U3 _ E1) as [Pp Sp]. split; [|split; [|split]].
    + clear - Si. induction Si; constructor; auto. eexists. eapply sets_clause; eassumption.
    + destruct c0 as [c0|]; cbn in E0; binds E0; injection E0 as <-; [|exact I]. eapply cond_good; eauto.
    + exists Pp. now apply sets_clauses.
    + eauto.
  - injection H as <-. now split.
  - injection H as <-. now split.
  - binds H. injection H as <-. split; intros w T; [|exact I]. cbn. destruct e as [e|]; cbn in E; binds E; injection E as <-.
    + destruct (usable_neat _ _ _ _ WIDE U E0) as (NB & b1 & H1). exact (ex_intro _ _ (neat_returns _ _ _ RET NB H1)).
    + exact (ex_intro _ _ (none_returns _ RET)).
  - binds H. injection H as <-. destruct U as [(F & A & M & LE) U2]. destruct (IH _ U2 E0) as [G W]. split; intros w T; [|exact I]. cbn in *. destruct T as (T & _ & EW). split; [|split].
    + eexists. apply neat_pushes. eapply block_neat; [exact F|exact A|lia| |exact (E : block append_bytecode (S (tree_max depth e)) e = COk x)]. lia.
    + apply (W CtlSpec.InSwitch). unfold CtlSpec.ends_well in EW. destruct (CtlSpec.tail CtlSpec.InSwitch x0); [discriminate|contradiction].
    + eauto.
  - injection H as <-. split; intros w T; [exact I|now destruct T].
  - injection H as <-. split; intros w T; [exact I|now destruct T].
  - binds H. injection H as <-. destruct (IH _ U E) as [G W]. split; intros w T; cbn in *.
    + destruct T. eauto.
    + eauto.
  - binds H. injection H as <-. destruct (call_made _ _ _ _ _ WIDE U E) as (cs & ops & _ & _ & ->). destruct U as (_ & HR & NY & _).
    pose proof (call_pops to (concat (map b_all cs)) ops (lenZ args) h HR NY) as P. split; intros w T; cbn; eexists; [exact P|]. split; [exact P|apply call_code_some].
Qed.
End Good.
