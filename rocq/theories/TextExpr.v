(* Proofs for C60, first part: the expression of a declaration, var x = e. *)
From Coq Require Import String Ascii.
From Verif Require Import Base BaseLemmas HashModel OpsModel VmModel EmitModel ExprModel ExprEmit ExprSpec ExprNest ExprText ExprAssign ExprProps EvalSpec AppendProofs ProgSpec ProgCtl ExprParam
  TokenModel TokenSpec TokenProofs ParseModel ParseSpec ParseProofs ParseRun TextSpec TextCall.
Open Scope list_scope. Open Scope Z_scope.

(* ---------------------------------------------------------------- trees over other operands *)
Fixpoint tmap {A B} (f : A -> B) (t : tree A) : tree B :=
  match t with Atom x => Atom (f x) | Prefix s t => Prefix s (tmap f t) | Postfix s x t => Postfix s (map f x) (tmap f t) | Infix s l r => Infix s (tmap f l) (tmap f r) end.
Lemma untext {A B} (f : A -> B) e : forall items, map (imap f) items = ExprSpec.text e -> exists t, tmap f t = e /\ ExprSpec.text t = items.
Proof.
  induction e as [x|s t IH|s x t IH|s l IHl r IHr]; intros items H; cbn [ExprSpec.text] in H.
  - destruct items as [|[y|s0 y] [|]]; try discriminate H. injection H as <-. exists (Atom y). split; reflexivity.
  - destruct items as [|[y|s0 y] items]; try discriminate H. cbn [map imap] in H. injection H as <- E H. destruct y; [|discriminate E]. destruct (IH _ H) as (u & <- & <-). exists (Prefix s0 u). split; reflexivity.
  - apply map_eq_app in H as (i1 & i2 & -> & H1 & H2). destruct i2 as [|[y|s0 y] [|]]; try discriminate H2. cbn [map imap] in H2. injection H2 as <- <-.
    destruct (IH _ H1) as (u & <- & <-). exists (Postfix s0 y u). split; reflexivity.
  - apply map_eq_app in H as (i1 & i2 & -> & H1 & H2). destruct i2 as [|[y|s0 y] i2]; try discriminate H2. cbn [map imap] in H2. injection H2 as <- E H2. destruct y; [|discriminate E].
    destruct (IHl _ H1) as (u & <- & <-). destruct (IHr _ H2) as (v & <- & <-). exists (Infix s0 u v). split; reflexivity.
Qed.
Lemma tmap_loose {A B} (f : A -> B) t : looseness (tmap f t) = looseness t.
Proof. now destruct t. Qed.
Lemma tmap_shaped {A B} (f : A -> B) t : shaped (tmap f t) -> shaped t.
Proof.
  induction t as [x|s t IH|s x t IH|s l IHl r IHr]; cbn [tmap shaped]; rewrite ?tmap_loose; auto; try tauto.
  intros (H1 & H2 & H3 & H4). repeat split; auto. intros E. destruct (H3 E) as (x & Hx). destruct r; try discriminate Hx. eauto.
Qed.
Lemma tmap_text {A B} (f : A -> B) t : ExprSpec.text (tmap f t) = map (imap f) (ExprSpec.text t).
Proof. induction t; cbn [tmap ExprSpec.text map imap]; rewrite ?map_app; cbn [map imap]; congruence. Qed.

Section Var.
Variable lbits : Z.
Variable atof : list Z -> Z.
Variable consts0 consts : list (list Z * tval).
Variable need_var top parsing_for : bool.
Hypothesis LB : 32 <= lbits.
Hypothesis LO : forall n v, In (n, v) (consts0 ++ consts) -> name n.
Variables L G : list Z.
Variable locals : option (list (list Z)).
Variable globals : list (list Z).
Hypothesis NC : no_clash name_hash (match locals with Some ls => ls | None => [] end ++ globals).
Hypothesis HT : same top match locals with None => true | Some _ => false end.
Hypothesis HL : forall ls, locals = Some ls -> L = map name_hash ls.
Hypothesis HG : same G (map (fun g => name_hash (58 :: 58 :: g)) globals).

Notation ready := (ready lbits atof consts0 consts).
Notation fresh := (fresh lbits atof consts0 consts).
Notation next := (next lbits atof consts0 consts).
Notation parse_loop := (parse_loop lbits atof consts0 consts need_var top false parsing_for).
Notation emit_named := (emit_named consts0 consts need_var top false).
Notation emit_names := (emit_names consts0 consts need_var top false).
Notation bound := (bound consts0 consts need_var top L G).
Notation item_says := (item_says lbits atof consts0 consts need_var top parsing_for L G).

Lemma names_app allow l1 : forall l2 b g, emit_names allow (l1 ++ l2) b g = (' (b1, g1) <<- emit_names allow l1 b g ;; emit_names allow l2 b1 g1).
Proof.
  induction l1 as [|a l1 IH]; intros l2 b g; [reflexivity|]. cbn [app ParseModel.emit_names]. destruct (emit_named allow a b g) as [[b1 g1]| | | |]; cbn [pbind]; auto.
Qed.
(* an operand of which nothing is known *)
Definition ghost : expr := EPar (Prefix "?" (Atom (EInt 0))).
Lemma ghost_ok n p : leaf_ok consts0 consts need_var top L G n p ghost.
Proof. intros allow b b1 H. cbn [emit_nested ghost] in H. destruct n; discriminate H. Qed.
Definition later (n : nat) (p : pleaf) : bound n := mkBound _ _ _ _ _ _ n p ghost (ghost_ok n p).

(* what the name leaves: the variable is new *)
Definition declared (q : space) (i : Z) (L' G' : list Z) (x : list Z) : Prop :=
  forall allow b, emit_named allow (ALoad (LName x false true)) (loc L b) G = POk (loc L' (set_code b (b_all b ++ [byte_of (load_op q); u8 i]) (load_op q :: b_ops b)), G').
Lemma load_declared q i M b : load_variable q i (loc M b) = POk (loc M (set_code b (b_all b ++ [byte_of (load_op q); u8 i]) (load_op q :: b_ops b))).
Proof.
  pose proof (assign_emit q i b) as E. unfold load_variable. rewrite push_loc. cbn in E. replace (match q with SL => O_LoadFromLocal | SG => O_LoadFromGlobal end) with (load_op q) by now destruct q.
  replace (match q with SL => O_LoadFromLocal | SG => O_LoadFromGlobal end) with (load_op q) in E by now destruct q.
  destruct (push_opcode (load_op q) b) as [b1| |]; cbn [cbind cmap lift pbind] in *; try discriminate E. injection E as E. f_equal.
  unfold push_data, loc, set_code. cbn [b_all b_ops b_locals b_fns b_objs b_jumps b_gotos]. congruence.
Qed.
Lemma declared_global x : identifier x -> locals = None -> index_of (name_hash (58 :: 58 :: x)) G = None ->
  declared SG (lenZ G) L (G ++ [name_hash (58 :: 58 :: x)]) x.
Proof.
  intros ID EL N allow b. cbn [ParseModel.emit_named]. unfold add_local. rewrite HT, EL. unfold add_global.
  rewrite (name_global x ID), N, andb_false_r, load_declared. reflexivity.
Qed.
Lemma declared_local x ls : locals = Some ls -> index_of (name_hash x) L = None -> index_of (name_hash x) G = None ->
  declared SL (lenZ L) (L ++ [name_hash x]) G x.
Proof.
  intros EL N M allow b. cbn [ParseModel.emit_named]. unfold add_local. rewrite HT, EL. cbn [loc b_locals]. rewrite N. cbn [negb orb]. rewrite M, andb_false_r.
  change (mkB _ _ _ _ _ _ _) with (loc (L ++ [name_hash x]) b). rewrite load_declared. reflexivity.
Qed.
Theorem parses_var t l e c x q i L' G' : tokens t l -> denotes locals globals t e -> compiles e -> fine e -> looseness e <= 11 -> compile (assignment q i e) = COk c ->
  identifier x -> declared q i L' G' x ->
  forall k st rest allow s, In s closers -> ready G (sign "var" :: word_token x :: sign "=" :: l ++ sign s :: rest) st -> (3 + length l < k)%nat ->
  exists st1, parse_loop k L [] false allow st = POk (nth O (TokenModel.text s) 0, loc L' c, st1) /\ fresh G' rest st1.
Proof.
  intros T D CS FN LE C ID DX k st rest allow s IS R K.
  set (n := tree_max depth e).
  destruct (build lbits atof consts0 consts need_var top parsing_for L G locals globals n t l T e D) as (items & ls & E & F & <-).
  { intros y l' z O OD IN LE'. destruct OD as [z|y p j V IDy|t' u RR].
    - inversion O; subst. exists (mkBound _ _ _ _ _ _ n (LInt w (s32 v)) (EInt (s32 v)) (int_ok consts0 consts need_var top L G n w (s32 v))). split; [reflexivity|]. now constructor.
    - destruct (variable_ok consts0 consts need_var top L G locals globals NC HT HL HG n y p j V IDy) as (t' & g & N & OK & TK). rewrite (TK _ O). exists (mkBound _ _ _ _ _ _ n (LName t' g false) (EVar p j) OK). split; [reflexivity|]. eapply SI_name; [reflexivity|exact N].
    - inversion O as [| | |t0 l0 T0]; subst. destruct CS as [e b0 _ CN]. pose proof (CN u IN) as CU. destruct CU as [u cu CE CU].
      destruct (begin_tokens atof consts0 consts need_var top L G locals globals NC HT HL HG t' l0 T0 u RR) as (hd & tl & -> & B).
      exists (mkBound _ _ _ _ _ _ n (LCode (t_text hd) (loc L cu)) (EPar u) (par_ok consts0 consts need_var top L G n (t_text hd) u cu CE (depth_operand u e IN))). split; [reflexivity|].
      eapply (SI_par _ _ _ _ _ _ _ _ _ _ hd tl (loc L cu)); [reflexivity|exact B|].
      apply (parses_tree lbits atof consts0 consts need_var top parsing_for LB LO L G locals globals NC HT HL HG (length (hd :: tl)) t' (hd :: tl) u cu (le_n _) T0 RR (compiles_intro u cu CE CU) CE). }
  (* the code of e *)
  unfold compile in C. change (tree_max depth (assignment q i e)) with n in C.
  destruct (setting_block append_bytecode q i e _ c FN LE C) as (b0 & C0 & ->).
  destruct FN as [e SH LT _ _ _].
  destruct (untext _ _ _ E) as (tb & TE & TT). rewrite <- TE in SH, LT, LE. apply tmap_shaped in SH. rewrite tmap_loose in LE. rewrite tmap_text, map_length in LT.
  destruct (c32_accepted _ tb SH LT) as (A1 & PA).
  assert (LF : later_found "=" = Some assign_op) by reflexivity.
  assert (PX : parse_expression (ExprSpec.text (Infix "=" (Atom (later n (LName x false true))) tb)) = COk (A1 ++ [ALoad (later n (LName x false true)); AOp assign_op []])).
  { apply assign_parse; auto; try reflexivity. discriminate. }
  unfold parse_expression in PX. rewrite <- TT in F. cbn [ExprSpec.text app] in PX.
  destruct (contexts _ None) as [bs| |] eqn:CB in PX; try discriminate PX. cbn [cbind] in PX.
  apply atom_opens in CB as (_ & es' & CB & ->).
  assert (AC : emit_all_nested append_bytecode (block append_bytecode n) (map (amap (e_of _ _ _ _ _ _ n)) A1) empty_bc = COk b0).
  { cbn [block] in C0. unfold parse_expression in C0, PA. rewrite <- TE, tmap_text in C0. pose proof (contexts_map (e_of consts0 consts need_var top L G n) (ExprSpec.text tb) None) as X. cbn [option_map] in X.
    rewrite X in C0. destruct (contexts (ExprSpec.text tb) None) as [bs| |]; try discriminate PA. cbn [cmap cbind] in PA, C0. rewrite resolve_map, PA in C0. cbn [cmap cbind] in C0.
    exact C0. }
  (* the tokens *)
  pose proof (name_named x ID) as NM. destruct k as [|[|k]]; [lia|lia|].
  destruct (next_ready lbits atof consts0 consts LB LO G _ _ _ R) as (st1 & N1 & [FR1 _]).
  destruct (next_ready lbits atof consts0 consts LB LO G _ _ _ FR1) as (st2 & N2 & FR2).
  destruct (names_facts atof L x false (prev_of []) NM) as (F1 & F2 & F3 & F4 & F5 & F6 & F7).
  assert (SI : Forall2 item_says (ISym "=" [] :: ExprSpec.text tb) ([sign "="] :: ls)).
  { constructor; [|exact F]. constructor. unfold symbols. rewrite !in_app_iff. cbn; tauto. }
  assert (SM : forall st3, ready G (sign "=" :: concat ls ++ sign s :: rest) st3 ->
    exists st1, parse_loop k L [mkE (KLeaf (LName x false true)) (-1)] false true st3 = POk (nth O (TokenModel.text s) 0, loc L' (assigned_by O_Assign q i b0), st1) /\ fresh G' rest st1).
  { intros st3 R3. destruct (simulate lbits atof consts0 consts need_var top parsing_for LB LO L G (ISym "=" [] :: ExprSpec.text tb) ([sign "="] :: ls) SI es' [mkE (KLeaf (later n (LName x false true))) (-1)] k st3 s rest true CB eq_refl IS R3) as (st4 & FR4 & E4).
    { cbn [concat length app]. lia. }
    change [mkE (KLeaf (LName x false true)) (-1)] with (map (emap (p_of consts0 consts need_var top L G n)) [mkE (KLeaf (later n (LName x false true))) (-1)]).
    rewrite E4. unfold finish. cbn [app].
    rewrite resolve_map, PX. cbn [cmap lift pbind]. destruct FR4 as [[PG R4] PN]. rewrite PG, map_app, names_app.
    pose proof (emit_bound consts0 consts need_var top L G n true A1 empty_bc b0 AC) as EB. unfold loc at 1 in EB. cbn [empty_bc b_all b_ops b_fns b_objs b_jumps b_gotos] in EB. rewrite EB. cbn [pbind map amap ParseModel.emit_names].
    cbn [later p_of]. rewrite (DX true b0). cbn [pbind ParseModel.emit_names]. cbn [ParseModel.emit_named text_action map]. rewrite action_loc by reflexivity.
    rewrite (assign_emit2 assign_op q _ (b_ops b0) SetAssign) by reflexivity. cbn [cmap lift pbind].
    exists (mkP (p_src st4) (p_loaded st4) G'). split.
    - unfold assigned_by, set_code. cbn [b_all b_ops b_locals b_fns b_objs b_jumps b_gotos]. rewrite <- app_assoc. reflexivity.
    - split; [|exact PN]. split; [reflexivity|exact R4]. }
  cbn [ParseModel.parse_loop]. rewrite N1. cbn [pbind sign t_val t_text].
  change (ends (TokenModel.text "var")) with false. change (is (TokenModel.text "var") "var") with true. cbv iota.
  rewrite N2. cbn [pbind word_token t_val t_text]. rewrite F1, F2, F3, F4, F5, F6, F7, (nm_label _ _ NM). change (label_or_literal (prev_of [])) with false. cbv iota. cbn [app].
  destruct parsing_for; [apply SM, FR2|].
  destruct (next_ready lbits atof consts0 consts LB LO G _ _ _ (proj1 FR2)) as (st3 & N3 & FR3). rewrite N3. cbn [pbind sign t_text t_quoted].
  change (is (TokenModel.text "=") ":") with false. cbn [negb andb]. apply SM. apply hand_ready; [exact FR3|reflexivity].
Qed.
Lemma var_step k cs v allow st st1 : next st = POk (sign "var", st1) -> parse_loop (S k) L cs v allow st = parse_loop k L cs true true st1.
Proof. intros N. cbn [ParseModel.parse_loop]. rewrite N. reflexivity. Qed.
(* the value is that of a call *)
Theorem parses_var_call f args tss c x q i L' G' : identifier f -> name_hash f <> name_hash (TokenModel.text "yield") ->
  Forall2 (argument locals globals) args tss -> compile_call_to (Some (q, i)) (name_hash f) args = COk c ->
  identifier x -> declared q i L' G' x ->
  forall k st rest allow s, In s closers -> ready G (sign "var" :: word_token x :: sign "=" :: word_token f :: sign "(" :: commas tss ++ sign ")" :: sign s :: rest) st -> (7 + length (commas tss) < k)%nat ->
  exists st1, parse_loop k L [] false allow st = POk (nth O (TokenModel.text s) 0, loc L' c, st1) /\ fresh G' rest st1.
Proof.
  intros ID NY F C IDx DX k st rest allow s IS R K. unfold compile_call_to in C. destruct (closer_handed s IS) as (_ & _ & ES).
  change (call_tree (Some (q, i))) with (Infix "=" (Atom (EVar q i)) call_operand) in C. cbn [call_operand ExprSpec.text app] in C.
  change (parse_expression [IAtom (EVar q i); ISym "=" []; IAtom (EPar (Atom (EInt 0)))]) with (COk [ALoad (EPar (Atom (EInt 0))); ALoad (EVar q i); AOp assign_op []] : cres (list (action expr))) in C.
  cbn [cbind emit_all_nested] in C. apply bind_ok in C as (c1 & C1 & C). apply bind_ok in C as (c2 & C2 & C). apply bind_ok in C as (c3 & C3 & C). injection C as ->.
  cbn [emit_nested] in C1. apply bind_ok in C1 as (cc & C0 & C1).
  cbn [emit_nested term_action] in C2. rewrite assign_emit in C2. injection C2 as <-.
  pose proof (name_named x IDx) as NM. destruct k as [|[|[|[|[|[|k]]]]]]; [lia..|].
  destruct (next_ready lbits atof consts0 consts LB LO G _ _ _ R) as (st1 & N1 & [FR1 _]).
  destruct (next_ready lbits atof consts0 consts LB LO G _ _ _ FR1) as (st2 & N2 & FR2).
  destruct (names_facts atof L x false (prev_of []) NM) as (F1 & F2 & F3 & F4 & F5 & F6 & F7).
  assert (SM : forall st3, ready G (sign "=" :: word_token f :: sign "(" :: commas tss ++ sign ")" :: sign s :: rest) st3 ->
    exists st1, parse_loop (S (S (S (S k)))) L [mkE (KLeaf (LName x false true)) (-1)] false true st3 = POk (nth O (TokenModel.text s) 0, loc L' c, st1) /\ fresh G' rest st1).
  { intros st3 R3. destruct (next_ready lbits atof consts0 consts LB LO G _ _ _ R3) as (st4 & N4 & FR4).
    destruct (call_step lbits atof consts0 consts need_var top parsing_for LB LO L G locals globals NC HT HL HG f args tss cc [mkE (KLeaf (LName x false true)) (-1); mkE (KOp assign_op []) (-1)] (S k) st4 (sign s :: rest) true ID NY F C0 eq_refl (proj1 FR4) ltac:(lia)) as (X & t & st5 & I & FR5 & E).
    remember (S (S (S k))) as k3. cbn [ParseModel.parse_loop]. rewrite N4. cbn [pbind sign t_val t_text].
    change (ends (TokenModel.text "=")) with false. change (is (TokenModel.text "=") "var") with false. change (is (TokenModel.text "=") "blank" || is (TokenModel.text "=") "{") with false. cbv iota.
    rewrite string_text. change (operator_found "=" (prev_of [mkE (KLeaf (LName x false true)) (-1)])) with (Some assign_op). cbn [app]. subst k3. rewrite E. cbn [app].
    destruct (next_ready lbits atof consts0 consts LB LO G _ _ _ (proj1 FR5)) as (st6 & N6 & FR6). cbn [ParseModel.parse_loop]. rewrite N6. cbn [pbind sign t_val t_text]. rewrite ES.
    unfold finish. rewrite assign_resolved. cbn [lift pbind ParseModel.emit_names]. destruct FR6 as [[PG R6] PN]. rewrite PG.
    assert (E1 : emit_named true (ALoad (LCode t (loc X cc))) (mkB [] [] L [] [] [] []) G = POk (loc L c1, G)).
    { cbn [ParseModel.emit_named]. change (mkB [] [] L [] [] [] []) with (loc L empty_bc). rewrite append_loc by (apply merge_in, Forall_forall, I). rewrite C1. reflexivity. }
    rewrite E1. cbn [pbind]. rewrite (DX true c1). cbn [pbind]. cbn [ParseModel.emit_named text_action map]. rewrite action_loc by reflexivity. cbn [emit_nested term_action map] in C3. rewrite C3. cbn [cmap lift pbind].
    exists (mkP (p_src st6) (p_loaded st6) G'). split; [reflexivity|]. split; [split; [reflexivity|exact R6]|exact PN]. }
  rewrite (var_step _ _ _ _ _ _ N1). remember (S (S (S (S k)))) as k4. cbn [ParseModel.parse_loop]. rewrite N2. cbn [pbind word_token t_val t_text]. rewrite F1, F2, F3, F4, F5, F6, F7, (nm_label _ _ NM). change (label_or_literal (prev_of [])) with false. cbv iota. cbn [app].
  destruct parsing_for; [apply SM, FR2|].
  destruct (next_ready lbits atof consts0 consts LB LO G _ _ _ (proj1 FR2)) as (st3 & N3 & FR3). rewrite N3. cbn [pbind sign t_text t_quoted].
  change (is (TokenModel.text "=") ":") with false. cbn [negb andb]. apply SM. apply hand_ready; [exact FR3|reflexivity].
Qed.
End Var.
