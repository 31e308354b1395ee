(* Proofs about the parser of expressions, second part: what it does with the tokens. *)
From Coq Require Import String Ascii.
From Verif Require Import Base HashModel OpsModel VmModel EmitModel ExprModel ExprEmit ExprSpec ExprNest EvalSpec TokenModel TokenSpec TokenProofs AppendProofs ExprParam ParseModel ParseSpec ParseProofs.
Open Scope list_scope. Open Scope Z_scope.

Definition lastc {leaf} (cs : list (ectx leaf)) : option (ectx leaf) := match rev cs with [] => None | e :: _ => Some e end.
Lemma lastc_snoc {leaf} (cs : list (ectx leaf)) e : lastc (cs ++ [e]) = Some e.
Proof. unfold lastc. now rewrite rev_app_distr. Qed.
Lemma prev_map {leaf} (f : leaf -> pleaf) cs : prev_of (map (emap f) cs) = option_map (emap f) (lastc cs).
Proof. unfold prev_of, lastc. rewrite <- map_rev. destruct (rev cs); reflexivity. Qed.

(* the symbols of expressions *)
Definition symbols : list string := map fst prefixes ++ map fst infixes ++ ["++"; "--"; "._count"; "._hash"]%string.
Definition no_specials (s : string) : bool :=
  negb (ends (TokenModel.text s)) && negb (is (TokenModel.text s) "var") && negb (is (TokenModel.text s) "blank") && negb (is (TokenModel.text s) "{") &&
  negb (is (TokenModel.text s) "int") && negb (is (TokenModel.text s) "float") && nameless (TokenModel.text s).
Lemma symbols_ok : forallb no_specials symbols = true.
Proof. reflexivity. Qed.
Definition arg_ok (o : oper) : bool := negb (existsb (String.eqb (o_tok o)) symbols) || negb (op_eqb (o_code o) O_Remove || op_eqb (o_code o) O_HashEntryExists).
Lemma args_ok : forallb arg_ok c_operations = true.
Proof. vm_compute. reflexivity. Qed.
Lemma found_tok {leaf} s (p : option (ectx leaf)) q : operator_found s p = Some q -> In q c_operations /\ o_tok q = s.
Proof. unfold operator_found. intros E. apply find_some in E as [I E]. apply andb_true_iff in E as [E _]. apply String.eqb_eq in E. auto. Qed.
Lemma found_arg {leaf} s (p : option (ectx leaf)) q : In s symbols -> operator_found s p = Some q -> op_eqb (o_code q) O_Remove || op_eqb (o_code q) O_HashEntryExists = false.
Proof.
  intros I E. apply found_tok in E as [J E]. pose proof (proj1 (forallb_forall _ _) args_ok q J) as X. unfold arg_ok in X. rewrite E in X.
  replace (existsb (String.eqb s) symbols) with true in X by (symmetry; apply existsb_exists; exists s; split; [exact I|apply String.eqb_refl]).
  cbn [negb orb] in X. now apply negb_true_iff in X.
Qed.
Lemma symbol_facts s : In s symbols -> ends (TokenModel.text s) = false /\ is (TokenModel.text s) "var" = false /\ is (TokenModel.text s) "blank" || is (TokenModel.text s) "{" = false /\
  is (TokenModel.text s) "int" || is (TokenModel.text s) "float" = false /\ nameless (TokenModel.text s) = true.
Proof.
  intros I. pose proof (proj1 (forallb_forall _ _) symbols_ok s I) as X. unfold no_specials in X. rewrite !andb_true_iff, !negb_true_iff in X.
  destruct X as ((((((A & B) & C) & D) & E) & F) & G). rewrite A, B, C, D, E, F, G. repeat split.
Qed.
Lemma nameless_handed t q : nameless t = true -> handed_back (mkTok t NoVal q) = true.
Proof. destruct t; [discriminate|reflexivity]. Qed.
Lemma no_paren s : In s symbols -> is (TokenModel.text s) ")" = false /\ is (TokenModel.text s) ":" = false.
Proof.
  intros I. destruct (symbol_facts s I) as (E & _). unfold ends in E. cbn [existsb] in E. rewrite !orb_false_iff in E. tauto.
Qed.

Section Sim.
Variable lbits : Z.
Variable atof : list Z -> Z.
Variable consts0 consts : list (list Z * tval).
Variable need_var top parsing_for : bool.
Hypothesis LB : 32 <= lbits.
Hypothesis LO : forall n v, In (n, v) (consts0 ++ consts) -> name n.
Variables L G : list Z.

Notation written := (written lbits atof (consts0 ++ consts)).
Notation spelled := (spelled lbits atof (consts0 ++ consts)).
Notation next := (next lbits atof consts0 consts).
Notation parse_loop := (parse_loop lbits atof consts0 consts need_var top false parsing_for).
Notation emit_named := (emit_named consts0 consts need_var top false).
Notation emit_names := (emit_names consts0 consts need_var top false).
Notation finish := (finish consts0 consts need_var top false).

(* ---------------------------------------------------------------- reading tokens *)
Definition ready (toks : list tok) (st : pst) : Prop :=
  p_globals st = G /\
  ((p_loaded st = None /\ written toks (p_src st)) \/
   exists t l, toks = t :: l /\ p_loaded st = Some t /\ handed_back t = true /\ written l (p_src st)).
Definition fresh (toks : list tok) (st : pst) : Prop := ready toks st /\ p_loaded st = None.
Lemma next_ready t l st : ready (t :: l) st -> exists st1, next st = POk (t, st1) /\ fresh l st1.
Proof.
  intros (PG & [(E & W)|(t' & l' & T & E & H & W)]).
  - inversion W as [|s w t0 rest l0 S P W' T X]; subst. unfold ParseModel.next, get_token. rewrite E, <- X.
    destruct (sep_skip lbits atof consts0 consts LO s S (Datatypes.S (length (s ++ w ++ rest))) (w ++ rest)) as (k&K&N); [lia|].
    rewrite N. destruct k as [|k]; [lia|]. rewrite (read_one lbits atof consts0 consts LB LO rest w t P). cbn [bind].
    eexists. split; [reflexivity|]. split; [|reflexivity]. split; [exact PG|]. left. split; [reflexivity|exact W'].
  - injection T as <- <-. unfold ParseModel.next, get_token. rewrite E, H. cbn [bind]. eexists. split; [reflexivity|]. split; [|reflexivity]. split; [exact PG|]. left. split; [reflexivity|exact W].
Qed.
Lemma hand_ready t l st : fresh l st -> handed_back t = true -> ready (t :: l) (hand_back t st).
Proof.
  intros ((PG & R) & E) H. split; [exact PG|]. right. exists t, l. cbn [hand_back p_loaded p_src]. destruct R as [(_ & W)|(? & ? & _ & X & _)]; [|congruence]. auto.
Qed.
Lemma fresh_int w v q l st : fresh (mkTok w (IntVal v) q :: l) st -> Forall hexa w.
Proof.
  intros ((_ & [(_ & W)|(? & ? & _ & X & _)]) & E); [|congruence]. inversion W as [|s w0 t0 rest l0 S P W' T X]; subst.
  inversion P; subst; try (repeat constructor; fail).
  - constructor; [now left|]. eapply Forall_impl; [|eassumption]. intros; now left.
  - assumption.
  - eapply Forall_impl; [|eassumption]. intros a A. left. unfold octal, digit in *. lia.
  - eapply Forall_impl; [|eassumption]. intros a A. left. unfold binary, digit in *. lia.
  - constructor; [left; unfold digit; cbn; lia|constructor].
  - constructor; [left; unfold digit; cbn; lia|constructor].
Qed.
Lemma hexa_is w s : Forall hexa w -> In s [")"; "int"; "float"]%string -> is w s = false.
Proof.
  intros F I. apply is_no. intros ->. cbn [In] in I. unfold hexa, digit in F.
  repeat (destruct I as [<-|I]; [cbn in F; repeat match goal with H : Forall _ (_ :: _) |- _ => inversion H; clear H; subst end; lia|]). destruct I.
Qed.

(* ---------------------------------------------------------------- operands and what they stand for *)
Definition leaf_ok (n : nat) (p : pleaf) (e : expr) : Prop :=
  forall allow b b1, emit_nested append_bytecode (block append_bytecode n) (ALoad e) b = COk b1 ->
  emit_named allow (ALoad p) (loc L b) G = POk (loc L b1, G).
Record bound (n : nat) := mkBound { p_of : pleaf; e_of : expr; b_ok : leaf_ok n p_of e_of }.
Arguments p_of {n}. Arguments e_of {n}. Arguments b_ok {n}.

Lemma lift_map {A B} (f : A -> B) r a : r = COk a -> lift (cmap f r) = POk (f a).
Proof. now intros ->. Qed.
Lemma emit_bound n allow (acts : list (action (bound n))) : forall b b1,
  emit_all_nested append_bytecode (block append_bytecode n) (map (amap e_of) acts) b = COk b1 ->
  emit_names allow (map (amap p_of) acts) (loc L b) G = POk (loc L b1, G).
Proof.
  induction acts as [|a acts IH]; intros b b1 H; cbn [map emit_all_nested ParseModel.emit_names] in *; [now injection H as ->|].
  destruct (emit_nested append_bytecode (block append_bytecode n) (amap e_of a) b) as [b2| |] eqn:E; try discriminate H. cbn [cbind] in H.
  assert (X : emit_named allow (amap p_of a) (loc L b) G = POk (loc L b2, G)).
  { destruct a as [x|k|m|m1 m2|q x|c].
    - exact (b_ok x allow b b2 E).
    - discriminate E.
    - cbn [amap ParseModel.emit_named]. rewrite action_loc by reflexivity. cbn [amap emit_nested term_action] in E. cbn [text_action]. erewrite lift_map by exact E. reflexivity.
    - cbn [amap ParseModel.emit_named]. rewrite action_loc by reflexivity. cbn [amap emit_nested term_action] in E. cbn [text_action]. erewrite lift_map by exact E. reflexivity.
    - cbn [amap ParseModel.emit_named]. rewrite action_loc by reflexivity. cbn [amap emit_nested term_action] in E. cbn [text_action].
      change (emit_action (AOp q (map leaf_term (map p_of x))) b) with (emit_action (AOp q (map simple_term (map e_of x))) b). erewrite lift_map by exact E. reflexivity.
    - cbn [amap ParseModel.emit_named]. rewrite action_loc by reflexivity. cbn [amap emit_nested term_action] in E. cbn [text_action]. erewrite lift_map by exact E. reflexivity. }
  rewrite X. cbn [pbind]. now apply IH.
Qed.
Lemma int_ok n t z : leaf_ok n (LInt t z) (EInt z).
Proof.
  intros allow b b1 E. cbn [emit_nested term_action simple_term emit_action emit_term t_operand] in E. cbn [ParseModel.emit_named].
  rewrite literal_loc. erewrite lift_map by exact E. reflexivity.
Qed.
Lemma merge_self : merge_locals L L = L.
Proof. apply merge_in. apply Forall_forall. auto. Qed.
Lemma par_ok n t u c : compile u = COk c -> (tree_max depth u < n)%nat -> leaf_ok n (LCode t (loc L c)) (EPar u).
Proof.
  intros C D allow b b1 E. cbn [emit_nested] in E. rewrite (block_mono (S (tree_max depth u)) n u c ltac:(lia) C) in E. cbn [cbind] in E. cbn [ParseModel.emit_named].
  rewrite append_loc by apply merge_self. erewrite lift_map by exact E. reflexivity.
Qed.
Lemma load_ok s i b b1 : emit_nested append_bytecode (block append_bytecode 0) (ALoad (EVar s i)) b = COk b1 -> load_variable s i (loc L b) = POk (loc L b1).
Proof.
  cbn [emit_nested term_action simple_term emit_action emit_term t_operand]. unfold load_variable. rewrite push_loc.
  destruct (push_opcode _ b) as [b2| |]; cbn [cbind cmap lift pbind]; intros E; try discriminate E. now injection E as <-.
Qed.

(* ---------------------------------------------------------------- items and their tokens *)
Definition begins_operand (t : tok) : Prop :=
  match t_val t with
  | IntVal _ => True
  | NoVal => handed_back t = true /\ is (t_text t) ")" = false /\ is (t_text t) "int" || is (t_text t) "float" = false
  | _ => False
  end.
Definition parses (l : list tok) (c : bcode) : Prop :=
  forall k st rest allow e, In e closers -> ready (l ++ sign e :: rest) st -> (length l < k)%nat ->
  exists st1, parse_loop k L [] false allow st = POk (nth O (TokenModel.text e) 0, c, st1) /\ fresh rest st1.
Inductive item_says {n} : item (bound n) -> list tok -> Prop :=
| SI_int : forall x w v q, p_of x = LInt w (s32 v) -> item_says (IAtom x) [mkTok w (IntVal v) q]
| SI_name : forall x t g, p_of x = LName t g false -> named t g -> item_says (IAtom x) [mkTok t NoVal false]
| SI_par : forall x hd tl c, p_of x = LCode (t_text hd) c -> begins_operand hd -> parses (hd :: tl) c ->
    item_says (IAtom x) (sign "(" :: (hd :: tl) ++ [sign ")"])
| SI_sym : forall s, In s symbols -> item_says (ISym s []) [sign s]
| SI_int_cast : item_says (ISym "@i" []) [sign "("; sign "int"; sign ")"]
| SI_float_cast : item_says (ISym "@f" []) [sign "("; sign "float"; sign ")"].
Lemma begins_handed t : begins_operand t -> handed_back t = true.
Proof. unfold begins_operand, handed_back. destruct (t_val t); [tauto| | |]; intros; now rewrite ?orb_true_r. Qed.
Lemma label_leaf {n} (p : option (ectx (bound n))) : (match p with Some (mkE (KLeaf _) _) => False | _ => True end) ->
  label_or_literal (option_map (emap p_of) p) = false /\ is_label (option_map (emap p_of) p) = false.
Proof. destruct p as [[[] ?]|]; cbn; tauto. Qed.
Lemma no_open {leaf} (p : option (ectx leaf)) : operator_found "(" p = None.
Proof.
  destruct (operator_found "(" p) as [q|] eqn:E; [|reflexivity]. exfalso. apply found_tok in E as [I E].
  assert (X : forallb (fun o => negb (String.eqb (o_tok o) "(")) c_operations = true) by reflexivity.
  pose proof (proj1 (forallb_forall _ _) X q I) as Y. cbv beta in Y. rewrite E in Y. discriminate Y.
Qed.
Lemma cast_opens {leaf} s (p : option (ectx leaf)) q : (s = "@i" \/ s = "@f")%string -> operator_found s p = Some q -> match p with Some (mkE (KLeaf _) _) => False | _ => True end.
Proof. intros H E. destruct p as [[[|x| |] z]|]; auto. destruct H as [->| ->]; discriminate E. Qed.
Lemma atom_opens {n} x r (p : option (ectx (bound n))) es : contexts (IAtom x :: r) p = COk es ->
  match p with Some (mkE (KLeaf _) _) => False | _ => True end /\ exists es', contexts r (Some (mkE (KLeaf x) (-1))) = COk es' /\ es = mkE (KLeaf x) (-1) :: es'.
Proof.
  cbn [contexts]. destruct p as [[[|y| |] z]|]; cbn [cbind]; intros E; try discriminate E; (split; [exact I|]);
  destruct (contexts r _) as [es'| |]; try discriminate E; cbn [cbind] in E; injection E as <-; eauto.
Qed.
Lemma sym_opens {n} s r (p : option (ectx (bound n))) es : contexts (ISym s [] :: r) p = COk es ->
  exists q es', operator_found s p = Some q /\ contexts r (Some (mkE (KOp q []) (-1))) = COk es' /\ es = mkE (KOp q []) (-1) :: es'.
Proof.
  cbn [contexts]. destruct (operator_found s p) as [q|]; cbn [cbind]; [|discriminate].
  destruct (contexts r _) as [es'| |] eqn:E; cbn [cbind]; try discriminate. intros X. injection X as <-. eauto.
Qed.
Definition no_argument {n} (p : option (ectx (bound n))) : Prop := takes_argument (option_map (emap p_of) p) = false.
Lemma closer_handed e : In e closers -> handed_back (sign e) = true /\ is (TokenModel.text e) ":" = false /\ ends (TokenModel.text e) = true.
Proof. intros I. cbn [closers In] in I. repeat (destruct I as [<-|I]; [repeat split; reflexivity|]). destruct I. Qed.
(* what follows an operand *)
Lemma follow {n} (items : list (item (bound n))) ls x es e rest : Forall2 item_says items ls -> contexts items (Some (mkE (KLeaf x) (-1))) = COk es -> In e closers ->
  exists t l, concat ls ++ sign e :: rest = t :: l /\ handed_back t = true /\ negb (t_quoted t) && is (t_text t) ":" = false.
Proof.
  intros F C I. destruct F as [|i l0 items ls S F].
  - destruct (closer_handed e I) as (H & N & _). exists (sign e), rest. cbn [sign t_text t_quoted]. rewrite N. auto.
  - destruct S; try (apply atom_opens in C as [[] _]; fail).
    + destruct (symbol_facts s H) as (_ & _ & _ & _ & N). destruct (no_paren s H) as (_ & M). exists (sign s), (concat ls ++ sign e :: rest). cbn [concat app sign t_text t_quoted].
      rewrite M. split; [reflexivity|]. split; [|reflexivity]. now apply nameless_handed.
    + exists (sign "("), ([sign "int"; sign ")"] ++ concat ls ++ sign e :: rest). split; [reflexivity|split; reflexivity].
    + exists (sign "("), ([sign "float"; sign ")"] ++ concat ls ++ sign e :: rest). split; [reflexivity|split; reflexivity].
Qed.
Lemma names_facts {leaf} t g (p : option (ectx leaf)) : named t g ->
  ends t = false /\ is t "var" = false /\ is t "blank" || is t "{" = false /\ operator_found (string_of t) p = None /\ is t "new" = false /\ is t "(" = false /\ is t "[" = false.
Proof.
  intros N. pose proof (nm_not _ _ N) as X. unfold ends. cbn [existsb]. rewrite !X by (cbn; tauto).
  rewrite (not_operator t p (nm_first _ _ N) (nm_chars _ _ N)). repeat split.
Qed.
Lemma emap_snoc {n} (cs : list (ectx (bound n))) k : map (emap p_of) cs ++ [mkE (kmap p_of k) (-1)] = map (emap p_of) (cs ++ [mkE k (-1)]).
Proof. now rewrite map_app. Qed.
Theorem simulate {n} (items : list (item (bound n))) ls : Forall2 item_says items ls -> forall es cs k st e rest allow,
  contexts items (lastc cs) = COk es -> no_argument (lastc cs) -> In e closers -> ready (concat ls ++ sign e :: rest) st -> (length (concat ls) < k)%nat ->
  exists st1, fresh rest st1 /\
    parse_loop k L (map (emap p_of) cs) false allow st =
    (' (b, st2) <<- finish L allow (map (emap p_of) (cs ++ es)) st1 ;; POk (nth O (TokenModel.text e) 0, b, st2)).
Proof.
  induction 1 as [|i l items ls S F IH]; intros es cs k st e rest allow C NA IE R K.
  - cbn [contexts] in C. injection C as <-. rewrite app_nil_r. destruct k as [|k]; [cbn in K; lia|]. destruct (next_ready _ _ _ R) as (st1 & N & FR).
    exists st1. split; [exact FR|]. cbn [ParseModel.parse_loop]. rewrite N. cbn [pbind sign t_val t_text]. destruct (closer_handed e IE) as (_ & _ & ->). reflexivity.
  - destruct k as [|k]; [lia|]. cbn [concat] in R, K. rewrite app_length in K. rewrite <- app_assoc in R.
    destruct S as [x w v q PE|x t g PE NM|x hd tl c PE BO PA|s IS| |].
    + apply atom_opens in C as (OP & es' & C & ->). destruct (label_leaf _ OP) as (LO' & LA). cbn [app] in R. destruct (next_ready _ _ _ R) as (st1 & N & FR).
      cbn [ParseModel.parse_loop]. rewrite N. cbn [pbind t_val t_text]. rewrite prev_map, LO'.
      replace (KLeaf (LInt w (s32 v))) with (kmap p_of (KLeaf x)) by (cbn; now rewrite PE). rewrite emap_snoc.
      destruct (IH es' (cs ++ [mkE (KLeaf x) (-1)]) k st1 e rest allow) as (st2 & FR2 & E2); auto.
      { now rewrite lastc_snoc. } { rewrite lastc_snoc. reflexivity. } { apply FR. } { cbn in K; lia. }
      exists st2. split; [exact FR2|]. rewrite E2, <- app_assoc. reflexivity.
    + apply atom_opens in C as (OP & es' & C & ->). destruct (label_leaf _ OP) as (LO' & LA). cbn [app] in R. destruct (next_ready _ _ _ R) as (st1 & N & FR).
      destruct (names_facts t g (prev_of (map (emap p_of) cs)) NM) as (F1 & F2 & F3 & F4 & F5 & F6 & F7).
      assert (IHs : forall st', ready (concat ls ++ sign e :: rest) st' -> exists st2, fresh rest st2 /\
        parse_loop k L (map (emap p_of) (cs ++ [mkE (KLeaf x) (-1)])) false allow st' =
        (' (b, st3) <<- finish L allow (map (emap p_of) (cs ++ mkE (KLeaf x) (-1) :: es')) st2 ;; POk (nth O (TokenModel.text e) 0, b, st3))).
      { intros st' R'. destruct (IH es' (cs ++ [mkE (KLeaf x) (-1)]) k st' e rest allow) as (st2 & FR2 & E2); auto.
        { now rewrite lastc_snoc. } { rewrite lastc_snoc. reflexivity. } { cbn in K; lia. }
        exists st2. split; [exact FR2|]. rewrite E2, <- app_assoc. reflexivity. }
      cbn [ParseModel.parse_loop]. rewrite N. cbn [pbind t_val t_text]. rewrite F1, F2, F3, F4, F5, F6, F7, (nm_label _ _ NM), prev_map, LO'.
      replace (KLeaf (LName t g false)) with (kmap p_of (KLeaf x)) by (cbn; now rewrite PE). rewrite emap_snoc.
      assert (X : exists st2, fresh rest st2 /\ (if parsing_for
         then parse_loop k L (map (emap p_of) (cs ++ [mkE (KLeaf x) (-1)])) false allow st1
         else ' (t2, st2) <<- next st1 ;; if negb (t_quoted t2) && is (t_text t2) ":" then POutside else
              parse_loop k L (map (emap p_of) (cs ++ [mkE (KLeaf x) (-1)])) false allow (hand_back t2 st2)) =
         (' (b, st3) <<- finish L allow (map (emap p_of) (cs ++ mkE (KLeaf x) (-1) :: es')) st2 ;; POk (nth O (TokenModel.text e) 0, b, st3))).
      { destruct parsing_for; [apply IHs, FR|]. destruct (follow items ls x es' e rest F C IE) as (t2 & l2 & E2 & H2 & Q2).
        destruct FR as [FR FR']. rewrite E2 in FR. destruct (next_ready _ _ _ FR) as (st2 & N2 & FR2). rewrite N2. cbn [pbind]. rewrite Q2.
        apply IHs. rewrite E2. now apply hand_ready. }
      destruct cs as [|c0 cs]; [exact X|]. cbn [map]. apply IHs, FR.
    + apply atom_opens in C as (OP & es' & C & ->). destruct (label_leaf _ OP) as (LO' & LA). cbn [app] in R. destruct (next_ready _ _ _ R) as (st1 & N & FR).
      pose proof FR as [FR1 FR1']. destruct (next_ready _ _ _ FR1) as (st2 & N2 & FR2).
      cbn [ParseModel.parse_loop]. rewrite N. cbn [pbind sign t_val t_text].
      change (ends (TokenModel.text "(")) with false. change (is (TokenModel.text "(") "var") with false. change (is (TokenModel.text "(") "blank" || is (TokenModel.text "(") "{") with false.
      change (is (TokenModel.text "(") "new") with false. change (is (TokenModel.text "(") "(") with true. cbv iota.
      rewrite string_text, no_open, prev_map, LA, N2. cbn [pbind].
      assert (B : is (t_text hd) ")" = false /\ is (t_text hd) "int" || is (t_text hd) "float" = false).
      { unfold begins_operand in BO. destruct hd as [w [|v| |] q]; cbn [t_val t_text] in *; [tauto| |destruct BO..].
        apply fresh_int in FR. rewrite !(hexa_is w) by (auto; cbn; tauto). auto. }
      destruct B as (B1 & B2). rewrite B1, B2.
      destruct (PA k (hand_back hd st2) (concat ls ++ sign e :: rest) false ")"%string) as (st3 & E3 & FR3).
      { cbn; tauto. }
      { cbn [app]. replace (tl ++ sign ")" :: concat ls ++ sign e :: rest) with ((tl ++ [sign ")"]) ++ concat ls ++ sign e :: rest) by now rewrite <- app_assoc.
        apply hand_ready; [exact FR2|]. now apply begins_handed. }
      { cbn [length app] in *. rewrite app_length in K. cbn [length] in K. lia. }
      rewrite E3. cbn [pbind]. change (nth O (TokenModel.text ")") 0 =? 41) with true. cbv iota. unfold no_argument in NA. rewrite NA.
      replace (KLeaf (LCode (t_text hd) c)) with (kmap p_of (KLeaf x)) by (cbn; now rewrite PE). rewrite emap_snoc.
      destruct (IH es' (cs ++ [mkE (KLeaf x) (-1)]) k st3 e rest allow) as (st4 & FR4 & E4); auto.
      { now rewrite lastc_snoc. } { rewrite lastc_snoc. reflexivity. } { apply FR3. } { cbn [length app] in *. lia. }
      exists st4. split; [exact FR4|]. rewrite E4, <- app_assoc. reflexivity.
    + apply sym_opens in C as (q & es' & O & C & ->). cbn [app] in R. destruct (next_ready _ _ _ R) as (st1 & N & FR). destruct (symbol_facts s IS) as (S1 & S2 & S3 & S4 & S5).
      cbn [ParseModel.parse_loop]. rewrite N. cbn [pbind sign t_val t_text]. rewrite S1, S2, S3, string_text, prev_map, found_map, O.
      change (@KOp pleaf q []) with (kmap (@p_of n) (@KOp (bound n) q [])). rewrite emap_snoc.
      destruct (IH es' (cs ++ [mkE (KOp q []) (-1)]) k st1 e rest allow) as (st2 & FR2 & E2); auto.
      { now rewrite lastc_snoc. } { rewrite lastc_snoc. unfold no_argument. cbn. apply (found_arg s (lastc cs)); auto. } { apply FR. } { cbn in K; lia. }
      exists st2. split; [exact FR2|]. rewrite E2, <- app_assoc. reflexivity.
    + apply sym_opens in C as (q & es' & O & C & ->). cbn [app] in R. destruct (next_ready _ _ _ R) as (st1 & N & [FR _]). destruct (next_ready _ _ _ FR) as (st2 & N2 & [FR2 _]). destruct (next_ready _ _ _ FR2) as (st3 & N3 & FR3).
      destruct (label_leaf _ (cast_opens "@i" _ q (or_introl eq_refl) O)) as (LO' & LA).
      cbn [ParseModel.parse_loop]. rewrite N. cbn [pbind sign t_val t_text].
      change (ends (TokenModel.text "(")) with false. change (is (TokenModel.text "(") "var") with false. change (is (TokenModel.text "(") "blank" || is (TokenModel.text "(") "{") with false.
      change (is (TokenModel.text "(") "new") with false. change (is (TokenModel.text "(") "(") with true. cbv iota.
      rewrite string_text, no_open, prev_map, LA, N2. cbn [pbind sign t_text].
      change (is (TokenModel.text "int") ")") with false. change (is (TokenModel.text "int") "int" || is (TokenModel.text "int") "float") with true. cbv iota. rewrite N3. cbn [pbind sign t_text].
      change (is (TokenModel.text ")") ")") with true. change (is (TokenModel.text "int") "int") with true. cbv iota. unfold operator. rewrite prev_map, found_map, O.
      change (@KOp pleaf q []) with (kmap (@p_of n) (@KOp (bound n) q [])). rewrite emap_snoc.
      destruct (IH es' (cs ++ [mkE (KOp q []) (-1)]) k st3 e rest allow) as (st4 & FR4 & E4); auto.
      { now rewrite lastc_snoc. } { rewrite lastc_snoc. unfold no_argument. cbn. apply (found_arg "@i" (lastc cs)); auto. cbn; tauto. } { apply FR3. } { cbn in K; lia. }
      exists st4. split; [exact FR4|]. rewrite E4, <- app_assoc. reflexivity.
    + apply sym_opens in C as (q & es' & O & C & ->). cbn [app] in R. destruct (next_ready _ _ _ R) as (st1 & N & [FR _]). destruct (next_ready _ _ _ FR) as (st2 & N2 & [FR2 _]). destruct (next_ready _ _ _ FR2) as (st3 & N3 & FR3).
      destruct (label_leaf _ (cast_opens "@f" _ q (or_intror eq_refl) O)) as (LO' & LA).
      cbn [ParseModel.parse_loop]. rewrite N. cbn [pbind sign t_val t_text].
      change (ends (TokenModel.text "(")) with false. change (is (TokenModel.text "(") "var") with false. change (is (TokenModel.text "(") "blank" || is (TokenModel.text "(") "{") with false.
      change (is (TokenModel.text "(") "new") with false. change (is (TokenModel.text "(") "(") with true. cbv iota.
      rewrite string_text, no_open, prev_map, LA, N2. cbn [pbind sign t_text].
      change (is (TokenModel.text "float") ")") with false. change (is (TokenModel.text "float") "int" || is (TokenModel.text "float") "float") with true. cbv iota. rewrite N3. cbn [pbind sign t_text].
      change (is (TokenModel.text ")") ")") with true. change (is (TokenModel.text "float") "int") with false. cbv iota. unfold operator. rewrite prev_map, found_map, O.
      change (@KOp pleaf q []) with (kmap (@p_of n) (@KOp (bound n) q [])). rewrite emap_snoc.
      destruct (IH es' (cs ++ [mkE (KOp q []) (-1)]) k st3 e rest allow) as (st4 & FR4 & E4); auto.
      { now rewrite lastc_snoc. } { rewrite lastc_snoc. unfold no_argument. cbn. apply (found_arg "@f" (lastc cs)); auto. cbn; tauto. } { apply FR3. } { cbn in K; lia. }
      exists st4. split; [exact FR4|]. rewrite E4, <- app_assoc. reflexivity.
Qed.

(* ---------------------------------------------------------------- trees *)
(* an equation that subst leaves alone *)
Definition same {A} (a b : A) : Prop := a = b.
Variable locals : option (list (list Z)).
Variable globals : list (list Z).
Hypothesis NC : no_clash name_hash (match locals with Some ls => ls | None => [] end ++ globals).
Hypothesis HT : same top match locals with None => true | Some _ => false end.
Hypothesis HL : forall ls, locals = Some ls -> L = map name_hash ls.
Hypothesis HG : same G (map (fun g => name_hash (58 :: 58 :: g)) globals).

Lemma global_place x i : place_of x globals i -> index_of (name_hash (58 :: 58 :: x)) G = Some i.
Proof.
  intros P. rewrite HG. apply (index_place (fun g => name_hash (58 :: 58 :: g)) x globals i); [|exact P].
  intros y I E. refine (proj2 (NC y x _ _) E); apply in_or_app; right; [exact I|eapply place_in; exact P].
Qed.
Lemma add_global_ok m t x i allow b b1 : global_name t = 58 :: 58 :: x -> place_of x globals i ->
  emit_nested append_bytecode (block append_bytecode m) (ALoad (EVar SG i)) b = COk b1 ->
  add_global consts0 consts need_var t false allow (loc L b) G = POk (loc L b1, G).
Proof. intros E P H. unfold add_global. rewrite E, (global_place x i P), (load_ok SG i b b1 H). reflexivity. Qed.
Lemma name_global n : identifier n -> global_name n = 58 :: 58 :: n.
Proof.
  intros (c & s & -> & C & W & K). unfold global_name. replace (colons (c :: s)) with false; [reflexivity|].
  destruct s; cbn; [reflexivity|]. replace (c =? 58) with false; [reflexivity|]. unfold letter in C. lia.
Qed.
Lemma variable_ok m x q i : denotes_variable locals globals x q i -> (forall n, x = SName n \/ x = SGlobal n -> identifier n) ->
  exists t g, named t g /\ leaf_ok m (LName t g false) (EVar q i) /\ forall l, operand_tokens x l -> l = [mkTok t NoVal false].
Proof.
  intros D ID. destruct D as [ls n i E P|n i N P|n i P].
  - exists n, false. split; [apply name_named, ID; auto|]. split; [|intros l T; inversion T; reflexivity].
    intros allow b b1 H. cbn [ParseModel.emit_named]. unfold add_local. rewrite HT. rewrite E. cbn [loc b_locals].
    rewrite (HL ls E). rewrite (index_place name_hash n ls i); [|intros y Y HY; refine (proj1 (NC y n _ _) HY); rewrite E; apply in_or_app; left; [exact Y|eapply place_in; exact P]|exact P].
    rewrite <- (HL ls E). fold (loc L b). rewrite (load_ok SL i b b1 H). reflexivity.
  - exists n, false. split; [apply name_named, ID; auto|]. split; [|intros l T; inversion T; reflexivity].
    assert (GN : global_name n = 58 :: 58 :: n) by (apply name_global, ID; auto).
    intros allow b b1 H. cbn [ParseModel.emit_named]. unfold add_local.
    assert (CL : (exists ls, locals = Some ls) \/ locals = None) by (destruct locals; eauto).
    destruct CL as [(ls & E)|E]; rewrite HT, E.
    + cbn [loc b_locals]. rewrite (HL ls E) at 1. rewrite index_none; [|intros y Y HY; refine (proj1 (NC y n _ _) HY); rewrite E; apply in_or_app; [now left|right; eapply place_in; exact P]|now apply N].
      cbn [negb orb]. rewrite GN, (global_place n i P). fold (loc L b). rewrite (load_ok SG i b b1 H). reflexivity.
    + eapply add_global_ok; eassumption.
  - exists (58 :: 58 :: n), true. split; [apply global_named, ID; auto|]. split; [|intros l T; inversion T; reflexivity].
    intros allow b b1 H. cbn [ParseModel.emit_named]. now apply (add_global_ok m _ n i).
Qed.
Lemma begin_tokens t l : tokens t l -> forall u, denotes locals globals t u -> exists hd tl, l = hd :: tl /\ begins_operand hd.
Proof.
  unfold tokens, denotes. induction 1 as [x l O|s t l I T IH|s t l I T IH|s t u l r I T IH U IH2]; intros e D; inversion D; subst.
  - match goal with H : operand_denotes _ _ _ _ |- _ => rename H into OD end.
    destruct OD as [z|x q i V ID|t u R].
    + inversion O; subst. do 2 eexists. split; [reflexivity|]. exact Logic.I.
    + destruct (variable_ok 0 x q i V ID) as (t & g & N & _ & TK). rewrite (TK _ O). do 2 eexists. split; [reflexivity|]. unfold begins_operand. cbn [t_val t_text].
      rewrite !(nm_not _ _ N) by (cbn; tauto). split; [|auto]. pose proof (nm_label _ _ N) as X. destruct t; [discriminate X|reflexivity].
    + inversion O; subst. do 2 eexists. split; [reflexivity|]. repeat split.
  - unfold prefix_tokens. destruct (String.eqb s "@i"); [do 2 eexists; split; [reflexivity|repeat split]|]. destruct (String.eqb s "@f"); [do 2 eexists; split; [reflexivity|repeat split]|].
    assert (S : In s symbols) by (unfold symbols; apply in_or_app; now left). destruct (symbol_facts s S) as (_ & _ & _ & S4 & S5). destruct (no_paren s S) as (S6 & _).
    do 2 eexists. split; [reflexivity|]. unfold begins_operand. cbn [sign t_val t_text]. split; [now apply nameless_handed|auto].
  - destruct (IH u ltac:(assumption)) as (hd & tl & -> & B). do 2 eexists. split; [reflexivity|exact B].
  - destruct (IH t' ltac:(assumption)) as (hd & tl & -> & B). do 2 eexists. split; [reflexivity|exact B].
Qed.
Lemma prefix_says {n} s : In s (map fst prefixes) -> item_says (n := n) (ISym s []) (prefix_tokens s).
Proof.
  intros I. unfold prefix_tokens. destruct (String.eqb_spec s "@i") as [->|_]; [constructor|]. destruct (String.eqb_spec s "@f") as [->|_]; [constructor|].
  constructor. unfold symbols. apply in_or_app. now left.
Qed.
Lemma build n t l : tokens t l -> forall e, denotes locals globals t e ->
  (forall x l' y, operand_tokens x l' -> operand_denotes locals globals x y -> In y (operands e) -> (length l' <= length l)%nat -> exists b : bound n, e_of b = y /\ item_says (IAtom b) l') ->
  exists (items : list (item (bound n))) ls, map (imap e_of) items = ExprSpec.text e /\ Forall2 item_says items ls /\ concat ls = l.
Proof.
  unfold tokens, denotes. induction 1 as [x l O|s t l I T IH|s t l I T IH|s t u l r I T IH U IH2]; intros e D H; inversion D; subst.
  - destruct (H x l y) as (b & E & S); auto; [now left|]. exists [IAtom b], [l]. cbn [map imap ExprSpec.text concat]. rewrite E, app_nil_r. repeat split. constructor; [exact S|constructor].
  - destruct (IH u) as (items & ls & E & F & C); auto. { intros x l' y O OD IN LE. apply (H x l' y); auto. rewrite app_length. lia. }
    exists (ISym s [] :: items), (prefix_tokens s :: ls). cbn [map imap ExprSpec.text concat]. rewrite E, C. repeat split. constructor; [now apply prefix_says|exact F].
  - destruct (IH u) as (items & ls & E & F & C); auto. { intros x l' y O OD IN LE. apply (H x l' y); auto. rewrite app_length. lia. }
    exists (items ++ [ISym s []]), (ls ++ [[sign s]]). rewrite map_app, concat_app. cbn [map imap ExprSpec.text concat]. rewrite E, C, app_nil_r. repeat split.
    apply Forall2_app; [exact F|]. constructor; [|constructor]. constructor. unfold symbols. apply in_or_app. right. apply in_or_app. now right.
  - destruct (IH t') as (items & ls & E & F & C); auto. { intros x l' y O OD IN LE. apply (H x l' y); auto; [cbn [operands]; apply in_or_app; now left|]. rewrite app_length. lia. }
    destruct (IH2 u') as (items2 & ls2 & E2 & F2 & C2); auto. { intros x l' y O OD IN LE. apply (H x l' y); auto; [cbn [operands]; apply in_or_app; now right|]. rewrite app_length. cbn [length]. lia. }
    exists (items ++ ISym s [] :: items2), (ls ++ [sign s] :: ls2). rewrite map_app, concat_app. cbn [map imap ExprSpec.text concat app]. rewrite E, C, E2, C2. repeat split.
    apply Forall2_app; [exact F|]. constructor; [|exact F2]. constructor. unfold symbols. apply in_or_app. right. apply in_or_app. now left.
Qed.
Lemma depth_operand (u : tree expr) e : In (EPar u) (operands e) -> (tree_max depth u < tree_max depth e)%nat.
Proof.
  induction e as [x|s t IH|s x t IH|s t1 IH1 t2 IH2]; cbn [operands tree_max]; auto.
  - intros [->|[]]. cbn [depth]. lia.
  - intros I. apply in_app_or in I as [I|I]; [specialize (IH1 I)|specialize (IH2 I)]; lia.
Qed.
Lemma contexts_split n (items : list (item (bound n))) es : contexts (map (imap e_of) items) None = COk es -> exists bs, contexts items None = COk bs /\ es = map (emap e_of) bs.
Proof.
  intros H. pose proof (contexts_map (@e_of n) items None) as X. cbn [option_map] in X. rewrite H in X. destruct (contexts items None) as [bs| |]; try discriminate X. injection X as ->. eauto.
Qed.
Theorem parses_tree m : forall t l e c, (length l <= m)%nat -> tokens t l -> denotes locals globals t e -> compiles e -> compile e = COk c -> parses l (loc L c).
Proof.
  induction m as [|m IH]; intros t l e c LE T D CS C.
  { destruct (begin_tokens t l T e D) as (? & ? & -> & _). cbn in LE. lia. }
  set (n := tree_max depth e).
  destruct (build n t l T e D) as (items & ls & E & F & <-).
  { intros x l' y O OD IN LE'. destruct OD as [z|x q i V ID|t' u R].
    - inversion O; subst. exists (mkBound n (LInt w (s32 v)) (EInt (s32 v)) (int_ok n w (s32 v))). split; [reflexivity|]. now constructor.
    - destruct (variable_ok n x q i V ID) as (t' & g & N & OK & TK). rewrite (TK _ O). exists (mkBound n (LName t' g false) (EVar q i) OK). split; [reflexivity|]. now apply (SI_name _ _ g).
    - inversion O as [| | |t0 l0 T0]; subst. destruct CS as [e b0 _ CN]. pose proof (CN u IN) as CU. destruct CU as [u cu CE CU].
      destruct (begin_tokens t' l0 T0 u R) as (hd & tl & -> & B).
      exists (mkBound n (LCode (t_text hd) (loc L cu)) (EPar u) (par_ok n (t_text hd) u cu CE (depth_operand u e IN))). split; [reflexivity|].
      apply (SI_par _ hd tl (loc L cu)); [reflexivity|exact B|].
      apply (IH t' (hd :: tl) u cu); [|exact T0|exact R|now apply (compiles_intro u cu)|exact CE]. cbn [length app] in *. rewrite app_length in LE'. cbn [length] in LE'. lia. }
  unfold compile in C. cbn [block] in C. unfold parse_expression in C. rewrite <- E in C.
  destruct (contexts (map (imap e_of) items) None) as [es| |] eqn:CX; cbn [cbind] in C; try discriminate C.
  destruct (contexts_split n items es CX) as (bs & CB & ->). rewrite resolve_map in C.
  destruct (resolve_expression bs) as [acts| |] eqn:RS; cbn [cmap cbind] in C; try discriminate C.
  intros k st rest allow e0 IE R K.
  destruct (simulate items ls F bs [] k st e0 rest allow CB eq_refl IE R K) as (st1 & FR & PL). cbn [map] in PL. rewrite PL. cbn [app].
  unfold ParseModel.finish. rewrite resolve_map, RS. cbn [cmap lift pbind]. destruct FR as [[PG R1] PN].
  rewrite PG. pose proof (emit_bound n allow acts empty_bc c C) as EB. unfold loc at 1 in EB. cbn [empty_bc b_all b_ops b_fns b_objs b_jumps b_gotos] in EB. rewrite EB. cbn [pbind].
  exists (mkP (p_src st1) (p_loaded st1) G). split; [reflexivity|]. split; [|exact PN]. split; [reflexivity|exact R1].
Qed.
End Sim.
