(* Proofs for C60: calls in expressions. *)
From Coq Require Import String Ascii.
From Verif Require Import Base BaseLemmas HashModel OpsModel VmModel EmitModel ExprModel ExprEmit ExprSpec ExprNest EvalSpec AppendProofs ProgSpec ProgCtl ExprParam
  TokenModel TokenSpec TokenProofs ParseModel ParseSpec ParseProofs ParseRun TextSpec.
Open Scope list_scope. Open Scope Z_scope.

(* ---------------------------------------------------------------- expressions without calls refer to no function *)
Lemma bind_ok {A B} (r : cres A) (f : A -> cres B) b : cbind r f = COk b -> exists a, r = COk a /\ f a = COk b.
Proof. destruct r; cbn; intros E; try discriminate E; eauto. Qed.
Lemma push_fns o b b1 : push_opcode o b = COk b1 -> b_fns b1 = b_fns b.
Proof. intros E. apply push_frame in E. rewrite E. reflexivity. Qed.
Lemma append_fns b e b1 : append_bytecode b e = COk b1 -> b_fns b = [] -> b_fns e = [] -> b_fns b1 = [].
Proof. intros E B C. apply append_frame in E. rewrite E. unfold set_code, merge_spaces. cbn [b_fns]. now rewrite B, C. Qed.
Lemma literal_fns z b b1 : push_literal z b = COk b1 -> b_fns b1 = b_fns b.
Proof.
  unfold push_literal. repeat match goal with |- context [if ?c then _ else _] => destruct c end; intros E; try (now apply push_fns in E);
  apply bind_ok in E as (b2 & E & X); injection X as <-; now apply push_fns in E.
Qed.
Lemma nested_fns f a b b1 : (forall t c, f t = COk c -> b_fns c = []) -> emit_nested append_bytecode f a b = COk b1 -> b_fns b = [] -> b_fns b1 = [].
Proof.
  intros F E B.
  assert (D : forall o d b2, (b3 <~ push_opcode o b ;; COk (push_data d b3)) = COk b2 -> b_fns b2 = []).
  { intros o d b2 X. apply bind_ok in X as (b3 & X & Y). injection Y as <-. apply push_fns in X. cbn. congruence. }
  destruct a as [x|k|n|n m|q x|c]; cbn [emit_nested term_action emit_action] in E.
  - destruct x as [z|s i|t]; cbn [emit_nested term_action simple_term emit_action emit_term t_operand] in E.
    + apply literal_fns in E. congruence.
    + now apply D in E.
    + apply bind_ok in E as (c & E1 & E2). apply F in E1. now apply append_fns in E2.
  - destruct k; cbn in E; first [discriminate E|now apply D in E|idtac].
  - now apply D in E.
  - now apply D in E.
  - apply bind_ok in E as (c & E1 & E2). apply push_fns in E1. now apply append_fns in E2.
  - apply push_fns in E. congruence.
Qed.
Lemma all_fns f l : (forall t c, f t = COk c -> b_fns c = []) -> forall b b1, emit_all_nested append_bytecode f l b = COk b1 -> b_fns b = [] -> b_fns b1 = [].
Proof.
  intros F. induction l as [|a l IH]; intros b b1 E B; cbn [emit_all_nested] in E; [injection E as <-; exact B|].
  apply bind_ok in E as (b2 & E1 & E2). eapply IH; [exact E2|]. eapply nested_fns; eassumption.
Qed.
Lemma block_fns n : forall t c, block append_bytecode n t = COk c -> b_fns c = [].
Proof.
  induction n as [|n IH]; intros t c E; cbn [block] in E; [discriminate E|]. apply bind_ok in E as (a & _ & E). eapply all_fns; [exact IH|exact E|reflexivity].
Qed.
Lemma compile_fns e c : compile e = COk c -> b_fns c = [].
Proof. apply block_fns. Qed.
Lemma args_fns args : forall b c, compile_args args b = COk c -> b_fns b = [] -> b_fns c = [].
Proof.
  induction args as [|e args IH]; intros b c E B; cbn [compile_args] in E; [injection E as <-; exact B|].
  apply bind_ok in E as (d & E1 & E). apply bind_ok in E as (b1 & E2 & E). apply (IH b1 c E). eapply append_fns; [exact E2|exact B|]. now apply compile_fns in E1.
Qed.
Lemma append_merged L X b e : append_bytecode (loc L b) (loc X e) = cmap (loc (merge_locals L X)) (append_bytecode b e).
Proof.
  rewrite !append_split. change (merge_spaces (loc L b) (loc X e)) with (loc (merge_locals L X) (merge_spaces b e)). apply code_loc.
Qed.
Lemma merge_incl L M : forall X, incl X L -> incl M L -> incl (merge_locals X M) L.
Proof.
  unfold merge_locals. induction M as [|h M IH]; intros X I J; cbn [fold_left]; [exact I|]. apply IH; [|intros z Z; apply J; now right].
  destruct (existsb (Z.eqb h) X); [exact I|]. intros z Z. apply in_app_or in Z as [Z|[<-|[]]]; [auto|]. apply J. now left.
Qed.

Section Call.
Variable lbits : Z.
Variable atof : list Z -> Z.
Variable consts0 consts : list (list Z * tval).
Variable need_var top parsing_for : bool.
Hypothesis LB : 32 <= lbits.
Hypothesis LO : forall n v, In (n, v) (consts0 ++ consts) -> name n.
Variables L G : list Z.
Variable locals : option (list (list Z)).
Variable globals : list (list Z).
Hypothesis NC : no_clash name_hash (match locals with Some ls => ls | None => [] end ++ globals).
Hypothesis HT : same top match locals with None => true | Some _ => false end.
Hypothesis HL : forall ls, locals = Some ls -> L = map name_hash ls.
Hypothesis HG : same G (map (fun g => name_hash (58 :: 58 :: g)) globals).

Notation ready := (ready lbits atof consts0 consts).
Notation fresh := (fresh lbits atof consts0 consts).
Notation next := (next lbits atof consts0 consts).
Notation parse_loop := (parse_loop lbits atof consts0 consts need_var top false parsing_for).
Notation call_args := (call_args lbits atof consts0 consts).
Notation emit_named := (emit_named consts0 consts need_var top false).

Lemma arguments k args tss : Forall2 (argument locals globals) args tss -> forall b c m count st rest X,
  compile_args args b = COk c -> fresh G (commas tss ++ sign ")" :: rest) st -> (length (commas tss) < k)%nat -> (length args < m)%nat -> incl X L ->
  exists X' t st1, incl X' L /\ call_args (parse_loop k L [] false true) m count (loc X b) st = POk (t, count + lenZ args, loc X' c, st1) /\ fresh G rest st1.
Proof.
  induction 1 as [|e ts args tss (t & d & T & D & CS & CE & NI) F IH]; intros b c m count st rest X C R K M I; (destruct m as [|m]; [cbn in M; lia|]).
  - cbn [compile_args] in C. injection C as <-. cbn [commas app] in R. destruct (next_ready lbits atof consts0 consts LB LO G _ _ _ (proj1 R)) as (st1 & N & FR).
    exists X, (TokenModel.text ")"), st1. split; [exact I|]. split; [|exact FR]. cbn [ParseModel.call_args]. rewrite N. cbn [pbind sign t_quoted t_text].
    change (is (TokenModel.text ")") ")") with true. cbn [negb andb]. unfold lenZ. cbn [length Z.of_nat]. rewrite Z.add_0_r. reflexivity.
  - cbn [compile_args] in C. apply bind_ok in C as (d' & CE' & C). rewrite CE in CE'. injection CE' as <-. apply bind_ok in C as (b1 & C1 & C).
    destruct (begin_tokens atof consts0 consts need_var top L G locals globals NC HT HL HG t ts T e D) as (hd & tl & -> & BO).
    pose proof (parses_tree lbits atof consts0 consts need_var top parsing_for LB LO L G locals globals NC HT HL HG (length (hd :: tl)) t (hd :: tl) e d (le_n _) T D CS CE) as PA.
    assert (SH : exists r, commas ((hd :: tl) :: tss) ++ sign ")" :: rest = hd :: r /\
                 ((tss = [] /\ r = tl ++ sign ")" :: rest) \/ (tss <> [] /\ r = tl ++ sign "," :: commas tss ++ sign ")" :: rest))).
    { destruct tss as [|u tss]; cbn [app].
      - eexists. split; [reflexivity|]. left. auto.
      - change (commas ((hd :: tl) :: u :: tss)) with ((hd :: tl) ++ sign "," :: commas (u :: tss)).
        exists (tl ++ sign "," :: commas (u :: tss) ++ sign ")" :: rest). split; [now rewrite <- app_assoc|]. right. split; [discriminate|reflexivity]. }
    destruct SH as (r & ER & SH). rewrite ER in R. destruct (next_ready lbits atof consts0 consts LB LO G _ _ _ (proj1 R)) as (st1 & N & FR).
    assert (KL : (length (hd :: tl) < k)%nat /\ (tss <> [] -> (length (commas tss) < k)%nat)).
    { destruct tss as [|u tss]; [split; [exact K|congruence]|]. change (commas ((hd :: tl) :: u :: tss)) with ((hd :: tl) ++ sign "," :: commas (u :: tss)) in K.
      rewrite app_length in K. cbn [length] in K |- *. split; [lia|]. intros _. lia. }
    destruct KL as (KL & KC).
    assert (B1 : negb (t_quoted hd) && is (t_text hd) ")" = false).
    { destruct (t_quoted hd) eqn:Q; [reflexivity|]. cbn [negb andb]. unfold begins_operand in BO. destruct hd as [w [|v| |] q]; cbn [t_val t_text] in *; [tauto| |destruct BO..].
      apply fresh_int in R. apply hexa_is; [exact R|cbn; tauto]. }
    cbn [ParseModel.call_args]. rewrite N. cbn [pbind]. rewrite B1.
    assert (ND : dereferenced (loc L d) = loc L d) by (unfold dereferenced; change (ends_in_index (loc L d)) with (ends_in_index d); now rewrite NI).
    destruct SH as [(-> & ->)|(NE & ->)].
    + inversion F; subst. destruct (PA k (hand_back hd st1) rest true ")"%string) as (st2 & E2 & FR2); [cbn; tauto| |exact KL|].
      { cbn [app]. apply hand_ready; [exact FR|]. now apply begins_handed. }
      rewrite E2. cbn [pbind]. rewrite ND, append_merged, C1. cbn [cmap lift pbind]. change (nth O (TokenModel.text ")") 0 =? 41) with true. cbv iota.
      cbn [compile_args] in C. injection C as <-. exists (merge_locals X L), (t_text hd), st2. split; [apply merge_incl; [exact I|apply incl_refl]|]. split; [reflexivity|exact FR2].
    + destruct (PA k (hand_back hd st1) (commas tss ++ sign ")" :: rest) true ","%string) as (st2 & E2 & FR2); [cbn; tauto| |exact KL|].
      { cbn [app]. apply hand_ready; [exact FR|]. now apply begins_handed. }
      rewrite E2. cbn [pbind]. rewrite ND, append_merged, C1. cbn [cmap lift pbind]. change (nth O (TokenModel.text ",") 0 =? 41) with false. change (nth O (TokenModel.text ",") 0 =? 44) with true. cbv iota.
      destruct (IH b1 c m (count + 1) st2 rest (merge_locals X L) C FR2 (KC NE)) as (X' & t2 & st3 & I' & E3 & FR3); [cbn [length] in M; lia|apply merge_incl; [exact I|apply incl_refl]|].
      exists X', t2, st3. split; [exact I'|]. split; [|exact FR3]. rewrite E3. replace (count + 1 + lenZ args) with (count + lenZ (e :: args)) by (unfold lenZ; cbn [length]; lia). reflexivity.
Qed.
Lemma args_length args tss : Forall2 (argument locals globals) args tss -> (length args <= length (commas tss))%nat.
Proof.
  induction 1 as [|e ts args tss (t & d & T & D & _) F IH]; [cbn; lia|].
  destruct (begin_tokens atof consts0 consts need_var top L G locals globals NC HT HL HG t ts T e D) as (hd & tl & -> & _).
  destruct tss as [|u tss]; [inversion F; subst; cbn; lia|]. change (commas ((hd :: tl) :: u :: tss)) with ((hd :: tl) ++ sign "," :: commas (u :: tss)). rewrite app_length. cbn [length]. cbn [length] in IH. lia.
Qed.
(* a call, where an operand is expected *)
Lemma call_step f args tss c cs k st rest allow : identifier f -> name_hash f <> name_hash (TokenModel.text "yield") -> Forall2 (argument locals globals) args tss ->
  compile_call (name_hash f) args = COk c -> label_or_literal (prev_of cs) = false ->
  ready G (word_token f :: sign "(" :: commas tss ++ sign ")" :: rest) st -> (length (commas tss) < k)%nat ->
  exists X t st1, incl X L /\ fresh G rest st1 /\
    parse_loop (S (S k)) L cs false allow st = parse_loop k L (cs ++ [mkE (KLeaf (LCode t (loc X c))) (-1)]) false allow st1.
Proof.
  intros ID NY F C LP R K. unfold compile_call in C. apply bind_ok in C as (d & C1 & C). apply bind_ok in C as (d1 & C2 & C). injection C as <-.
  pose proof (args_fns args _ _ C1 eq_refl) as FN. pose proof (args_length _ _ F) as AL.
  pose proof (name_named f ID) as NM. destruct (names_facts atof L f false (prev_of cs) NM) as (F1 & F2 & F3 & F4 & F5 & F6 & F7).
  destruct (next_ready lbits atof consts0 consts LB LO G _ _ _ R) as (st1 & N1 & FR1).
  assert (ST : forall st', ready G (sign "(" :: commas tss ++ sign ")" :: rest) st' -> exists X t st1, incl X L /\ fresh G rest st1 /\
    parse_loop (S k) L (cs ++ [mkE (KLeaf (LName f false false)) (-1)]) false allow st' = parse_loop k L (cs ++ [mkE (KLeaf (LCode t (loc X (push_data [u8 (lenZ args); 88; 88; 88; 88] d1)))) (-1)]) false allow st1).
  { intros st' R'. destruct (next_ready lbits atof consts0 consts LB LO G _ _ _ R') as (st2 & N2 & FR2).
    destruct (arguments k args tss F empty_bc d k 0 st2 rest [] C1 FR2 K ltac:(lia) ltac:(intros z [])) as (X & t & st3 & I & E3 & FR3).
    exists X, t, st3. split; [exact I|]. split; [exact FR3|]. cbn [ParseModel.parse_loop]. rewrite N2. cbn [pbind sign t_val t_text].
    change (ends (TokenModel.text "(")) with false. change (is (TokenModel.text "(") "var") with false. change (is (TokenModel.text "(") "blank" || is (TokenModel.text "(") "{") with false.
    change (is (TokenModel.text "(") "new") with false. change (is (TokenModel.text "(") "(") with true. cbv iota.
    rewrite string_text, no_open. replace (prev_of (cs ++ [mkE (KLeaf (LName f false false)) (-1)])) with (Some (mkE (KLeaf (LName f false false)) (-1))) by (unfold prev_of; now rewrite rev_app_distr).
    cbn [is_label label_text leaf_text]. change (mkB [] [] [] [] [] [] []) with (loc [] empty_bc). rewrite E3. cbn [pbind]. unfold call_code.
    replace (name_hash f =? name_hash (TokenModel.text "yield")) with false by lia. change (size (loc X d)) with (size d). change (b_fns (loc X d)) with (b_fns d). rewrite FN. cbn [add_reference].
    change (mkB (b_all (loc X d)) (b_ops (loc X d)) (b_locals (loc X d)) [(name_hash f, [size d])] (b_objs (loc X d)) (b_jumps (loc X d)) (b_gotos (loc X d))) with (loc X (mkB (b_all d) (b_ops d) (b_locals d) [(name_hash f, [size d])] (b_objs d) (b_jumps d) (b_gotos d))).
    rewrite push_loc, C2. cbn [cmap lift pbind]. rewrite removelast_last. reflexivity. }
  remember (S k) as k1. cbn [ParseModel.parse_loop]. rewrite N1. cbn [pbind word_token t_val t_text]. rewrite F1, F2, F3, F4, F5, F6, F7, (nm_label _ _ NM), LP.
  destruct cs as [|c0 cs]; [|apply ST, FR1]. destruct parsing_for; [apply ST, FR1|].
  destruct (next_ready lbits atof consts0 consts LB LO G _ _ _ (proj1 FR1)) as (st2 & N2 & FR2). rewrite N2. cbn [pbind sign t_text t_quoted].
  change (is (TokenModel.text "(") ":") with false. cbn [negb andb]. apply ST. apply hand_ready; [exact FR2|reflexivity].
Qed.
Lemma leaf_resolved {leaf} (x : leaf) : resolve_expression [mkE (KLeaf x) (-1)] = COk [ALoad x].
Proof. reflexivity. Qed.
Lemma assign_resolved {leaf} (x y : leaf) : resolve_expression [mkE (KLeaf x) (-1); mkE (KOp assign_op []) (-1); mkE (KLeaf y) (-1)] = COk [ALoad y; ALoad x; AOp assign_op []].
Proof. reflexivity. Qed.
Theorem parses_call to tt f args tss c : target_tokens locals globals to tt -> identifier f -> name_hash f <> name_hash (TokenModel.text "yield") ->
  Forall2 (argument locals globals) args tss -> compile_call_to to (name_hash f) args = COk c ->
  forall k st rest allow s, In s closers -> ready G (tt ++ word_token f :: sign "(" :: commas tss ++ sign ")" :: sign s :: rest) st -> (length tt + 4 + length (commas tss) < k)%nat ->
  exists st1, parse_loop k L [] false allow st = POk (nth O (TokenModel.text s) 0, loc L c, st1) /\ fresh G rest st1.
Proof.
  intros TG ID NY F C k st rest allow s IS R K. unfold compile_call_to in C. destruct (closer_handed s IS) as (_ & _ & ES).
  destruct TG as [|x q i l D T].
  - cbn [call_tree call_operand ExprSpec.text] in C. change (parse_expression [IAtom (EPar (Atom (EInt 0)))]) with (COk [ALoad (EPar (Atom (EInt 0)))] : cres (list (action expr))) in C.
    cbn [cbind emit_all_nested emit_nested] in C. apply bind_ok in C as (c1 & C & CX). injection CX as ->. apply bind_ok in C as (cc & C1 & C2).
    destruct k as [|[|[|k]]]; [lia..|]. cbn [app] in R.
    destruct (call_step f args tss cc [] (S k) st (sign s :: rest) allow ID NY F C1 eq_refl R ltac:(cbn in K; lia)) as (X & t & st1 & I & FR & E). rewrite E. cbn [app].
    destruct (next_ready lbits atof consts0 consts LB LO G _ _ _ (proj1 FR)) as (st2 & N2 & FR2). cbn [ParseModel.parse_loop]. rewrite N2. cbn [pbind sign t_val t_text]. rewrite ES.
    unfold finish. rewrite leaf_resolved. cbn [lift pbind ParseModel.emit_names ParseModel.emit_named].
    change (mkB [] [] L [] [] [] []) with (loc L empty_bc). rewrite append_loc by (apply merge_in, Forall_forall, I). rewrite C2. cbn [cmap lift pbind].
    destruct FR2 as [[PG R2] PN]. eexists. split; [reflexivity|]. split; [split; [exact PG|exact R2]|exact PN].
  - inversion D as [|x' q' i' V IDx|]; subst.
    destruct (variable_ok consts0 consts need_var top L G locals globals NC HT HL HG 0 x q i V IDx) as (n & g & NM & OK & TK). rewrite (TK _ T) in *. clear TK.
    change (call_tree (Some (q, i))) with (Infix "=" (Atom (EVar q i)) call_operand) in C. cbn [call_operand ExprSpec.text app] in C.
    change (parse_expression [IAtom (EVar q i); ISym "=" []; IAtom (EPar (Atom (EInt 0)))]) with (COk [ALoad (EPar (Atom (EInt 0))); ALoad (EVar q i); AOp assign_op []] : cres (list (action expr))) in C.
    cbn [cbind emit_all_nested] in C. apply bind_ok in C as (c1 & C1 & C). apply bind_ok in C as (c2 & C2 & C). apply bind_ok in C as (c3 & C3 & C). injection C as ->.
    cbn [emit_nested] in C1. apply bind_ok in C1 as (cc & C0 & C1).
    destruct k as [|[|[|[|[|k]]]]]; [lia..|]. cbn [app length] in R, K.
    destruct (next_ready lbits atof consts0 consts LB LO G _ _ _ R) as (st1 & N1 & FR1).
    destruct (names_facts atof L n g (prev_of []) NM) as (F1 & F2 & F3 & F4 & F5 & F6 & F7).
    assert (SM : forall st3, ready G (sign "=" :: word_token f :: sign "(" :: commas tss ++ sign ")" :: sign s :: rest) st3 ->
      exists st1, parse_loop (S (S (S (S k)))) L [mkE (KLeaf (LName n g false)) (-1)] false allow st3 = POk (nth O (TokenModel.text s) 0, loc L c, st1) /\ fresh G rest st1).
    { intros st3 R3. destruct (next_ready lbits atof consts0 consts LB LO G _ _ _ R3) as (st4 & N4 & FR4).
      destruct (call_step f args tss cc [mkE (KLeaf (LName n g false)) (-1); mkE (KOp assign_op []) (-1)] (S k) st4 (sign s :: rest) allow ID NY F C0 eq_refl (proj1 FR4) ltac:(lia)) as (X & t & st5 & I & FR5 & E).
      remember (S (S (S k))) as k3. cbn [ParseModel.parse_loop]. rewrite N4. cbn [pbind sign t_val t_text].
      change (ends (TokenModel.text "=")) with false. change (is (TokenModel.text "=") "var") with false. change (is (TokenModel.text "=") "blank" || is (TokenModel.text "=") "{") with false. cbv iota.
      rewrite string_text. change (operator_found "=" (prev_of [mkE (KLeaf (LName n g false)) (-1)])) with (Some assign_op). cbn [app]. subst k3. rewrite E. cbn [app].
      destruct (next_ready lbits atof consts0 consts LB LO G _ _ _ (proj1 FR5)) as (st6 & N6 & FR6). cbn [ParseModel.parse_loop]. rewrite N6. cbn [pbind sign t_val t_text]. rewrite ES.
      unfold finish. rewrite assign_resolved. cbn [lift pbind ParseModel.emit_names]. destruct FR6 as [[PG R6] PN]. rewrite PG.
      assert (E1 : emit_named allow (ALoad (LCode t (loc X cc))) (mkB [] [] L [] [] [] []) G = POk (loc L c1, G)).
      { cbn [ParseModel.emit_named]. change (mkB [] [] L [] [] [] []) with (loc L empty_bc). rewrite append_loc by (apply merge_in, Forall_forall, I). rewrite C1. reflexivity. }
      rewrite E1. cbn [pbind].
      rewrite (OK allow c1 c2 C2). cbn [pbind]. cbn [ParseModel.emit_named text_action map]. rewrite action_loc by reflexivity. cbn [emit_nested term_action map] in C3. rewrite C3. cbn [cmap lift pbind].
      eexists. split; [reflexivity|]. split; [split; [reflexivity|exact R6]|exact PN]. }
    remember (S (S (S (S k)))) as k4. cbn [ParseModel.parse_loop]. rewrite N1. cbn [pbind t_val t_text]. rewrite F1, F2, F3, F4, F5, F6, F7, (nm_label _ _ NM). change (label_or_literal (prev_of [])) with false. cbv iota. cbn [app].
    destruct parsing_for; [apply SM, FR1|].
    destruct (next_ready lbits atof consts0 consts LB LO G _ _ _ (proj1 FR1)) as (st3 & N3 & FR3). rewrite N3. cbn [pbind sign t_text t_quoted].
    change (is (TokenModel.text "=") ":") with false. cbn [negb andb]. apply SM. apply hand_ready; [exact FR3|reflexivity].
Qed.
End Call.
