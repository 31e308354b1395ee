(* The code of an expression with parentheses (C56): the compiler that forgets its opcodes emits code
   derived from the expression's instructions. *)
From Coq Require Import String.
From Verif Require Import Base BaseLemmas HashModel FloatModel OpsModel VmModel VmSpec EmitModel JumpProofs ExprModel ExprEmit ExprSpec ExprNest ExprStack ExprProps
  FuseSpec FuseRules FuseChunks FuseProofs EvalSpec EvalProofs EvalRun EvalNest.
Open Scope string_scope. Open Scope list_scope. Open Scope Z_scope.

Lemma derives_app is js : derives is js -> forall is' js', derives is' js' -> derives (is ++ is') (js ++ js').
Proof.
  intros H is' js' H'. induction H' as [|is' js' i SI D IH|is' a b c D IH R].
  - now rewrite !app_nil_r.
  - rewrite !app_assoc. now constructor.
  - rewrite app_assoc. eapply d_rule; [|exact R]. now rewrite <- app_assoc.
Qed.

(* code without names, jumps and labels *)
Definition pure (b : bcode) : Prop := b = set_code empty_bc (b_all b) (b_ops b).
Lemma pure_code b all ops : pure b -> pure (set_code b all ops).
Proof. intros ->. reflexivity. Qed.
Lemma pure_push o d b b1 : pure b -> push_opcode o b = COk b1 -> pure (push_data d b1).
Proof. intros P. unfold push_opcode. destruct (fuse o (b_ops b) (rev (b_all b))); intros [= <-]; unfold push_data; repeat apply pure_code; assumption. Qed.
Lemma pure_emit cs : forall b b1, pure b -> emit_all cs b = COk b1 -> pure b1.
Proof.
  induction cs as [|c cs IH]; intros b b1 P; cbn [emit_all]; [intros [= <-]; exact P|].
  destruct (push_opcode (fst c) b) as [b2| |] eqn:E; try discriminate. cbn [cbind]. apply IH. eapply pure_push; eauto.
Qed.

Definition indexes (o : opcode) : bool := match o with O_Index | O_IndexLiteral8 | O_IndexLiteral16 => true | _ => false end.
Lemma append_pure b c : pure c -> match b_ops c with o :: _ => indexes o = false | [] => True end -> length (b_all c) <> 1%nat ->
  append_bytecode b c = COk (set_code b (b_all b ++ b_all c) (b_ops c ++ b_ops b)).
Proof.
  intros P IX L. destruct c as [all ops lo fn ob ju go]. unfold pure, set_code, empty_bc in P. cbn in P. injection P as -> -> -> -> ->. cbn [b_ops b_all] in *.
  assert (M : merge_spaces b (mkB all ops [] [] [] [] []) = b) by apply merge_empty. unfold append_bytecode. rewrite M. cbn [b_ops b_all b_gotos].
  assert (J : append_plain b (mkB all ops [] [] [] [] []) = COk (set_code b (b_all b ++ all) (ops ++ b_ops b))) by reflexivity.
  assert (K : match ops, all with
              | o :: _, [_] => if op_eqb (last ops o) O_HASH_PLACEHOLDER then
                  match b_ops b, rev (b_all b) with
                  | O_LoadFromLocal :: O_LiteralInt32 :: _, p0 :: _ :: p2 :: p3 :: p4 :: p5 :: _ :: r =>
                    COk (set_code b (rev r ++ [byte_of O_LocalIndexHash; p0; p5; p4; p3; p2]) [])
                  | O_LoadFromGlobal :: O_LiteralInt32 :: _, p0 :: _ :: p2 :: p3 :: p4 :: p5 :: _ :: r =>
                    COk (set_code b (rev r ++ [byte_of O_GlobalIndexHash; p0; p5; p4; p3; p2]) [])
                  | O_StackSwap :: O_LiteralInt32 :: _, _ :: _ :: p2 :: p3 :: p4 :: p5 :: _ :: r =>
                    COk (set_code b (rev r ++ [byte_of O_StackIndexHash; p5; p4; p3; p2]) [])
                  | _, _ => CErr E_compiler_panic
                  end
                else push_opcode (last ops o) b
              | [], [_] => CUB
              | _, _ => append_plain b (mkB all ops [] [] [] [] [])
              end = append_plain b (mkB all ops [] [] [] [] [])).
  { destruct ops as [|o r], all as [|x [|y l]]; try reflexivity; contradiction L; reflexivity. }
  rewrite <- J. destruct (match b_ops b with [] => None | o :: _ => load_of o end); [|exact K].
  destruct ops as [|o r]; [exact K|]. destruct o; try discriminate IX; exact K.
Qed.
Lemma append_zero b c x : pure c -> b_all c = [x] -> b_ops c = [O_LiteralZero] -> append_bytecode b c = push_opcode O_LiteralZero b.
Proof.
  intros P E1 E2. unfold pure in P. rewrite E1, E2 in P. subst c. unfold append_bytecode. rewrite merge_empty. cbn [b_gotos b_ops b_all set_code empty_bc last].
  destruct (match b_ops b with [] => None | o0 :: _ => load_of o0 end); reflexivity.
Qed.
Lemma push_zero b : push_opcode O_LiteralZero b = COk (set_code b (b_all b ++ [byte_of O_LiteralZero]) (O_LiteralZero :: b_ops b)).
Proof. unfold push_opcode. destruct (b_ops b) as [|o r]; reflexivity. Qed.

Lemma covered_flat o r cs js : covered (o :: r) cs -> reads (rev cs) js -> forallb flatline js = true -> indexes o = false.
Proof.
  intros C R F. destruct cs as [|[o' d] cs]; [destruct C|]. cbn [covered fst] in C. destruct C as [-> _]. cbn [rev] in R.
  apply reads_app in R. destruct R as (j1 & j2 & -> & _ & R). inversion R as [|? i ? ? I R']; subst.
  rewrite forallb_app in F. apply andb_prop in F. destruct F as [_ F]. cbn [forallb] in F. apply andb_prop in F. destruct F as [F _].
  destruct o; try reflexivity; exfalso.
  all: apply instr_at_inv in I; [|reflexivity]; destruct I as (n & D & _); cbn [decode_op] in D.
  all: unfold n0, lU8, lS16 in D.
  all: repeat match type of D with context [match ?x with _ => _ end] => destruct x; try discriminate D end.
  all: injection D as <- _; discriminate F.
Qed.
Lemma operand_bytes o d i : looks_below o = true -> instr_at (o, d) = Some i -> operand_size o = 0 \/ lenZ (chunk_bytes (o, d)) = operand_size o.
Proof.
  intros L I. destruct (is_literal o) eqn:E.
  - right. destruct (at_lit _ _ _ E I) as (v & _ & LV & _). destruct o; try discriminate E; cbn [lit_val] in LV; repeat (destruct d as [|? d]; try discriminate LV); reflexivity.
  - destruct (load_of o) as [q|] eqn:E2.
    + right. destruct (at_load _ _ _ _ E2 I) as (x & -> & _). destruct o; try discriminate E2; reflexivity.
    + left. unfold looks_below in L. rewrite E, E2 in L. destruct o; try discriminate; reflexivity.
Qed.
Lemma plain_app a b : plain_bytes (a ++ b) = plain_bytes a ++ plain_bytes b.
Proof. unfold plain_bytes. now rewrite map_app, concat_app. Qed.
Lemma plain_none cs : lenZ (plain_bytes cs) = 0 -> cs = [].
Proof. destruct cs as [|c cs]; [reflexivity|]. change (plain_bytes (c :: cs)) with (chunk_bytes c ++ plain_bytes cs). rewrite lenZ_app'. pose proof (chunk_pos c). pose proof (lenZ_nonneg (plain_bytes cs)). lia. Qed.
Lemma covered_app c cs csb opsb : accounted c = true -> covered (b_ops c) cs -> Forall good cs -> b_all c = plain_bytes (rev cs) -> covered opsb csb ->
  covered (b_ops c ++ opsb) (cs ++ csb).
Proof.
  intros A C G E CB. unfold accounted in A. destruct (b_ops c) as [|o r]; [discriminate|]. destruct cs as [|[o' d] cs]; [destruct C|].
  cbn [covered app fst] in *. destruct C as [-> C]. split; [reflexivity|]. intros LB. rewrite LB in A. cbn [negb orb] in A. apply andb_prop in A. destruct A as [A1 A2].
  destruct r; [|discriminate]. cbn [app]. apply Z.eqb_eq in A2. apply Forall_inv in G. destruct G as [_ [i I]].
  rewrite E in A2. cbn [rev] in A2. rewrite plain_app, lenZ_app' in A2. unfold plain_bytes at 2 in A2. cbn [map concat] in A2. rewrite app_nil_r in A2.
  pose proof (chunk_pos (o, d)). pose proof (lenZ_nonneg (plain_bytes (rev cs))).
  destruct (operand_bytes _ _ _ LB I) as [Z0|Z0]; [lia|]. assert (N : rev cs = []) by (apply plain_none; lia). apply (f_equal (@rev _)) in N. rewrite rev_involutive in N. subst cs. exact CB.
Qed.

Lemma append_honest_code b c b1 cs js : pure c -> covered (b_ops c) cs -> reads (rev cs) js -> forallb flatline js = true -> b_all c = plain_bytes (rev cs) ->
  append_honest b c = COk b1 -> b1 = set_code b (b_all b ++ b_all c) (if accounted c then b_ops c ++ b_ops b else []).
Proof.
  intros P C R F E H. unfold append_honest in H.
  assert (IX : match b_ops c with o :: _ => indexes o = false | [] => True end) by (destruct (b_ops c); [exact I|eapply covered_flat; eauto]).
  assert (PL : length (b_all c) <> 1%nat -> (b1 <~ append_bytecode b c ;; COk (if accounted c then b1 else set_code b1 (b_all b1) [])) = COk b1 ->
    b1 = set_code b (b_all b ++ b_all c) (if accounted c then b_ops c ++ b_ops b else [])).
  { intros L. rewrite append_pure by assumption. cbn [cbind]. intros [= <-]. destruct (accounted c); reflexivity. }
  destruct (b_all c) as [|x [|y l]] eqn:EA; [apply PL; [discriminate|exact H]| |apply PL; [discriminate|exact H]].
  destruct (b_ops c) as [|o [|? ?]] eqn:EO; try discriminate; destruct o; try discriminate.
  rewrite (append_zero b c x P EA EO), push_zero in H. injection H as <-.
  assert (AC : accounted c = true) by (unfold accounted; rewrite EO, EA; reflexivity). rewrite AC. cbn [app].
  destruct cs as [|[o d] cs]; [destruct C|]. cbn [covered fst] in C. destruct C as [-> _]. cbn [rev] in E. rewrite plain_app in E.
  destruct (plain_bytes (rev cs)) as [|p q]; [injection E as -> _; reflexivity|]. exfalso. destruct q; discriminate.
Qed.

Lemma emit_block start b dn is c dnc isc b1 : emitted start b dn is -> emitted [] c dnc isc -> pure c -> append_honest b c = COk b1 ->
  emitted start b1 (dn ++ dnc) (is ++ isc).
Proof.
  intros (cs & js & EB & CV & G & R & D & ED) (csc & jsc & EBc & CVc & Gc & Rc & Dc & EDc) P H. cbn [app] in EBc.
  rewrite (append_honest_code _ _ _ _ _ P CVc Rc (derives_flat _ _ Dc) EBc H). exists (csc ++ cs), (js ++ jsc). cbn [b_all b_ops set_code].
  rewrite rev_app_distr, plain_app. split; [now rewrite EB, EBc, <- app_assoc|]. split; [|split; [|split; [|split]]].
  - destruct (accounted c) eqn:A; [|exact I]. now apply covered_app.
  - now apply Forall_app.
  - now apply reads_app2.
  - now apply derives_app.
  - intros x r E N AE. destruct (accounted c) eqn:A; [|now contradiction N].
    unfold accounted in A. destruct (b_ops c) as [|o q] eqn:EO; [discriminate|]. destruct csc as [|x' csc]; [destruct CVc|]. cbn [app] in E. injection E as <- <-.
    destruct (EDc x' csc eq_refl) as [dn' ->]; [discriminate|exact AE|]. exists (dn ++ dn'). now rewrite app_assoc.
Qed.

(* ---------------------------------------------------------------- a whole expression *)
Definition good_acts (acts : list (action term)) : Prop :=
  Forall simple_action acts /\ Forall (fun a => fst (chunk_of a) <> O_HASH_PLACEHOLDER) acts /\ Forall source (map chunk_of acts).
Lemma good_acts_app a b : good_acts (a ++ b) -> good_acts a /\ good_acts b.
Proof. unfold good_acts. rewrite map_app, !Forall_app. tauto. Qed.
Lemma negations_right a b : negations_fit (a ++ b) -> negations_fit b.
Proof. intros H x c d y ->. apply (H (a ++ x) c d y). now rewrite <- app_assoc. Qed.
Theorem block_emitted n : forall t h, block append_honest n t = COk h -> good_acts (flat n t) -> negations_fit (map chunk_of (flat n t)) ->
  pure h /\ exists is, reads (map chunk_of (flat n t)) is /\ emitted [] h (map chunk_of (flat n t)) is.
Proof.
  induction n as [|n IH]; intros t h H GA NF; [discriminate|]. cbn [block flat] in *.
  destruct (parse_expression (text t)) as [acts| |]; try discriminate. cbn [cbind] in H.
  enough (K : forall acts b dn is, emit_all_nested append_honest (block append_honest n) acts b = COk h -> pure b -> emitted [] b dn is ->
     good_acts (flat_map (place (flat n)) acts) -> negations_fit (dn ++ map chunk_of (flat_map (place (flat n)) acts)) ->
     pure h /\ exists iss, reads (map chunk_of (flat_map (place (flat n)) acts)) iss /\ emitted [] h (dn ++ map chunk_of (flat_map (place (flat n)) acts)) (is ++ iss)).
  { apply (K acts empty_bc [] []); auto; [reflexivity|]. exists [], []. cbn. repeat split; try constructor. discriminate. }
  clear acts GA NF H t. induction acts as [|a acts IA]; intros b dn is H P E GA NF.
  - cbn in H. injection H as <-. split; [exact P|]. exists []. split; [constructor|]. cbn. now rewrite !app_nil_r.
  - cbn [emit_all_nested] in H. destruct (emit_nested _ _ a b) as [b1| |] eqn:EN; try discriminate. cbn [cbind] in H.
    cbn [flat_map] in *. rewrite map_app in *. apply good_acts_app in GA. destruct GA as [G1 G2].
    assert (S1 : pure b1 /\ exists i1, reads (map chunk_of (place (flat n) a)) i1 /\ emitted [] b1 (dn ++ map chunk_of (place (flat n) a)) (is ++ i1)).
    { rewrite app_assoc in NF. apply negations_left in NF.
      assert (SM : place (flat n) a = [term_action a] -> emit_action (term_action a) b = COk b1 -> pure b1 /\ exists i1, reads (map chunk_of (place (flat n) a)) i1 /\ emitted [] b1 (dn ++ map chunk_of (place (flat n) a)) (is ++ i1)).
      { intros EP EA. rewrite EP in *. destruct G1 as (SA & NH & SC). rewrite emit_one_action in EA by first [exact (Forall_inv SA)|exact (Forall_inv NH)].
        split; [eapply pure_emit; eauto|]. destruct (source_reads _ SC) as (i1 & R1 & _). exists i1. split; [exact R1|]. eapply emit_seq; eauto. }
      destruct a as [[z|q k|u]|h0|k|k1 k2|q x|c]; cbn [emit_nested] in EN; try (apply SM; [reflexivity|exact EN]).
      cbn [place] in *. destruct (block append_honest n u) as [c| |] eqn:BU; try discriminate. cbn [cbind] in EN.
      destruct (IH u c BU G1 (negations_right _ _ NF)) as (PC & i1 & R1 & E1). split.
      - destruct E1 as (csc & jsc & EBc & CVc & Gc & Rc & Dc & EDc). cbn [app] in EBc.
        rewrite (append_honest_code _ _ _ _ _ PC CVc Rc (derives_flat _ _ Dc) EBc EN). now apply pure_code.
      - exists i1. split; [exact R1|]. eapply emit_block; eauto. }
    destruct S1 as (P1 & i1 & R1 & E1). rewrite app_assoc in NF.
    destruct (IA b1 _ _ H P1 E1 G2 NF) as (P2 & i2 & R2 & E2). split; [exact P2|]. exists (i1 ++ i2). split; [now apply reads_app2|]. now rewrite !app_assoc.
Qed.
