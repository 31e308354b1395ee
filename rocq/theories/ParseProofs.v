(* Proofs about the parser of expressions, first part: the code and the names. *)
From Coq Require Import String Ascii.
From Verif Require Import Base HashModel OpsModel VmModel EmitModel ExprModel ExprEmit ExprSpec ExprNest EvalSpec TokenModel TokenSpec TokenProofs AppendProofs ExprParam ParseModel ParseSpec.
Open Scope list_scope. Open Scope Z_scope.

(* ---------------------------------------------------------------- the code does not depend on the names in the space *)
Definition loc (L : list Z) (b : bcode) : bcode := mkB (b_all b) (b_ops b) L (b_fns b) (b_objs b) (b_jumps b) (b_gotos b).
Lemma push_loc L o b : push_opcode o (loc L b) = cmap (loc L) (push_opcode o b).
Proof. unfold push_opcode. cbn [loc b_ops b_all]. destruct (fuse o (b_ops b) (rev (b_all b))); reflexivity. Qed.
Lemma merge_in L X : Forall (fun x => In x L) X -> merge_locals L X = L.
Proof.
  unfold merge_locals. induction 1 as [|x X I F IH]; [reflexivity|]. cbn [fold_left].
  replace (existsb (Z.eqb x) L) with true; [exact IH|]. symmetry. apply existsb_exists. exists x. split; [exact I|lia].
Qed.
Lemma plain_loc L X b e : append_plain (loc L b) (loc X e) = cmap (loc L) (append_plain b e).
Proof. unfold append_plain, resolve_jumps. cbn [loc b_jumps b_all b_ops]. destruct (resolve_targets (b_jumps e) (b_all e)); reflexivity. Qed.
Lemma code_loc L X b e : append_code (loc L b) (loc X e) = cmap (loc L) (append_code b e).
Proof.
  unfold append_code. cbv zeta. cbn [loc b_jumps b_all b_ops b_gotos]. fold (loc L b) (loc X e).
  assert (D : match b_ops e, b_all e with
    | o :: _, [_] =>
      if op_eqb (last (b_ops e) o) O_HASH_PLACEHOLDER then
        match b_ops b, rev (b_all b) with
        | O_LoadFromLocal :: O_LiteralInt32 :: _, p0 :: _ :: p2 :: p3 :: p4 :: p5 :: _ :: r =>
          COk (set_code (loc L b) (rev r ++ [byte_of O_LocalIndexHash; p0; p5; p4; p3; p2]) [])
        | O_LoadFromGlobal :: O_LiteralInt32 :: _, p0 :: _ :: p2 :: p3 :: p4 :: p5 :: _ :: r =>
          COk (set_code (loc L b) (rev r ++ [byte_of O_GlobalIndexHash; p0; p5; p4; p3; p2]) [])
        | O_StackSwap :: O_LiteralInt32 :: _, _ :: _ :: p2 :: p3 :: p4 :: p5 :: _ :: r =>
          COk (set_code (loc L b) (rev r ++ [byte_of O_StackIndexHash; p5; p4; p3; p2]) [])
        | _, _ => CErr E_compiler_panic
        end
      else push_opcode (last (b_ops e) o) (loc L b)
    | [], [_] => CUB
    | _, _ => append_plain (loc L b) (loc X e)
    end = cmap (loc L) match b_ops e, b_all e with
    | o :: _, [_] =>
      if op_eqb (last (b_ops e) o) O_HASH_PLACEHOLDER then
        match b_ops b, rev (b_all b) with
        | O_LoadFromLocal :: O_LiteralInt32 :: _, p0 :: _ :: p2 :: p3 :: p4 :: p5 :: _ :: r =>
          COk (set_code b (rev r ++ [byte_of O_LocalIndexHash; p0; p5; p4; p3; p2]) [])
        | O_LoadFromGlobal :: O_LiteralInt32 :: _, p0 :: _ :: p2 :: p3 :: p4 :: p5 :: _ :: r =>
          COk (set_code b (rev r ++ [byte_of O_GlobalIndexHash; p0; p5; p4; p3; p2]) [])
        | O_StackSwap :: O_LiteralInt32 :: _, _ :: _ :: p2 :: p3 :: p4 :: p5 :: _ :: r =>
          COk (set_code b (rev r ++ [byte_of O_StackIndexHash; p5; p4; p3; p2]) [])
        | _, _ => CErr E_compiler_panic
        end
      else push_opcode (last (b_ops e) o) b
    | [], [_] => CUB
    | _, _ => append_plain b e
    end).
  { destruct (b_ops e) as [|o l]; destruct (b_all e) as [|x [|y r]]; try apply plain_loc; [reflexivity|].
    destruct (op_eqb _ _); [|apply push_loc].
    repeat (match goal with |- match ?x with _ => _ end = _ => destruct x end; try reflexivity). }
  repeat (match goal with |- match ?x with _ => _ end = _ => destruct x end; try exact D; try reflexivity; try apply plain_loc).
Qed.
Lemma append_loc L X b e : merge_locals L X = L -> append_bytecode (loc L b) (loc X e) = cmap (loc L) (append_bytecode b e).
Proof.
  intros M. rewrite !append_split. assert (E : merge_spaces (loc L b) (loc X e) = loc L (merge_spaces b e)).
  { unfold merge_spaces, loc, size. cbn [b_all b_ops b_locals b_fns b_objs b_jumps b_gotos]. now rewrite M. }
  rewrite E. apply code_loc.
Qed.
Lemma bind_loc L (r : cres bcode) d : (b1 <~ cmap (loc L) r ;; COk (push_data d b1)) = cmap (loc L) (b1 <~ r ;; COk (push_data d b1)).
Proof. destruct r; reflexivity. Qed.
Lemma literal_loc L z b : push_literal z (loc L b) = cmap (loc L) (push_literal z b).
Proof. unfold push_literal. rewrite !push_loc. destruct (z =? 0); [reflexivity|]. destruct (_ && _); [apply bind_loc|]. destruct (_ && _); apply bind_loc. Qed.
Definition loads {A} (a : action A) : bool := match a with ALoad _ => true | _ => false end.
Lemma action_loc L a b : loads a = false -> emit_action a (loc L b) = cmap (loc L) (emit_action a b).
Proof.
  destruct a as [x|k| | | |]; cbn [loads emit_action]; intros E; try discriminate E; rewrite ?push_loc; try apply bind_loc; auto.
  - destruct k; try reflexivity. apply bind_loc.
  - unfold push_opcode. cbn [empty_bc b_ops b_all rev]. destruct (fuse (o_code o) [] []) as [ops rl| |]; try reflexivity; cbn [cbind].
    + apply (append_loc L [] b (set_code empty_bc (rev rl) ops)). reflexivity.
    + apply (append_loc L [] b (set_code empty_bc ([] ++ [byte_of (o_code o)]) [o_code o])). reflexivity.
Qed.

(* ---------------------------------------------------------------- the fuel for the parentheses *)
Lemma all_mono (f g : tree expr -> cres bcode) l : (forall t b, f t = COk b -> g t = COk b) ->
  forall b b1, emit_all_nested append_bytecode f l b = COk b1 -> emit_all_nested append_bytecode g l b = COk b1.
Proof.
  intros FG. induction l as [|a l IH]; intros b b1; cbn [emit_all_nested]; [auto|]. intros H.
  destruct (emit_nested append_bytecode f a b) as [b2| |] eqn:E; try discriminate H. cbn [cbind] in H.
  assert (E2 : emit_nested append_bytecode g a b = COk b2).
  { destruct a as [[| |t]|k| | | |]; try exact E. cbn [emit_nested] in *. destruct (f t) as [c| |] eqn:F; try discriminate E. rewrite (FG _ _ F). exact E. }
  rewrite E2. cbn [cbind]. now apply IH.
Qed.
Lemma block_mono n : forall m t b, (n <= m)%nat -> block append_bytecode n t = COk b -> block append_bytecode m t = COk b.
Proof.
  induction n as [|n IH]; intros [|m] t b L H; try discriminate H; [lia|]. cbn [block] in *.
  destruct (parse_expression (ExprSpec.text t)) as [a| |]; try discriminate H. cbn [cbind] in *.
  revert H. apply all_mono. intros u c. apply IH. lia.
Qed.

(* ---------------------------------------------------------------- names and hashes *)
Lemma index_place h (x : list Z) l i : (forall y, In y l -> h y = h x -> y = x) -> place_of x l i -> index_of (h x) (map h l) = Some i.
Proof.
  intros N P. induction P as [l|y l i D P IH]; cbn [map index_of]; [now rewrite Z.eqb_refl|].
  destruct (Z.eqb_spec (h y) (h x)) as [E|_]; [exfalso; apply D, N; [now left|exact E]|]. rewrite IH; [reflexivity|]. intros z I. apply N. now right.
Qed.
Lemma index_none h (x : list Z) l : (forall y, In y l -> h y = h x -> y = x) -> ~ In x l -> index_of (h x) (map h l) = None.
Proof.
  intros N P. induction l as [|y l IH]; [reflexivity|]. cbn [map index_of].
  destruct (Z.eqb_spec (h y) (h x)) as [E|_]; [exfalso; apply P; left; apply N; [now left|exact E]|]. rewrite IH; [reflexivity| |].
  - intros z I. apply N. now right.
  - intros I. apply P. now right.
Qed.
Lemma place_in x l i : place_of x l i -> In x l.
Proof. induction 1; [now left|now right]. Qed.

(* ---------------------------------------------------------------- characters *)
Lemma string_text s : string_of (TokenModel.text s) = s.
Proof. induction s as [|a s IH]; cbn [TokenModel.text string_of]; [reflexivity|]. now rewrite Nat2Z.id, ascii_nat_embedding, IH. Qed.
Lemma text_string l : Forall (fun c => 0 <= c < 256) l -> TokenModel.text (string_of l) = l.
Proof.
  induction 1 as [|c l C F IH]; cbn [TokenModel.text string_of]; [reflexivity|]. rewrite nat_ascii_embedding by lia. rewrite IH. f_equal. lia.
Qed.
Lemma is_no t s : t <> TokenModel.text s -> is t s = false.
Proof. apply same_text_no. Qed.
Lemma is_sign s s' : s <> s' -> is (TokenModel.text s) s' = false.
Proof. intros N. apply is_no. intros E. apply N. rewrite <- (string_text s), E. apply string_text. Qed.
Lemma is_same s : is (TokenModel.text s) s = true.
Proof. now apply same_text_iff. Qed.
(* the first character of the operators *)
Definition nameless (t : list Z) : bool := match t with [] => false | c :: _ => negb (c_alpha c) && negb (c =? 95) && negb (c =? 58) end.
Lemma ops_nameless : forallb (fun o => nameless (TokenModel.text (o_tok o))) c_operations = true.
Proof. reflexivity. Qed.
Lemma not_operator {leaf} t (p : option (ectx leaf)) : nameless t = false -> Forall (fun c => 0 <= c < 256) t -> operator_found (string_of t) p = None.
Proof.
  intros N F. destruct (operator_found (string_of t) p) as [q|] eqn:E; [|reflexivity]. exfalso. unfold operator_found in E. apply find_some in E as [I E].
  apply andb_true_iff in E as [E _]. apply String.eqb_eq in E. pose proof (proj1 (forallb_forall _ _) ops_nameless q I) as X. cbv beta in X. rewrite <- E, text_string in X by exact F. congruence.
Qed.
(* a token that is a name *)
Record named (t : list Z) (global : bool) : Prop := {
  nm_label : valid_label t = Label global;
  nm_first : nameless t = false;
  nm_chars : Forall (fun c => 0 <= c < 256) t;
  nm_not : forall s, In s [";"; ")"; "}"; ","; "]"; ":"; "var"; "blank"; "{"; "new"; "("; "["; "int"; "float"]%string -> is t s = false }.
Lemma word_bytes n : Forall word n -> Forall (fun c => 0 <= c < 256) n.
Proof. apply Forall_impl. unfold word, letter, digit. intros; lia. Qed.
Lemma word_label n : Forall word n -> forallb (fun c => c_alnum c || (c =? 95)) n = true.
Proof.
  intros F. apply forallb_forall. intros c I. apply (proj1 (Forall_forall _ _) F) in I.
  unfold word, letter, digit, c_alnum, c_alpha, c_digit, between in *. lia.
Qed.
Lemma no_word n w : ~ In n words_of_the_language -> In w words_of_the_language -> same_text n w = false.
Proof. intros N I. apply same_text_no. intros ->. contradiction. Qed.
Lemma first_differs c s w : (forall d r, TokenModel.text w = d :: r -> d <> c) -> is (c :: s) w = false.
Proof. intros N. apply is_no. intros E. now apply (N c s). Qed.
Ltac listed := unfold words_of_the_language; cbn [map In]; repeat first [left; reflexivity|right].
Lemma name_named n : identifier n -> named n false.
Proof.
  intros (c & s & -> & C & W & K). assert (CC : 65 <= c <= 90 \/ c = 95 \/ 97 <= c <= 122) by (unfold letter in C; lia).
  assert (CL : colons (c :: s) = false) by (destruct s; cbn; [reflexivity|]; replace (c =? 58) with false by lia; reflexivity).
  split.
  - unfold valid_label. rewrite CL. replace (negb (c_alpha c) && negb (c =? 95) && negb (c =? 58)) with false by (unfold c_alpha, between, letter in *; lia).
    replace (c =? 58) with false by lia. cbn [andb]. replace (existsb (same_text (c :: s)) reserved) with false.
    + rewrite word_label; [reflexivity|]. constructor; [|exact W]. unfold word. tauto.
    + symmetry. apply not_true_is_false. intros E. apply existsb_exists in E as (w & I & E). rewrite no_word in E; [discriminate E|exact K|].
      unfold reserved in I. cbn [map In] in I. repeat (destruct I as [<-|I]; [now listed|]). destruct I.
  - cbn [nameless]. unfold c_alpha, between, letter in *. lia.
  - constructor; [lia|now apply word_bytes].
  - intros w I. cbn [In] in I.
    repeat (destruct I as [<-|I]; [first [apply no_word; [exact K|now listed]|apply first_differs; intros d r E; cbn in E; injection E as <- _; lia]|]). destruct I.
Qed.
Lemma global_named n : identifier n -> named (58 :: 58 :: n) true.
Proof.
  intros (c & s & -> & C & W & K). split.
  - unfold valid_label. cbn [colons]. cbn [Z.eqb Pos.eqb andb negb skipn length]. cbn [Nat.ltb Nat.leb].
    replace (existsb _ reserved) with false by (symmetry; apply not_true_is_false; intros E; apply existsb_exists in E as (w & I & E); apply same_text_iff in E; subst w;
      unfold reserved in I; cbn [map In] in I; repeat (destruct I as [I|I]; [discriminate I|]); destruct I).
    rewrite word_label; [reflexivity|]. constructor; [|exact W]. unfold word. tauto.
  - reflexivity.
  - repeat (constructor; [lia|]). constructor; [unfold letter in C; lia|now apply word_bytes].
  - intros w I. cbn [In] in I. repeat (destruct I as [<-|I]; [first [reflexivity|apply is_no; discriminate]|]). destruct I.
Qed.
