(* Proofs for C56: an expression over integers evaluates to its value on the machine. *)
From Coq Require Import String.
From Verif Require Import Base BaseLemmas HashModel FloatModel OpsModel OpsSpec OpsProofs OpsProofs2 OpsProofs3 OpsProps VmModel VmSpec VmProofs EmitModel ExprModel ExprEmit ExprSpec ExprNest ExprStack ExprProps FuseSpec FuseRules FuseChunks FuseProofs EvalSpec.
Open Scope string_scope. Open Scope list_scope. Open Scope Z_scope.

Lemma is_negate a : op_eqb a O_Negate = true -> a = O_Negate.
Proof. destruct a; (discriminate || reflexivity). Qed.
Lemma is_placeholder a : op_eqb a O_HASH_PLACEHOLDER = true -> a = O_HASH_PLACEHOLDER.
Proof. destruct a; (discriminate || reflexivity). Qed.

(* ---------------------------------------------------------------- the operators, by instruction *)
Definition int2 (trap : bool) (c : opcode) (x y : Z) : option Z :=
  match instr_at (c, []) with
  | Some (IBin b) => if trap && (match b with BDiv => true | _ => false end) && (y =? 0) then None else spec_int b x y
  | Some (ICmp k) => truth (spec_cmp k (NI x) (NI y))
  | _ => None
  end.
Definition int1 (c : opcode) (x : Z) : option Z :=
  match instr_at (c, []) with
  | Some INeg => Some (s32 (- x)) | Some INot => truth (x =? 0) | Some IBitNot => Some (- x - 1)
  | _ => None
  end.
Lemma look_in {A} (l : list (string * A)) s v : look l s = Some v -> In (s, v) l.
Proof.
  unfold look. destruct (find _ l) as [[k w]|] eqn:F; [|discriminate]. intros [= <-]. apply find_some in F. destruct F as [I E].
  apply String.eqb_eq in E. cbn in *. now subst.
Qed.
Lemma infix_int2 trap s f : look (int_infixes trap) s = Some f ->
  exists n a c, look infixes s = Some (n, a, c) /\ String.eqb s "." = false /\ forall x y, int2 trap c x y = f x y.
Proof.
  intros H. apply look_in in H. unfold int_infixes in H. cbn [In] in H.
  repeat (destruct H as [H|H]; [injection H as <- <-; eexists _, _, _; (split; [vm_compute; reflexivity|]); (split; [vm_compute; reflexivity|]); intros x y;
    unfold int2; match goal with |- match ?e with _ => _ end = _ => let v := eval vm_compute in e in change e with v end; cbv iota;
    cbn [spec_int spec_cmp]; rewrite ?andb_false_r; cbn [andb]; unfold divide, remainder, shift, EvalSpec.int_min; try reflexivity|]); [..|contradiction].
  - rewrite andb_true_r. destruct trap, (y =? 0); reflexivity.
  - destruct (y =? 0); reflexivity.
Qed.
Lemma prefix_int1 s f : look int_prefixes s = Some f -> exists c, look prefixes s = Some c /\ (c = O_Negate -> s = "-") /\ forall x, int1 c x = f x.
Proof.
  intros H. apply look_in in H. unfold int_prefixes in H. cbn [In] in H.
  repeat (destruct H as [H|H]; [injection H as <- <-; eexists; (split; [vm_compute; reflexivity|]); (split; [try reflexivity; discriminate|]); intros x; reflexivity|]). contradiction.
Qed.
Lemma int2_range trap c x y z : is_s32 x -> is_s32 y -> int2 trap c x y = Some z -> is_s32 z.
Proof.
  intros Hx Hy. unfold int2. destruct (instr_at (c, [])) as [[]|]; try discriminate.
  - destruct (trap && _ && _); [discriminate|]. now apply spec_int_range.
  - unfold truth. intros [= <-]. match goal with |- is_s32 (if ?b then _ else _) => destruct b end; unfold is_s32; lia.
Qed.
Lemma int1_range c x z : is_s32 x -> int1 c x = Some z -> is_s32 z.
Proof.
  intros Hx. unfold int1. destruct (instr_at (c, [])) as [[]|]; try discriminate; unfold truth; intros [= <-]; unfold is_s32 in *; try lia.
  - destruct (x =? 0); lia.
  - apply s32_range.
Qed.

(* ---------------------------------------------------------------- values with their origin *)
(* None: no integer.  Otherwise a literal or a variable that has just been loaded, or a result *)
Inductive origin := FromLit | FromVar | Computed.
Definition is_lit (f : origin) : bool := match f with FromLit => true | _ => false end.
Definition dom := option (Z * origin).
(* a variable, perhaps in parentheses *)
Fixpoint bare (e : expr) : Prop :=
  match e with EInt _ => False | EVar _ _ => True | EPar t => match t with Atom e => bare e | _ => False end end.
Definition edge (z : Z) : bool := (z =? -128) || (z =? -32768).
Definition dun {leaf} (c : opcode) (x : list leaf) (v : dom) : dom :=
  match v with
  | Some (z, lit) => if op_eqb c O_Negate && is_lit lit && edge z then None else option_map (fun d => (d, Computed)) (int1 c z)
  | None => None
  end.
Definition dbin (trap : bool) (c : opcode) (v w : dom) : dom :=
  match v, w with Some (x, _), Some (y, _) => option_map (fun d => (d, Computed)) (int2 trap c x y) | _, _ => None end.
Definition dhash {leaf} (x : leaf) : dom := None.
Definition dlit (z : Z) : dom := if (EvalSpec.int_min <=? z) && (z <=? 2147483647) then Some (z, FromLit) else None.
Definition dvar (m : mem) (fb fw : nat) (q : space) (n : Z) : dom := option_map (fun z => (z, FromVar)) (variable_int m fb fw q n).
Definition dval (m : mem) (fb fw : nat) (x : term) : dom :=
  match t_operand x with OInt z => dlit z | OVar q n => dvar m fb fw q n | OCode _ => None end.
Lemma dbin_lawful trap : lawful (dbin trap).
Proof.
  split.
  - intros c [[x a]|] [[y b]|] H; try reflexivity. unfold dbin. f_equal. unfold int2. cbn [In commuting] in H.
    repeat (destruct H as [<- | H]; [match goal with |- match ?e with _ => _ end = _ => let v := eval vm_compute in e in change e with v end; cbv iota; cbn [spec_int spec_cmp];
      rewrite ?andb_false_r; cbn [andb];
      first [ now rewrite (Z.eqb_sym x y) | now rewrite (andb_comm (negb (x =? 0))) | now rewrite (orb_comm (negb (x =? 0))) | now rewrite (Z.mul_comm x y) | now rewrite (Z.lor_comm x y) | now rewrite (Z.land_comm x y) | now rewrite (Z.lxor_comm x y) ]|]). contradiction.
  - intros c d [[x a]|] [[y b]|] H; try reflexivity. unfold dbin. f_equal. unfold int2. cbn [In ExprSpec.mirrored] in H.
    repeat (destruct H as [H | H]; [injection H as <- <-; repeat match goal with |- context [instr_at ?e] => let v := eval vm_compute in (instr_at e) in change (instr_at e) with v end; cbv iota; cbn [spec_int spec_cmp]; reflexivity|]). contradiction.
Qed.
Lemma int_dom trap (env : expr -> option Z) (rv : expr -> dom) t z :
  (forall e z, In e (operands t) -> env e = Some z -> exists f, rv e = Some (z, f) /\ (f = FromLit -> edge z = true -> edge_literal e) /\ (f = FromVar -> bare e)) ->
  int_value trap env t = Some z -> ~ negates_edge t ->
  exists f, value rv dhash dun (dbin trap) t = Some (Some (z, f)) /\ (f = FromLit -> exists e, t = Atom e /\ (edge z = true -> edge_literal e)) /\
    (f = FromVar -> exists e, t = Atom e /\ bare e).
Proof.
  revert z; induction t as [x|s t IH|s x t IH|s l IHl r IHr]; intros z; cbn [int_value ExprSpec.value]; intros F H N.
  - destruct (F x z (or_introl eq_refl) H) as (f & -> & E & E2). exists f. split; [reflexivity|]. split; intros ->; exists x; auto.
  - destruct (look int_prefixes s) as [f|] eqn:L; [|discriminate]. destruct (int_value trap _ t) as [y|] eqn:Y; [|discriminate].
    apply prefix_int1 in L. destruct L as (c & L & C & I). rewrite L.
    assert (N' : ~ negates_edge t). { intros X. apply N. cbn [negates_edge]. destruct t; auto. contradiction. }
    destruct (IH y F eq_refl N') as (g & V & G & _). rewrite V. cbn [app1]. exists Computed. split; [|split; discriminate]. f_equal. unfold dun.
    destruct (op_eqb c O_Negate && is_lit g && edge y) eqn:E; [|now rewrite I, H].
    exfalso. apply andb_prop in E. destruct E as [E E3]. apply andb_prop in E. destruct E as [E1 E2]. destruct g; try discriminate E2.
    destruct (G eq_refl) as (x & -> & O). apply N. cbn [negates_edge]. apply is_negate in E1. auto.
  - discriminate.
  - destruct (look (int_infixes trap) s) as [f|] eqn:L; [|discriminate]. destruct (int_value trap _ l) as [a|] eqn:A; [|discriminate].
    destruct (int_value trap _ r) as [b|] eqn:B; [|discriminate].
    apply infix_int2 in L. destruct L as (n & g & c & L & D & I). rewrite L, D. cbn [option_map snd].
    destruct (IHl a) as (f1 & V1 & _); [|reflexivity|intros X; apply N; now left|]. { intros x k K. apply F. cbn [operands]. apply in_or_app; now left. }
    destruct (IHr b) as (f2 & V2 & _); [|reflexivity|intros X; apply N; now right|]. { intros x k K. apply F. cbn [operands]. apply in_or_app; now right. }
    rewrite V1, V2. cbn [app2]. exists Computed. split; [|split; discriminate]. unfold dbin. now rewrite I, H.
Qed.

(* what is no integer stays on the stack *)
Lemma exchange_in {A} i j (st st' : list A) x : exchange i j st = Some st' -> In x st -> In x st'.
Proof.
  unfold exchange. destruct (nth_error st i) as [a|] eqn:I; [|discriminate]. destruct (nth_error st j) as [b|] eqn:J; [|discriminate]. intros [= <-] H.
  apply In_nth_error in H. destruct H as [k K].
  assert (Li : (i < length st)%nat) by (apply nth_error_Some; congruence). assert (Lj : (j < length st)%nat) by (apply nth_error_Some; congruence).
  destruct (Nat.eq_dec k i) as [->|Ni].
  - apply (nth_error_In _ j). rewrite nth_upd, length_upd, Nat.eqb_refl. apply Nat.ltb_lt in Lj. rewrite Lj. congruence.
  - destruct (Nat.eq_dec k j) as [->|Nj].
    + apply (nth_error_In _ i). rewrite nth_upd, length_upd, nth_upd, Nat.eqb_refl. apply Nat.ltb_lt in Li, Lj. rewrite Li.
      destruct (Nat.eqb_spec i j); [subst; congruence|]. congruence.
    + apply (nth_error_In _ k). rewrite nth_upd, nth_upd. destruct (Nat.eqb_spec k j), (Nat.eqb_spec k i); try contradiction. exact K.
Qed.
Lemma exchange_length {A} i j (st st' : list A) : exchange i j st = Some st' -> length st' = length st.
Proof. unfold exchange. destruct (nth_error st i), (nth_error st j); try discriminate. intros [= <-]. now rewrite !length_upd. Qed.
Lemma none_stays {leaf} trap (val hash : leaf -> dom) a st st' : perform val hash dun (dbin trap) a st = Some st' -> In None st -> In None st'.
Proof.
  destruct a as [l|k|n|n m|q x|c]; cbn [perform].
  - intros [= <-] H. now right.
  - destruct k; try discriminate. intros [= <-] H. now right.
  - destruct (n <? 1); [discriminate|]. apply exchange_in.
  - destruct ((n <? 1) || (m <? 1)); [discriminate|]. destruct (exchange 0 _ st) eqn:E; [|discriminate]. intros E' H. eapply exchange_in; [exact E'|]. eapply exchange_in; eauto.
  - destruct st as [|v r]; [contradiction|].
    destruct (o_type q); try (destruct r as [|w r]; [discriminate|]); intros [= <-] H;
      repeat (destruct H as [->|H]); try (left; reflexivity); try (right; assumption); left; destruct v as [[]|]; reflexivity.
  - destruct st as [|v [|w r]]; try discriminate. intros [= <-] H. repeat (destruct H as [->|H]); try (left; reflexivity); try (right; assumption); left; destruct v as [[]|]; reflexivity.
Qed.
Lemma all_some {leaf} trap (val hash : leaf -> dom) acts : forall st st', performs val hash dun (dbin trap) acts st = Some st' -> ~ In None st' -> ~ In None st.
Proof.
  induction acts as [|a acts IH]; intros st st'; cbn [performs]; [intros [= <-]; auto|].
  destruct (perform _ _ _ _ a st) as [s|] eqn:E; [|discriminate]. intros P N X. eapply IH; eauto. eapply none_stays; eauto.
Qed.

(* how deep the stack gets *)
Fixpoint loads {leaf} (acts : list (action leaf)) : nat :=
  match acts with [] => 0 | (ALoad _ | AHash _) :: r => S (loads r) | _ :: r => loads r end.
Lemma perform_length {leaf V} (val hash : leaf -> V) un bin a st st' : perform val hash un bin a st = Some st' -> (length st' <= length st + loads [a])%nat.
Proof.
  destruct a as [l|k|n|n m|q x|c]; cbn [perform loads].
  - intros [= <-]. cbn. lia.
  - destruct k; try discriminate. intros [= <-]. cbn. lia.
  - destruct (n <? 1); [discriminate|]. intros E. apply exchange_length in E. lia.
  - destruct ((n <? 1) || (m <? 1)); [discriminate|]. destruct (exchange 0 _ st) eqn:E; [|discriminate]. intros E'. apply exchange_length in E, E'. lia.
  - destruct st as [|v r]; [discriminate|]. destruct (o_type q); try (destruct r as [|w r]; [discriminate|]); intros [= <-]; cbn; lia.
  - destruct st as [|v [|w r]]; try discriminate. intros [= <-]. cbn. lia.
Qed.
Lemma loads_cons {leaf} (a : action leaf) r : loads (a :: r) = (loads [a] + loads r)%nat.
Proof. destruct a; reflexivity. Qed.

(* ---------------------------------------------------------------- the instruction of an action *)
Definition lit_chunk (z : Z) : chunk :=
  if z =? 0 then (O_LiteralZero, [])
  else if (z <=? 127) && (-128 <=? z) then (O_LiteralInt8, [u8 z])
  else if (z <=? 32767) && (-32768 <=? z) then (O_LiteralInt16, wr_pack16 z)
  else (O_LiteralInt32, wr_pack32 z).
Definition chunk_of (a : action term) : chunk :=
  match a with
  | ALoad x => match t_operand x with
               | OInt z => lit_chunk z
               | OVar SL n => (O_LoadFromLocal, [u8 n]) | OVar SG n => (O_LoadFromGlobal, [u8 n])
               | OCode _ => (O_LiteralZero, [])
               end
  | AHash _ => (O_LiteralZero, [])
  | ASwap n => (O_StackSwap, [n])
  | ASwap2 n m => (O_SwapTwoToTop, [n; m])
  | AOp q _ => (o_code q, [])
  | AAlt c => (c, [])
  end.
Definition simple_action (a : action term) : Prop :=
  match a with ALoad x => match t_operand x with OCode _ => False | _ => True end | AHash _ => False | _ => True end.
Lemma merge_empty b ops all : merge_spaces b (set_code empty_bc all ops) = b.
Proof. destruct b. unfold merge_spaces. cbn. now rewrite !app_nil_r. Qed.
Lemma append_op b o : o <> O_HASH_PLACEHOLDER -> append_bytecode b (set_code empty_bc [byte_of o] [o]) = push_opcode o b.
Proof.
  intros N. unfold append_bytecode. rewrite merge_empty. cbn [b_gotos b_ops b_all set_code empty_bc last].
  assert (D : op_eqb o O_HASH_PLACEHOLDER = false). { destruct (op_eqb o O_HASH_PLACEHOLDER) eqn:E; [|reflexivity]. apply is_placeholder in E. contradiction. }
  rewrite D. destruct (match b_ops b with [] => None | o0 :: _ => load_of o0 end); [|reflexivity].
  destruct o; try reflexivity.
Qed.
Lemma emit_one_action a b : simple_action a -> fst (chunk_of a) <> O_HASH_PLACEHOLDER -> emit_action a b = emit_all [chunk_of a] b.
Proof.
  assert (K : forall b0 : bcode, push_data [] b0 = b0). { intros []. unfold push_data, set_code. cbn. now rewrite app_nil_r. }
  assert (P : forall o d, (b1 <~ push_opcode o b ;; COk (push_data d b1)) = emit_all [(o, d)] b) by reflexivity.
  assert (Q : forall o, push_opcode o b = emit_all [(o, [])] b). { intros o. cbn. destruct (push_opcode o b); cbn; [now rewrite K|reflexivity..]. }
  destruct a as [x|k|n|n m|q x|c]; cbn [simple_action emit_action chunk_of fst]; intros S N; try (now rewrite P); try contradiction.
  - unfold emit_term. destruct (t_operand x) as [z|[] n|]; try (now rewrite P); [|contradiction].
    unfold push_literal, lit_chunk. destruct (z =? 0); [apply Q|]. destruct (_ && _); [now rewrite P|]. destruct (_ && _); now rewrite P.
  - rewrite <- Q. apply append_op, N.
  - apply Q.
Qed.
Lemma emit_actions acts : forall b, Forall simple_action acts -> Forall (fun a => fst (chunk_of a) <> O_HASH_PLACEHOLDER) acts -> emit acts b = emit_all (map chunk_of acts) b.
Proof.
  induction acts as [|a acts IH]; intros b S N; [reflexivity|]. inversion S; inversion N; subst. cbn [emit map emit_all]. rewrite emit_one_action by assumption.
  cbn [emit_all]. destruct (push_opcode (fst (chunk_of a)) b); cbn; [|reflexivity..]. now apply IH.
Qed.

(* ---------------------------------------------------------------- the operators on the machine *)
Lemma eval_bin_int pbits obj_hash as_string trap b l r t m x y d : is_s32 x -> is_s32 y -> holds m (mv m l) x -> holds m (mv m r) y ->
  (trap && (match b with BDiv => true | _ => false end) && (y =? 0) = false) -> spec_int b x y = Some d ->
  eval_bin pbits obj_hash as_string trap b 3 l r t m = Ok (wr m t (VInt (u32 d))).
Proof.
  intros Hx Hy Hl Hr T S. unfold eval_bin.
  destruct (is_arith b) eqn:A.
  - assert (L : leaf trap (op_of b) TI TI (u32 x) (u32 y) = Some (VInt (u32 d))).
    { apply (leaf_spec trap (fun _ => 0) b (NI x) (NI y) (NI d)); auto.
      - intros -> ->. cbn in *. exact T.
      - cbn [spec_bin]. now rewrite S. }
    destruct b; try discriminate A; cbn [op_of] in L;
      destruct Hl as [Hl|(a & Hl & Ha)], Hr as [Hr|(c & Hr & Hc)]; rewrite ?Hl, ?Hr; cbn [type_of add_binary arith_binary]; rewrite ?Hl, ?Hr, ?Ha, ?Hc; cbn [type_of add_binary arith_binary];
      rewrite ?Ha, ?Hc; cbn [type_of add_binary arith_binary]; unfold rdi; rewrite ?Hl, ?Hr, ?Ha, ?Hc; cbn [bits]; rewrite L; reflexivity.
  - assert (L : int_fn b (u32 x) (u32 y) = Some (u32 d)) by (apply int_fn_spec; auto).
    destruct b; try discriminate A;
      destruct Hl as [Hl|(a & Hl & Ha)], Hr as [Hr|(c & Hr & Hc)]; rewrite ?Hl, ?Hr; cbn [type_of int_binary]; rewrite ?Hl, ?Hr, ?Ha, ?Hc; cbn [type_of int_binary];
      rewrite ?Ha, ?Hc; cbn [type_of int_binary]; unfold rdi; rewrite ?Hl, ?Hr, ?Ha, ?Hc; cbn [bits]; rewrite L; reflexivity.
Qed.
Lemma eval_cmp_int pbits obj_hash c l r m x y : is_s32 x -> is_s32 y -> holds m (mv m l) x -> holds m (mv m r) y ->
  eval_cmp pbits obj_hash c 3 l r m = Ok (spec_cmp c (NI x) (NI y), m).
Proof.
  intros Hx Hy Hl Hr. unfold eval_cmp. destruct (OpsModel.cmp_table c) as [o inv] eqn:E.
  pose proof (cmp_table_spec c (NI x) (NI y) o inv Hx Hy E) as T.
  assert (B : bres o (NI x) (NI y) = c_ii o (u32 x) (u32 y)) by reflexivity. rewrite B in T.
  destruct Hl as [Hl|(a & Hl & Ha)], Hr as [Hr|(b & Hr & Hb)]; rewrite ?Hl, ?Hr; cbn [type_of compare]; rewrite ?Hl, ?Hr, ?Ha, ?Hb; cbn [type_of compare];
      rewrite ?Ha, ?Hb; cbn [type_of compare]; unfold rdi; rewrite ?Hl, ?Hr, ?Ha, ?Hb; cbn [bits bind]; now rewrite T.
Qed.
Lemma negate_int pbits obj_hash l t m x : holds m (mv m l) x -> negate pbits obj_hash 3 (type_of (mv m l)) l t m = Ok (wr m t (VInt (u32 (s32 (- x))))).
Proof.
  intros [H|(a & H & Ha)]; rewrite H; cbn [type_of negate]; rewrite ?H, ?Ha; cbn [type_of negate]; unfold rdi; rewrite ?H, ?Ha; cbn [bits]; rewrite u32_s32;
    replace (u32 (- u32 x)) with (u32 (- x)) by (unfold u32; lia); reflexivity.
Qed.
Lemma not_int pbits obj_hash l m x : is_s32 x -> holds m (mv m l) x -> logical_not pbits obj_hash 3 (type_of (mv m l)) l m = Ok (x =? 0, m).
Proof.
  intros R [H|(a & H & Ha)]; rewrite H; cbn [type_of logical_not]; rewrite ?H, ?Ha; cbn [type_of logical_not]; unfold rdi; rewrite ?H, ?Ha; cbn [bits]; rewrite u32_zero by auto; reflexivity.
Qed.
Lemma bitnot_int pbits obj_hash l m x : holds m (mv m l) x -> bitwise_not pbits obj_hash 3 (type_of (mv m l)) l m = Ok (u32 (- x - 1), m).
Proof.
  intros [H|(a & H & Ha)]; rewrite H; cbn [type_of bitwise_not]; rewrite ?H, ?Ha; cbn [type_of bitwise_not]; unfold rdi; rewrite ?H, ?Ha; cbn [bits];
   replace (4294967295 - u32 x) with (u32 (- x - 1)) by (unfold u32; lia); reflexivity.
Qed.
