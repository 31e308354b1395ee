(* Proofs for C57: what the code of the expressions of a program does, as parts of statements. *)
From Coq Require Import String.
From Verif Require Import Base BaseLemmas HashModel FloatModel OpsModel OpsSpec VmModel VmSpec OpsLocal EmitModel JumpSpec JumpProofs ExprModel ExprEmit ExprSpec ExprNest ExprText ExprStack ExprProps
  OpsProofs2 ArrayProofs2 FuseSpec FuseRules FuseChunks FuseProofs EvalSpec EvalProofs EvalRun EvalNest EvalBlock ExprAssign DepthProofs ProgSpec ProgCode ProgCtl.
From Verif Require OpsProofs3 CtlSpec CtlSem LayProofs ExprRun.
Open Scope string_scope. Open Scope list_scope. Open Scope Z_scope.
Import CtlSem. Import (coercions) CtlSpec.

(* ---------------------------------------------------------------- memories that differ in what is no part of the state *)
Definition near (B : nat) (m m' : mem) : Prop := (forall x, live B x -> kept_at x (mv m x) (mv m' x)) /\ heap_kept m m'.
Lemma agree_near B m m' : agree B m m' -> near B m m'.
Proof. intros [A1 A2 A3 A4]. split; [intros x L; left; symmetry; now apply A1|]. repeat split; intros; symmetry; auto. Qed.
Lemma heap_trans a b c : heap_kept a b -> heap_kept b c -> heap_kept a c.
Proof. intros (A1 & A2 & A3) (B1 & B2 & B3). split; [|split]; intros; congruence. Qed.
Lemma kept_trans x u v w : kept_at x u v -> kept_at x v w -> kept_at x u w.
Proof. intros [->|[E [y ->]]] H; [exact H|]. destruct H as [->|[_ [z ->]]]; right; eauto. Qed.
Lemma near_trans B a b c : near B a b -> near B b c -> near B a c.
Proof. intros [A1 A2] [B1 B2]. split; [intros x L; eapply kept_trans; eauto|eapply heap_trans; eauto]. Qed.
Lemma near_agree B a b c : near B a b -> agree B b c -> near B a c.
Proof. intros H A. eapply near_trans; [exact H|now apply agree_near]. Qed.
Lemma near_at B a b x : near B a b -> live B x -> x <> LAuto 0 -> mv b x = mv a x.
Proof. intros [H _] L N. destruct (H x L) as [E|[E _]]; [exact E|contradiction]. Qed.
Lemma near_closed B a b : near B a b -> closed B a -> closed B b.
Proof. intros [H _] CL x L. destruct (H x L) as [->|[_ [u ->]]]; [now apply CL|exact I]. Qed.
Lemma near_dead B a b x v : near B a b -> ~ live B x -> near B a (wr b x v).
Proof. intros H L. eapply near_agree; [exact H|]. apply agree_dead; [apply agree_refl|exact L]. Qed.
Lemma near_wr B a b x v : near B a b -> near B (wr a x v) (wr b x v).
Proof.
  intros [H HK]. split; [|exact HK]. intros y L. destruct (loc_eq_dec y x) as [->|N]; [rewrite !wr_same; now left|rewrite !wr_other by exact N; now apply H].
Qed.
Lemma near_auto B a b u : near B a b -> near B a (wr b (LAuto 0) (VInt u)).
Proof.
  intros [H HK]. split; [|exact HK]. intros y L. destruct (loc_eq_dec y (LAuto 0)) as [->|N]; [rewrite wr_same; right; eauto|rewrite wr_other by exact N; now apply H].
Qed.
Lemma vloc_auto fb q n : vloc fb q n <> LAuto 0.
Proof. destruct q; discriminate. Qed.

(* ---------------------------------------------------------------- variables *)
Lemma int_value_more {leaf} trap (e1 e2 : leaf -> option Z) t : (forall x y, In x (operands t) -> e1 x = Some y -> e2 x = Some y) ->
  forall z, int_value trap e1 t = Some z -> int_value trap e2 t = Some z.
Proof.
  induction t as [x|s t IH|s x t IH|s l IHl r IHr]; cbn [int_value operands]; intros H z V.
  - apply H; [now left|exact V].
  - destruct (look int_prefixes s); [|discriminate]. destruct (int_value trap e1 t) as [y|]; [|discriminate]. now rewrite (IH H y eq_refl).
  - discriminate.
  - destruct (look (int_infixes trap) s); [|discriminate]. destruct (int_value trap e1 l) as [y|]; [|discriminate]. destruct (int_value trap e1 r) as [y'|]; [|discriminate].
    rewrite (IHl (fun x y0 I => H x y0 (in_or_app _ _ _ (or_introl I))) y eq_refl), (IHr (fun x y0 I => H x y0 (in_or_app _ _ _ (or_intror I))) y' eq_refl). exact V.
Qed.
Lemma s32_small z : int_min <= z <= 2147483647 -> s32 (u32 z) = z.
Proof. intros H. now apply s32_u32_id. Qed.
Lemma s32_self z : is_s32 z -> s32 z = z.
Proof. unfold is_s32, s32, u32. intros H. cbv zeta. destruct (Z.ltb_spec (z mod 4294967296) 2147483648); lia. Qed.
Lemma u32_range z : 0 <= u32 z < 4294967296. Proof. unfold u32. lia. Qed.
Lemma stored_var env fb nl m q n z : exist env nl -> env q n = Some z -> mv (stored env fb nl m) (vloc fb q (Z.to_nat n)) = VInt (u32 z).
Proof.
  intros EX E. destruct (EX _ _ _ E) as (R & _ & L). unfold stored, stored_at. cbn [mv]. destruct q; cbn [vloc].
  - rewrite Z2Nat.id by lia. now rewrite E.
  - specialize (L eq_refl). destruct (Nat.leb_spec fb (fb + Z.to_nat n)); [|lia]. destruct (Nat.ltb_spec (fb + Z.to_nat n) (fb + nl)); [|lia]. cbn [andb].
    replace (fb + Z.to_nat n - fb)%nat with (Z.to_nat n) by lia. rewrite Z2Nat.id by lia. now rewrite E.
Qed.
Lemma live_var env nl fb B q n z : exist env nl -> env q n = Some z -> (fb + nl <= B)%nat -> live B (vloc fb q (Z.to_nat n)).
Proof. intros EX E F. destruct (EX _ _ _ E) as (R & _ & L). destruct q; cbn; [exact I|]. specialize (L eq_refl). lia. Qed.
Lemma env_operand trap env fb nl B m0 m : exist env nl -> (fb + nl <= B)%nat -> near B (stored env fb nl m0) m ->
  forall n e z, (depth e <= n)%nat -> operand_value trap env e = Some z -> operand_int trap m fb nl e = Some z.
Proof.
  intros EX FR A. induction n as [n IH] using (well_founded_induction lt_wf). intros e z D V. destruct e as [c|q c|t]; cbn [operand_value operand_int] in *.
  - exact V.
  - destruct (EX _ _ _ V) as (RN & RZ & L). unfold variable_int. replace ((0 <=? c) && (c <? 256)) with true by lia.
    replace (match q with SG => true | SL => (Z.to_nat c <? nl)%nat end) with true by (destruct q; [reflexivity|]; specialize (L eq_refl); symmetry; apply Nat.ltb_lt; lia).
    cbn [andb]. rewrite (near_at _ _ _ _ A) by (try apply vloc_auto; eapply live_var; eauto). rewrite (stored_var _ _ _ _ _ _ _ EX V). pose proof (u32_range z).
    replace ((0 <=? u32 z) && (u32 z <? 4294967296)) with true by lia. now rewrite s32_small.
  - cbn [depth] in D. eapply int_value_more; [|exact V]. intros x y IN X. pose proof (max_in depth t x IN). apply (IH (pred n)) with (3 := X); lia.
Qed.
Lemma set_stored env fb nl m q n old z B : exist env nl -> env q n = Some old ->
  agree B (stored (set env q n z) fb nl m) (wr (stored env fb nl m) (vloc fb q (Z.to_nat n)) (VInt (u32 z))).
Proof.
  intros EX E. destruct (EX _ _ _ E) as (R & _ & L). constructor; try reflexivity. intros l _. destruct (loc_eq_dec l (vloc fb q (Z.to_nat n))) as [->|N].
  - rewrite wr_same. unfold stored, stored_at, set. cbn [mv]. destruct q; cbn [vloc space_eqb andb].
    + rewrite Z2Nat.id by lia. now rewrite Z.eqb_refl.
    + specialize (L eq_refl). destruct (Nat.leb_spec fb (fb + Z.to_nat n)); [|lia]. destruct (Nat.ltb_spec (fb + Z.to_nat n) (fb + nl)); [|lia]. cbn [andb].
      replace (fb + Z.to_nat n - fb)%nat with (Z.to_nat n) by lia. rewrite Z2Nat.id by lia. now rewrite Z.eqb_refl.
  - rewrite wr_other by exact N. unfold stored. cbn [mv]. replace (stored_at (set env q n z) fb nl l) with (stored_at env fb nl l); [reflexivity|].
    unfold stored_at, set. destruct l as [k|k| | | |]; try reflexivity.
    + destruct q; [|reflexivity]. cbn [space_eqb andb]. destruct (Z.eqb_spec n (Z.of_nat k)) as [->|]; [|reflexivity]. exfalso. apply N. cbn. now rewrite Nat2Z.id.
    + destruct (Nat.leb_spec fb k); [|reflexivity]. destruct (Nat.ltb_spec k (fb + nl)); [|reflexivity]. cbn [andb]. destruct q; [reflexivity|]. cbn [space_eqb andb].
      destruct (Z.eqb_spec n (Z.of_nat (k - fb))) as [->|]; [|reflexivity]. exfalso. apply N. cbn. f_equal. lia.
Qed.
Lemma set_exist env nl q n old z : exist env nl -> env q n = Some old -> int_min <= z <= 2147483647 -> exist (set env q n z) nl.
Proof.
  intros EX E RZ q' n' z'. unfold set. destruct (space_eqb q q' && (n =? n')) eqn:Q; [|apply EX]. intros [= <-].
  apply andb_prop in Q. destruct Q as [Q1 Q2]. apply Z.eqb_eq in Q2. subst n'. assert (q = q') by (destruct q, q'; cbn in Q1; congruence). subst q'.
  destruct (EX _ _ _ E) as (A & _ & B). auto.
Qed.
Lemma stored_closed env fb nl m B : closed B m -> closed B (stored env fb nl m).
Proof. intros H l L. unfold stored. cbn [mv]. destruct (stored_at env fb nl l); [exact I|now apply H]. Qed.

(* ---------------------------------------------------------------- running code *)
Lemma placed_split (C P : list Z) p : (forall i, 0 <= i < lenZ P -> nthZ C (p + i) = nthZ P i) -> P <> [] -> exists pre post, C = pre ++ P ++ post /\ lenZ pre = p.
Proof.
  intros H N. assert (L : 0 < lenZ P) by (destruct P; [congruence|rewrite lenZ_cons; pose proof (lenZ_nonneg P); lia]).
  assert (Z0 : 0 <= p).
  { specialize (H 0 ltac:(lia)). unfold nthZ in H. destruct (p + 0 <? 0) eqn:E; [|lia]. destruct P; [congruence|discriminate]. }
  exists (firstn (Z.to_nat p) C), (skipn (Z.to_nat p + length P) C). 
  assert (LC : (Z.to_nat p + length P <= length C)%nat).
  { specialize (H (lenZ P - 1) ltac:(lia)). unfold nthZ, lenZ in *. destruct (p + (Z.of_nat (length P) - 1) <? 0) eqn:E; [lia|]. destruct (Z.of_nat (length P) - 1 <? 0) eqn:E2; [lia|].
    assert (X : nth_error P (Z.to_nat (Z.of_nat (length P) - 1)) <> None) by (apply nth_error_Some; lia). rewrite <- H in X. apply nth_error_Some in X. lia. }
  split; [|unfold lenZ; rewrite firstn_length; lia].
  assert (MID : firstn (length P) (skipn (Z.to_nat p) C) = P).
  { apply ExprRun.nth_error_ext. intros i. destruct (lt_dec i (length P)) as [LI|LI].
    - rewrite nth_error_firstn_lt by exact LI. rewrite nth_error_skipn_add. specialize (H (Z.of_nat i) ltac:(unfold lenZ; lia)). unfold nthZ in H.
      destruct (p + Z.of_nat i <? 0) eqn:E; [lia|]. destruct (Z.of_nat i <? 0) eqn:E2; [lia|]. rewrite Nat2Z.id in H. rewrite <- H. f_equal. lia.
    - rewrite (proj2 (nth_error_None P i)) by lia. apply nth_error_None. rewrite firstn_length. lia. }
  assert (SK : forall {X} (l : list X) a b, skipn b (skipn a l) = skipn (a + b) l).
  { intros X l a b. revert l. induction a as [|a IH]; intros l; [reflexivity|]. destruct l as [|x l]; [now rewrite !skipn_nil|apply IH]. }
  rewrite <- SK. rewrite <- MID at 1. rewrite firstn_skipn. symmetry. apply firstn_skipn.
Qed.
Lemma pure_patched e i : pure e -> ~ CtlSpec.patched e i.
Proof. intros -> X. inversion X. Qed.
Lemma pure_placed (C : CtlSpec.image) p P e : pure e -> CtlSpec.placed C p P e -> forall i, 0 <= i < lenZ P -> nthZ C (p + i) = nthZ P i.
Proof. intros PE [H _] i I. apply H; [exact I|now apply pure_patched]. Qed.
Lemma reaches_trans stp a b c : reaches stp a b -> reaches stp b c -> reaches stp a c.
Proof. intros [n H] [k K]. exists (n + k)%nat. induction H; [exact K|]. cbn [Nat.add]. econstructor; eauto. Qed.
Lemma reaches_one stp a b : stp a = Ok (Run b) -> reaches stp a b.
Proof. intros H. exists 1%nat. econstructor; [exact H|constructor]. Qed.

(* ---------------------------------------------------------------- x = e; *)
Lemma load_chunk_at q n : 0 <= n < 256 -> instr_at (load_op q, [u8 n]) = Some (ILoad q (Z.to_nat n)) /\ FuseSpec.source (load_op q, [u8 n]).
Proof.
  intros N. assert (I0 : instr_at (load_op q, [u8 n]) = Some (ILoad q (Z.to_nat n))).
  { unfold instr_at, chunk_bytes. cbn [fst snd]. replace (u8 n) with n by (unfold u8; rewrite Z.mod_small; lia). destruct q; reflexivity. }
  split; [exact I0|]. split; [|exists (ILoad q (Z.to_nat n)); now split]. constructor; [|constructor]. cbn. unfold is_byte, u8. lia.
Qed.
Lemma small_chunk o i : instr_at (o, []) = Some i -> straight i = true -> FuseSpec.source (o, []).
Proof. intros H S. split; [constructor|]. exists i. auto. Qed.
Lemma no_negate cs d : negations_fit cs -> fst d <> O_Negate -> negations_fit (cs ++ [d]).
Proof.
  intros N F a c d' b E. destruct b as [|y b _] using rev_ind.
  - replace (a ++ [c; (O_Negate, d')]) with ((a ++ [c]) ++ [(O_Negate, d')]) in E by (now rewrite <- app_assoc). apply app_inj_tail in E. destruct E as [_ ->]. now contradict F.
  - replace (a ++ c :: (O_Negate, d') :: b ++ [y]) with ((a ++ c :: (O_Negate, d') :: b) ++ [y]) in E by (now rewrite <- app_assoc). apply app_inj_tail in E. destruct E as [E _]. eapply N; exact E.
Qed.
Lemma emit_setting q n h0 h1 : push_opcode O_PopOne (assigned q n h0) = COk h1 -> emit_all [(load_op q, [u8 n]); (O_Assign, []); (O_PopOne, [])] h0 = COk (push_data [] h1).
Proof.
  intros H. cbn [emit_all fst snd]. unfold push_opcode at 1. assert (F : fuse (load_op q) (b_ops h0) (rev (b_all h0)) = NoFuse) by (destruct q, (b_ops h0); reflexivity). rewrite F. cbn [cbind].
  unfold push_data at 1. cbn [b_all b_ops set_code]. unfold push_opcode at 1. cbn [b_all b_ops set_code].
  replace (fuse O_Assign (load_op q :: b_ops h0) (rev ((b_all h0 ++ [byte_of (load_op q)]) ++ [u8 n]))) with NoFuse by (destruct q; reflexivity). cbn [cbind].
  unfold push_data at 1. cbn [b_all b_ops set_code].
  replace (set_code _ _ _) with (assigned q n h0).
  - rewrite H. reflexivity.
  - unfold assigned_by, set_code. cbn. f_equal. rewrite app_nil_r, <- !app_assoc. reflexivity.
Qed.

(* ---------------------------------------------------------------- conditions *)
Definition branch_of (t : Z) (j : instr) : option instr :=
  match j with
  | ILoad q n => Some (IVarBZ q n t) | ICmp c => Some (ICmpB c t)
  | ICmp2 c q x y => Some (ICmp2B c q x y t) | ICmpS c q x => Some (ICmpSB c q x t) | _ => None
  end.
Lemma branch_instr o0 op k d j : bz_form o0 = Some (op, k) -> instr_at (o0, d) = Some j ->
  lenZ d = k /\ byte_of o0 <> byte_of op /\ exists i t, branch_of 0 j = Some i /\ jump_at ((byte_of op :: d) ++ [9; 9]) 0 = Some (JInstr i, t, 1 + k + 2).
Proof.
  intros B H. unfold instr_at, chunk_bytes in H. cbn [fst snd] in H.
  assert (L : lenZ d = k).
  { assert (N : match decode (byte_of o0 :: d) 0 with Some (_, n) => n = 1 + k | None => True end).
    { destruct o0; try discriminate B; injection B as <- <-; (destruct d as [|d1 [|d2 d]]; try exact I; reflexivity). }
    destruct (decode (byte_of o0 :: d) 0) as [[i n]|]; [|discriminate]. subst n. destruct (Z.eqb_spec (1 + k) (lenZ (byte_of o0 :: d))) as [E|]; [|discriminate]. rewrite lenZ_cons in E. lia. }
  split; [exact L|]. split; [destruct o0; try discriminate B; injection B as <- <-; discriminate|].
  destruct o0; try discriminate B; injection B as <- <-; (destruct d as [|d1 [|d2 [|d3 d]]]; try (unfold lenZ in L; cbn [length] in L; lia));
    vm_compute in H; injection H as <-; eexists; eexists; (split; [reflexivity|vm_compute; reflexivity]).
Qed.
Lemma jump_back (l : list Z) p i f r : jump_at l p = Some (JInstr i, f, r) -> exists i1, decode l p = Some (i1, r) /\ target_of i1 = Some f /\ retarget 0 i1 = i.
Proof.
  unfold jump_at. destruct (decode l p) as [[i1 n]|]; [|discriminate]. destruct (target_of i1) as [t|] eqn:T.
  - intros [= <- <- <-]. eauto.
  - unfold foreach_at. intros J. exfalso. repeat match type of J with match ?x with _ => _ end = _ => destruct x; try discriminate J end.
Qed.
Lemma branch_target j i i1 f : branch_of 0 j = Some i -> target_of i1 = Some f -> retarget 0 i1 = i -> branch_of f j = Some i1.
Proof. intros B T E. destruct j; try discriminate B; injection B as <-; destruct i1; try discriminate T; try discriminate E; cbn in *; congruence. Qed.
Lemma last_chunk o d cs' js : reads (rev ((o, d) :: cs')) js -> exists js0 j0, js = js0 ++ [j0] /\ reads (rev cs') js0 /\ instr_at (o, d) = Some j0.
Proof.
  cbn [rev]. generalize (rev cs'). intros l. revert js. induction l as [|c l IH]; intros js H; inversion H as [|? i ? is IC R]; subst.
  - inversion R; subst. exists [], i. split; [reflexivity|]. split; [constructor|exact IC].
  - destruct (IH _ R) as (js0 & j0 & -> & R0 & I0). exists (i :: js0), j0. split; [reflexivity|]. split; [now constructor|exact I0].
Qed.
Lemma plain_snoc cs o d : plain_bytes (cs ++ [(o, d)]) = plain_bytes cs ++ byte_of o :: d.
Proof. unfold plain_bytes. rewrite map_app, concat_app. cbn [map concat]. now rewrite app_nil_r. Qed.
Lemma empty_append b : neat b -> append_bytecode empty_bc b = COk b.
Proof. intros N. rewrite neat_append by exact N. cbn [empty_bc b_all b_ops List.app]. rewrite app_nil_r. f_equal. symmetry. exact (ne_pure _ N). Qed.

(* x += e *)
Definition change_spec (trap : bool) (b : binop) (x y z : Z) : Prop :=
  trap && (match b with BDiv => true | _ => false end) && (y =? 0) = false /\ spec_int b x y = Some z /\ (b = BMul -> z = x * y).
Lemma change_means trap s f : look (int_changes trap) s = Some f -> exists p b, pop_form (o_code (change_op s)) = Some p /\ instr_at (p, []) = Some (ICompoundPop b) /\
  forall x y z, is_s32 x -> is_s32 y -> f x y = Some z -> change_spec trap b x y z.
Proof.
  intros H. unfold look, int_changes in H. cbn [find fst] in H.
  repeat (match type of H with context [String.eqb s ?u] => destruct (String.eqb_spec s u) as [->|_] end;
    [cbn in H; injection H as <-; eexists; eexists; (split; [reflexivity|]; split; [reflexivity|]); intros x y z RX RY E; unfold change_spec; cbn [spec_int];
     (split; [try (now rewrite andb_false_r)|split; [|try discriminate]])|]); [..|discriminate].
  all: try exact E.
  - unfold remainder, EvalSpec.int_min in E. destruct (y =? 0); [discriminate|]. exact E.
  - destruct (_ && _) eqn:Q in E; [|discriminate]. injection E as <-. f_equal. apply s32_self. unfold EvalSpec.int_min, is_s32 in *. lia.
  - intros _. destruct (_ && _) in E; congruence.
  - unfold divide in E. destruct (y =? 0); [|now rewrite andb_false_r]. destruct trap; [discriminate|reflexivity].
  - unfold divide, EvalSpec.int_min in E. destruct (y =? 0); [|exact E]. destruct trap; [discriminate|exact E].
Qed.
Lemma change_range trap s f x y z : look (int_changes trap) s = Some f -> is_s32 x -> is_s32 y -> f x y = Some z -> is_s32 z.
Proof. intros L X Y F. destruct (change_means _ _ _ L) as (_ & b & _ & _ & H). destruct (H _ _ _ X Y F) as (_ & S & _). exact (OpsProofs3.spec_int_range _ _ _ _ X Y S). Qed.

Section Run.
Variables (k : config) (C : CtlSpec.image) (B fb nl wide : nat) (m0 : mem).
Hypothesis frame : (fb + nl <= B)%nat.
Hypothesis shut : closed B m0.
Hypothesis deep : (3 <= k_fuel k)%nat.
Hypothesis OH : local_fn (k_obj_hash k).
Hypothesis AS : local_fn (k_as_string k).
Hypothesis LL : lib_local (k_lib k).
Hypothesis narrow : (wide <= 254)%nat.
Hypothesis room : k_protect k = true -> (B + wide + 2 < k_limit k)%nat.
Notation trap := (k_trap k).
Notation runs := (runs (k_pbits k) (k_obj_hash k) (k_as_string k) trap (k_hash_index k) (k_new_table k) (k_lib k) (k_native k) (k_ext k) C (k_funs k) (k_base k) (k_limit k) (k_protect k) (k_slices k) 3 nl).
Notation does := (does (k_pbits k) (k_obj_hash k) (k_as_string k) trap (k_hash_index k) (k_new_table k) (k_lib k) (k_native k) (k_ext k) C (k_funs k) (k_base k) (k_limit k) (k_protect k) (k_slices k) 3).
Notation goes := (goes (k_pbits k) (k_obj_hash k) (k_as_string k) trap (k_hash_index k) (k_new_table k) (k_lib k) (k_native k) (k_ext k) C (k_funs k) (k_base k) (k_limit k) (k_protect k) (k_slices k) 3).
Notation exec := (exec (k_pbits k) (k_obj_hash k) (k_as_string k) trap (k_hash_index k) (k_new_table k) (k_lib k) (k_native k) (k_ext k) C (k_funs k) (k_base k) (k_limit k) (k_protect k) (k_slices k)).
Notation machine := (machine k C).

(* the variables are env: the state of the machine between two statements *)
Definition R (env : variables) (s : vm) : Prop :=
  exist env nl /\ vsp s = B /\ vfb s = fb /\ near B (stored env fb nl m0) (vmem s).
Lemma R_free : position_free R.
Proof.
  intros env s s1 (E & S & F & A) S1 F1 M1. split; [exact E|]. split; [congruence|]. split; [congruence|]. destruct M1 as [-> | ->]; [exact A|].
  apply near_dead; [exact A|]. rewrite S. cbn. lia.
Qed.
Lemma R_mem env s s1 : R env s -> vsp s1 = B -> vfb s1 = fb -> agree B (vmem s) (vmem s1) -> R env s1.
Proof. intros (E & _ & _ & A) S F A1. split; [exact E|]. split; [exact S|]. split; [exact F|]. eapply near_agree; eauto. Qed.
Lemma R_calm env s : R env s -> calm nl s.
Proof.
  intros (E & S & F & A). split; [|rewrite S, F; exact frame]. rewrite S. eapply near_closed; [exact A|]. now apply stored_closed.
Qed.
Lemma goes_reaches P stop s u : goes P stop s u -> reaches machine s u.
Proof.
  induction 1 as [s _|s t u i n fuel _ D LF ST _ _ IH]; [exists 0%nat; constructor|]. eapply reaches_trans; [|exact IH]. apply reaches_one.
  unfold CtlSem.machine, resumed. rewrite (step_deep _ _ _ _ _ _ _ _ _ _ _ _ _ _ _ fuel (k_fuel k) s ltac:(lia) _ ST). reflexivity.
Qed.
(* one instruction *)
Lemma exec_machine i q s o : decode C (vpc s) = Some (i, q) -> exec 3 i (at_pc s q) = Ok o -> machine s = resumed (k_ips k) (fun _ => Ok o) s.
Proof.
  intros D E. unfold CtlSem.machine, resumed. assert (ST : step (k_pbits k) (k_obj_hash k) (k_as_string k) trap (k_hash_index k) (k_new_table k) (k_lib k) (k_native k) (k_ext k) C (k_funs k) (k_base k) (k_limit k) (k_protect k) (k_slices k) 3 s = Ok o) by (unfold step; rewrite D; exact E).
  now rewrite (step_deep _ _ _ _ _ _ _ _ _ _ _ _ _ _ _ 3 (k_fuel k) s deep _ ST).
Qed.
(* code in the image *)
Lemma walk cs js p s v : (forall i, 0 <= i < lenZ (plain_bytes cs) -> nthZ C (p + i) = nthZ (plain_bytes cs) i) -> reads cs js -> forallb flatline js = true -> vpc s = p -> runs js s v ->
  reaches machine s (at_pc v (p + lenZ (plain_bytes cs))).
Proof.
  intros PL RJ FL PC RV. destruct (list_eq_dec Z.eq_dec (plain_bytes cs) []) as [E|NE].
  - destruct cs as [|[o d] cs]; [|discriminate E]. inversion RJ; subst js. apply runs_nil_inv in RV. destruct RV as [<- _]. exists 0%nat. replace (at_pc s (p + lenZ (plain_bytes []))) with s; [constructor|].
    destruct s. unfold at_pc. cbn in *. subst. f_equal. lia.
  - destruct (placed_split _ _ _ PL NE) as (pre & post & EC & LP). eapply (runs_goes _ _ _ _ _ _ _ _ _ _ _ _ _ _ _ _ C cs pre post) in RV; [|exact RJ|exact FL].
    rewrite <- EC in RV. rewrite lenZ_app' in RV. replace (at_pc s (lenZ pre)) with s in RV by (destruct s; cbn in *; unfold at_pc; cbn; congruence). rewrite LP in RV. eapply goes_reaches. exact RV.
Qed.
Lemma value_int env s t z : R env s -> value_of trap env t = Some z -> expression_int trap (vmem s) (vfb s) nl t = Some z.
Proof.
  intros (E & S & F & A) V. unfold value_of in V. unfold expression_int. eapply int_value_more; [|exact V]. intros x y _ X. rewrite F. eapply env_operand; eauto.
Qed.
(* the instructions of an expression *)
Theorem evaluates_how env n t h z s : fine t -> (tree_max depth t < n)%nat -> (tree_sum width t <= wide)%nat -> block append_honest n t = COk h -> R env s -> value_of trap env t = Some z ->
  negations_fit (map chunk_of (flat n t)) /\ is_s32 z /\ pure h /\
  exists is u, emitted [] h (map chunk_of (flat n t)) is /\ runs is s u /\ vsp u = S B /\ vfb u = fb /\ agree B (vmem s) (vmem u) /\ slot_ok B fb (vmem s) (mv (vmem u) (LStack B)) z /\
    ((forall e, t = Atom e -> ~ bare e) -> mv (vmem u) (LStack B) = VInt (u32 z)).
Proof.
  intros FN D W CH HR V. pose proof (value_int _ _ _ _ HR V) as EX. pose proof (R_calm _ _ HR) as CA. destruct HR as (_ & SB & SF & _).
  destruct (flat_value trap (vmem s) (vfb s) nl n t z FN D EX) as (f & RN & _ & BV). rewrite <- (flat_loads trap (vmem s) (vfb s) nl n t z FN D EX) in W.
  assert (NN : ~ In None [Some (z, f)]) by (intros [X|[]]; discriminate).
  destruct (actions_run (k_pbits k) (k_obj_hash k) (k_as_string k) trap (k_hash_index k) (k_new_table k) (k_lib k) (k_native k) (k_ext k) C (k_funs k) (k_base k) (k_limit k) (k_protect k) (k_slices k) 3 nl
    (vsp s) (vfb s) (vmem s) (proj2 CA) (le_n 3) (proj1 CA) (flat n t) s [] [Some (z, f)] eq_refl) with (2 := RN) (3 := NN) as (SA & NH & SC & is & u & RI & RU & Fu & Lu & IM).
  { constructor; [cbn; lia|apply agree_refl|]. intros [|j] v X; discriminate. }
  { cbn. lia. }
  { cbn. intros X. specialize (room X). lia. }
  pose proof (negations_performed _ _ _ _ _ _ _ RN NN) as NF.
  destruct (block_emitted n t h CH (conj SA (conj NH SC)) NF) as (PU & is' & R' & EM). assert (is' = is) by (eapply reads_fun; eauto). subst is'.
  destruct IM as [I1 I2 I3]. destruct (I3 0%nat _ eq_refl) as (z' & g & E & RZ & O & GV). injection E as <- <-. cbn [length] in I1. rewrite SB in *.
  replace (vsp u - 1 - 0)%nat with B in O, GV by lia.
  split; [exact NF|]. split; [exact RZ|]. split; [exact PU|]. exists is, u. split; [exact EM|]. split; [exact RU|]. split; [lia|]. split; [congruence|]. split; [exact I2|]. split; [rewrite SF in O; exact O|].
  intros NB. apply GV. intros FV. destruct (BV FV) as (e & Q & BE). exact (NB _ Q BE).
Qed.
Theorem evaluates env n t h z s : fine t -> (tree_max depth t < n)%nat -> (tree_sum width t <= wide)%nat -> block append_honest n t = COk h -> R env s -> value_of trap env t = Some z ->
  negations_fit (map chunk_of (flat n t)) /\ is_s32 z /\ pure h /\
  exists is u, emitted [] h (map chunk_of (flat n t)) is /\ runs is s u /\ vsp u = S B /\ vfb u = fb /\ agree B (vmem s) (vmem u) /\ slot_ok B fb (vmem s) (mv (vmem u) (LStack B)) z.
Proof.
  intros FN D W CH HR V. destruct (evaluates_how env n t h z s FN D W CH HR V) as (A1 & A2 & A3 & is & u & A4 & A5 & A6 & A7 & A8 & A9 & _). eauto 12.
Qed.
Lemma emitted_runs h dn is s u : emitted [] h dn is -> runs is s u ->
  exists cs js v, b_all h = plain_bytes (rev cs) /\ covered (b_ops h) cs /\ Forall good cs /\ reads (rev cs) js /\ forallb flatline js = true /\ runs js s v /\ same u v.
Proof.
  intros (cs & js & EB & CV & G & RJ & DV & _) RU. cbn [List.app] in EB.
  destruct (derives_fits (k_pbits k) (k_obj_hash k) (k_as_string k) trap (k_hash_index k) (k_new_table k) (k_lib k) (k_native k) (k_ext k) (k_funs k) (k_base k) (k_limit k) (k_protect k) (k_slices k) 3 nl OH AS LL _ _ _ DV _ _ RU) as (v & RV & SM).
  exists cs, js, v. split; [exact EB|]. split; [exact CV|]. split; [exact G|]. split; [exact RJ|]. split; [eapply derives_flat; exact DV|]. split; [exact RV|exact SM].
Qed.
Lemma closed_top sp m v : closed sp m -> val_ok sp v -> closed (S sp) (wr m (LStack sp) v).
Proof.
  intros C0 V l L. destruct (loc_eq_dec l (LStack sp)) as [->|N]; [rewrite wr_same; eapply val_ok_mono; [|exact V]; lia|].
  rewrite wr_other by exact N. eapply val_ok_mono; [|apply C0]; [lia|]. destruct l; cbn in *; auto. assert (n <> sp) by congruence. lia.
Qed.
Lemma slot_agree m m' v z : agree B m m' -> slot_ok B fb m' v z -> slot_ok B fb m v z.
Proof. intros A [H|(y & H & L & E)]; [now left|]. right. exists y. rewrite (ag_mv _ _ _ A) by exact (proj1 L). auto. Qed.
(* the three instructions: load the variable, assign, pop *)
Lemma assign_runs env q n z old u : exist env nl -> env q n = Some old -> is_s32 z -> calm nl u -> vsp u = S B -> vfb u = fb ->
  near B (stored env fb nl m0) (vmem u) -> slot_ok B fb (vmem u) (mv (vmem u) (LStack B)) z ->
  exists v, runs [ILoad q (Z.to_nat n); IAssign; IPop] u v /\ R (set env q n z) v.
Proof.
  intros EX EQ RZ CU SU FU AG SL0. pose proof (stored_closed env fb nl m0 B shut) as CL. 
  assert (AG2 := set_stored env fb nl m0 q n old z B EX EQ).
  assert (VX : mv (stored env fb nl m0) (vloc fb q (Z.to_nat n)) = VInt (u32 old)) by now apply stored_var.
  assert (LX : live B (vloc fb q (Z.to_nat n))) by (eapply live_var; eauto).
  set (m1 := stored env fb nl m0) in *. set (x := vloc fb q (Z.to_nat n)) in *.
  assert (NX : forall j, (B <= j)%nat -> x <> LStack j) by (intros j J E; rewrite E in LX; cbn in LX; lia).
  assert (QL : match q with SL => (Z.to_nat n < nl)%nat | SG => True end) by (destruct (EX _ _ _ EQ) as (? & _ & L); destruct q; [exact I|]; specialize (L eq_refl); lia).
  set (m2 := wr (vmem u) (LStack (S B)) (VRef x)). set (u2 := VmModel.upd u m2 (S (S B))).
  set (m3 := wr m2 x (VInt (u32 z))). set (u3 := VmModel.upd u2 m3 (S B)). set (u4 := VmModel.upd u3 m3 B).
  assert (A2 : near B m1 m2) by (apply near_dead; [exact AG|cbn; lia]).
  assert (A3 : near B (wr m1 x (VInt (u32 z))) m3) by (unfold m3; now apply near_wr).
  assert (SLOT : mv m2 (LStack B) = mv (vmem u) (LStack B)) by (apply wr_other; intros [= X]; lia).
  assert (TOP : mv m2 (LStack (S B)) = VRef x) by apply wr_same.
  assert (XV : mv m2 x = VInt (u32 old)) by (rewrite (near_at _ _ _ _ A2 LX) by apply vloc_auto; exact VX).
  assert (C3 : closed B m3). { eapply near_closed; [exact A3|]. apply closed_wr; [exact CL|exact I]. }
  destruct CU as [C1 FR]. rewrite SU in C1.
  assert (D1 : does (ILoad q (Z.to_nat n)) u (Run u2)).
  { exists 1%nat. split; [lia|]. cbn [VmModel.exec]. unfold u2, m2, x. rewrite <- FU, <- SU. unfold checked_run, VmModel.push. cbn [vsp VmModel.upd]. 
    destruct (k_protect k && (k_limit k <=? S (vsp u))%nat) eqn:PR; [|reflexivity]. exfalso. destruct (k_protect k); [|discriminate]. specialize (room eq_refl). cbn in PR. apply Nat.leb_le in PR. lia. }
  assert (D2 : does IAssign u2 (Run u3)).
  { exists 3%nat. split; [lia|]. cbn [VmModel.exec]. unfold need, u3. unfold u2. cbn [VmModel.upd vsp vmem vfb vpc vslice]. replace (S (S B) - 1)%nat with (S B) by lia. replace (S (S B) - 2)%nat with B by lia.
    destruct (Nat.ltb_spec (S (S B)) 2); [lia|]. rewrite TOP. cbn [type_of].
    assert (W : wr_assign (k_pbits k) 3 TR (type_of (mv m2 (LStack B))) (LStack (S B)) (LStack B) m2 = Ok m3).
    { rewrite SLOT. destruct SL0 as [E|(y & E & LY & EY)].
      - rewrite E. cbn [type_of wr_assign]. rewrite TOP, XV. cbn [type_of]. rewrite SLOT, E. reflexivity.
      - rewrite E. cbn [type_of wr_assign]. rewrite TOP, SLOT, E. rewrite XV. replace (mv m2 y) with (mv (vmem u) y) by (symmetry; apply wr_other; intros ->; pose proof (proj1 LY) as Q; cbn in Q; lia). rewrite EY. cbn [type_of].
        reflexivity. }
    rewrite W. cbn [bind]. unfold trapped. cbn [VmModel.upd vmem].
    replace (mv m3 (LStack (S B))) with (VRef x); [cbn [is_invalid]; rewrite andb_false_r; reflexivity|]. unfold m3. rewrite wr_other; [now rewrite TOP|]. intros X. symmetry in X. revert X. apply NX. lia. }
  assert (D3 : does IPop u3 (Run u4)).
  { exists 1%nat. split; [lia|]. cbn [VmModel.exec]. unfold need, u4. unfold u3. cbn [VmModel.upd vsp vmem vfb vpc vslice]. destruct (Nat.ltb_spec (S B) 1); [lia|]. replace (S B - 1)%nat with B by lia. reflexivity. }
  exists u4. split.
  - assert (K2 : calm nl u2).
    { split; cbn [u2 VmModel.upd vsp vfb vmem]; [|rewrite FU; lia]. apply closed_top; [exact C1|]. cbn. destruct x; cbn in *; auto; lia. }
    assert (K3 : calm nl u3).
    { split; cbn [u3 u2 VmModel.upd vsp vfb vmem]; [|rewrite FU; lia]. apply closed_wr; [|exact I]. apply closed_wr_dead; [cbn; lia|exact C1]. }
    assert (K4 : calm nl u4) by (split; cbn [u4 u3 u2 VmModel.upd vsp vfb vmem]; [exact C3|rewrite FU; lia]).
    eapply runs_cons with (t := u2); [split; [now rewrite SU|lia]|exact QL|exact D1|]. eapply runs_cons with (t := u3); [exact K2| |exact D2|].
    + cbn [tame]. unfold top1, top2. cbn [u2 VmModel.upd vsp vmem]. intros y. replace (S (S B) - 1)%nat with (S B) by lia. rewrite TOP. intros [= <-]. now rewrite XV.
    + eapply runs_cons with (t := u4); [exact K3|exact I|exact D3|]. constructor. exact K4.
  - split; [eapply set_exist; eauto; unfold is_s32, int_min in *; lia|]. split; [reflexivity|]. split; [exact FU|]. cbn [u4 VmModel.upd vmem]. eapply near_trans; [apply agree_near; exact AG2|exact A3].
Qed.
Lemma sets_only e P P' : sets e P -> CtlSpec.pops e P' \/ CtlSpec.clause e P' -> P' = P.
Proof.
  intros S [(_ & _ & H)|(_ & _ & e1 & H1 & H)].
  - destruct (sets_pops _ _ S) as (_ & _ & K). destruct (H empty_bc I) as (b1 & E & L & _). destruct (K empty_bc I) as (b2 & E' & L' & _). cbn in L, L'. congruence.
  - destruct (sets_clause _ _ S) as (_ & _ & e2 & K1 & K). assert (e2 = e1) by congruence. subst e2. destruct (H empty_bc I) as (b1 & E & L & _). destruct (K empty_bc I) as (b2 & E' & L' & _). cbn in L, L'. congruence.
Qed.
Lemma R_same env s t : R env s -> same s t -> R env t.
Proof. intros H [S F _ _ A]. pose proof H as (_ & SB & FB & _). rewrite SB in *. eapply R_mem; [exact H|congruence|congruence|exact A]. Qed.
Lemma R_at env s p : R env s -> R env (at_pc s p).
Proof. intros H. apply (R_free _ _ _ H); auto. Qed.
Lemma set_means q n t e env old z : usable_setting wide (Sets q n t) -> compile_setting (Sets q n t) = COk e -> env q n = Some old -> value_of trap env t = Some z -> run_means machine C variables R e env (set env q n z).
Proof.
  intros U CE EQ V. destruct (setting_sets wide _ e ltac:(lia) U CE) as [P0 ST]. destruct U as ((NB & FN & AR & LO & TX & (b & h & b1 & h1 & Cb & Ch & EA & Pb & Ph & EL) & W) & _).
  assert (b = e) by (unfold compile_setting in CE; congruence). subst b.
  intros P p s HP PL PC HR. rewrite (sets_only _ _ _ ST HP) in *. clear HP P.
  assert (P0 = b_all h1). { destruct ST as (c' & q' & n' & b' & b1' & _ & _ & E1 & ->). congruence. } subst P0.
  unfold compile_honest in Ch. change (tree_max depth _) with (tree_max depth t) in Ch. destruct (setting_block _ _ _ _ _ _ FN LO Ch) as (h0 & B0 & ->).
  destruct (evaluates env _ t h0 z s FN (Nat.lt_succ_diag_r _) W B0 HR V) as (NF & RZ & PU & is & u & EM & RU & SU & FU & AU & SK).
  destruct (load_chunk_at q n NB) as [IL SL]. pose proof HR as (EX & SB & SF & AS0).
  destruct (assign_runs env q n z old u EX EQ RZ (runs_calm _ _ _ _ _ _ _ _ _ _ _ _ _ _ _ _ _ _ _ _ RU) SU FU) as (v & RV & HV).
  { eapply near_agree; eauto. } { eapply slot_agree; [apply agree_sym; exact AU|exact SK]. }
  pose proof (emit_seq [(load_op q, [u8 n]); (O_Assign, []); (O_PopOne, [])] [] h0 _ is (push_data [] h1) [ILoad q (Z.to_nat n); IAssign; IPop] EM) as EM3.
  specialize (EM3 ltac:(constructor; [exact SL|constructor; [now apply (small_chunk _ IAssign)|constructor; [now apply (small_chunk _ IPop)|constructor]]])).
  specialize (EM3 ltac:(constructor; [exact IL|constructor; [reflexivity|constructor; [reflexivity|constructor]]])).
  replace (map chunk_of (flat (S (tree_max depth t)) t) ++ [(load_op q, [u8 n]); (O_Assign, []); (O_PopOne, [])]) with (((map chunk_of (flat (S (tree_max depth t)) t) ++ [(load_op q, [u8 n])]) ++ [(O_Assign, [])]) ++ [(O_PopOne, [])]) in EM3 by (now rewrite <- !app_assoc).
  specialize (EM3 ltac:(apply no_negate; [|discriminate]; apply no_negate; [|discriminate]; apply no_negate; [exact NF|destruct q; discriminate]) (emit_setting _ _ _ _ Ph)).
  assert (RALL : runs (is ++ [ILoad q (Z.to_nat n); IAssign; IPop]) s v) by (apply runs_app; eauto).
  destruct (emitted_runs _ _ _ _ _ EM3 RALL) as (cs & js & w & EB & _ & _ & RJ & FL & RW & SM). unfold push_data in EB. cbn [b_all set_code] in EB. rewrite app_nil_r in EB.
  pose proof (pure_placed _ _ _ _ (sets_pure _ _ ST) PL) as PB. rewrite EB in PB.
  exists (at_pc w (p + lenZ (plain_bytes (rev cs)))). split; [eapply walk; eauto|]. split; [cbn; now rewrite EB|]. apply R_at. eapply R_same; eauto.
Qed.
Lemma eval_assign_int b to from x m old y z : is_s32 old -> is_s32 y -> change_spec trap b old y z -> mv m to = VRef x -> mv m x = VInt (u32 old) ->
  mv m from = VInt (u32 y) \/ (exists q, mv m from = VRef q /\ mv m q = VInt (u32 y)) -> x <> LAuto 0 ->
  exists m1, eval_assign (k_pbits k) (k_obj_hash k) (k_as_string k) trap b 3 to from m = Ok (wr (wr m1 x (VInt (u32 z))) from (VInt (u32 z))) /\ (m1 = m \/ m1 = wr m (LAuto 0) (VInt (u32 y))).
Proof.
  intros RO RY (T & SP & MU) ET EX EF NX. unfold eval_assign. rewrite ET. cbn [type_of].
  assert (XA : forall v, mv (wr m (LAuto 0) v) x = VInt (u32 old)) by (intros v; rewrite wr_other by exact NX; exact EX).
  destruct (is_arith b) eqn:A.
  - set (o := if (match b with BMul => true | _ => false end) then mul_assign_op else op_of b).
    assert (L : leaf trap o TI TI (u32 old) (u32 y) = Some (VInt (u32 z))).
    { destruct (match b with BMul => true | _ => false end) eqn:IM.
      - destruct b; try discriminate IM. cbn [o]. specialize (MU eq_refl). subst z. cbn [spec_int] in SP. assert (SQ : s32 (old * y) = old * y) by congruence.
        unfold o, mul_assign_op. cbn [leaf]. unfold leaf. cbn. unfold imul_c, checked. rewrite !s32_u32_id by auto.
        pose proof (s32_range (old * y)) as RS. rewrite SQ in RS. unfold is_s32 in RS. unfold OpsModel.int_min. replace ((-2147483648 <=? old * y) && (old * y <=? 2147483647)) with true by lia. reflexivity.
      - unfold o. apply (leaf_spec trap (fun _ => 0) b (NI old) (NI y) (NI z)); auto.
        + intros -> TR. rewrite TR in T. cbn in *. exact T.
        + cbn [spec_bin]. now rewrite SP. }
    destruct b; try discriminate A; cbn [o op_of] in L; unfold o in L; cbn [op_of] in L;
    (destruct EF as [EF|(q & EF & EQ)]; rewrite EF; cbn [type_of arith_assign]; rewrite ET, ?EF;
     [exists m; split; [|now left]|exists (wr m (LAuto 0) (VInt (u32 y))); split; [|now right]; cbn zeta; rewrite EQ, XA, wr_same];
     rewrite ?EX; cbn [type_of arith_assign]; unfold assign_leaf, rdi; rewrite ?EX, ?EF, ?XA, ?wr_same; cbn [bits]; rewrite L; cbn [of_opt bind]; rewrite wr_same; reflexivity).
  - assert (L : int_fn b (u32 old) (u32 y) = Some (u32 z)) by (apply int_fn_spec; auto).
    destruct b; try discriminate A;
    (destruct EF as [EF|(q & EF & EQ)]; rewrite EF; cbn [type_of logic_assign]; rewrite ET, ?EF;
     [exists m; split; [|now left]|exists (wr m (LAuto 0) (VInt (u32 y))); split; [|now right]; cbn zeta; rewrite EQ, XA, wr_same];
     rewrite ?EX; cbn [type_of logic_assign]; unfold rdi; rewrite ?EX, ?EF, ?XA, ?wr_same; cbn [bits]; rewrite L; cbn [of_opt bind set_payload]; rewrite wr_same; reflexivity).
Qed.
(* the two instructions behind the value: load the variable, change it *)
Lemma change_runs env b q n z y old u : exist env nl -> env q n = Some old -> is_s32 y -> change_spec trap b old y z -> calm nl u -> vsp u = S B -> vfb u = fb ->
  near B (stored env fb nl m0) (vmem u) -> slot_ok B fb (vmem u) (mv (vmem u) (LStack B)) y ->
  exists v, runs [ILoad q (Z.to_nat n); ICompoundPop b] u v /\ R (set env q n z) v.
Proof.
  intros EX EQ RY CS CU SU FU AG SL0. pose proof (stored_closed env fb nl m0 B shut) as CL. assert (RO : is_s32 old) by (destruct (EX _ _ _ EQ) as (_ & X & _); exact X).
  assert (AG2 := set_stored env fb nl m0 q n old z B EX EQ).
  assert (VX : mv (stored env fb nl m0) (vloc fb q (Z.to_nat n)) = VInt (u32 old)) by now apply stored_var.
  assert (LX : live B (vloc fb q (Z.to_nat n))) by (eapply live_var; eauto). pose proof (vloc_auto fb q (Z.to_nat n)) as XA.
  set (m1 := stored env fb nl m0) in *. set (x := vloc fb q (Z.to_nat n)) in *.
  assert (NX : forall j, (B <= j)%nat -> x <> LStack j) by (intros j J E; rewrite E in LX; cbn in LX; lia).
  assert (QL : match q with SL => (Z.to_nat n < nl)%nat | SG => True end) by (destruct (EX _ _ _ EQ) as (? & _ & L); destruct q; [exact I|]; specialize (L eq_refl); lia).
  set (m2 := wr (vmem u) (LStack (S B)) (VRef x)). set (u2 := VmModel.upd u m2 (S (S B))).
  assert (A2 : near B m1 m2) by (apply near_dead; [exact AG|cbn; lia]).
  assert (SLOT : mv m2 (LStack B) = mv (vmem u) (LStack B)) by (apply wr_other; intros [= X]; lia).
  assert (TOP : mv m2 (LStack (S B)) = VRef x) by apply wr_same.
  assert (XV : mv m2 x = VInt (u32 old)) by (rewrite (near_at _ _ _ _ A2 LX XA); exact VX).
  destruct (eval_assign_int b (LStack (S B)) (LStack B) x m2 old y z RO RY CS TOP XV) as (m3 & EV & M3); [|exact XA|].
  { rewrite SLOT. destruct SL0 as [E|(w & E & LY & EY)]; [now left|]. right. exists w. split; [exact E|]. rewrite <- EY. apply wr_other. intros ->. pose proof (proj1 LY) as Q. cbn in Q. lia. }
  assert (A3 : near B m1 m3) by (destruct M3 as [-> | ->]; [exact A2|now apply near_auto]).
  set (m4 := wr (wr m3 x (VInt (u32 z))) (LStack B) (VInt (u32 z))) in *.
  assert (A4 : near B (wr m1 x (VInt (u32 z))) m4) by (apply near_dead; [now apply near_wr|cbn; lia]).
  assert (C4 : closed B m4) by (eapply near_closed; [exact A4|]; apply closed_wr; [exact CL|exact I]).
  set (u4 := VmModel.upd u2 m4 B). destruct CU as [C1 FR]. rewrite SU in C1.
  assert (D1 : does (ILoad q (Z.to_nat n)) u (Run u2)).
  { exists 1%nat. split; [lia|]. cbn [VmModel.exec]. unfold u2, m2, x. rewrite <- FU, <- SU. unfold checked_run, VmModel.push. cbn [vsp VmModel.upd]. 
    destruct (k_protect k && (k_limit k <=? S (vsp u))%nat) eqn:PR; [|reflexivity]. exfalso. destruct (k_protect k); [|discriminate]. specialize (room eq_refl). cbn in PR. apply Nat.leb_le in PR. lia. }
  assert (D2 : does (ICompoundPop b) u2 (Run u4)).
  { exists 3%nat. split; [lia|]. cbn [VmModel.exec]. unfold need, u4. unfold u2. cbn [VmModel.upd vsp vmem vfb vpc vslice]. replace (S (S B) - 1)%nat with (S B) by lia. replace (S (S B) - 2)%nat with B by lia.
    destruct (Nat.ltb_spec (S (S B)) 2); [lia|]. rewrite EV. cbn [bind]. unfold trapped. cbn [VmModel.upd vmem].
    replace (mv m4 (LStack (S B))) with (VRef x); [cbn [is_invalid]; rewrite andb_false_r; reflexivity|]. unfold m4. rewrite wr_other by (intros [= X]; lia). rewrite wr_other by (intros X; symmetry in X; revert X; apply NX; lia).
    destruct M3 as [-> | ->]; [now rewrite TOP|]. rewrite wr_other by discriminate. now rewrite TOP. }
  exists u4. split.
  - assert (K2 : calm nl u2).
    { split; cbn [u2 VmModel.upd vsp vfb vmem]; [|rewrite FU; lia]. apply closed_top; [exact C1|]. cbn. destruct x; cbn in *; auto; lia. }
    assert (K4 : calm nl u4) by (split; cbn [u4 u2 VmModel.upd vsp vfb vmem]; [exact C4|rewrite FU; lia]).
    eapply runs_cons with (t := u2); [split; [now rewrite SU|lia]|exact QL|exact D1|]. eapply runs_cons with (t := u4); [exact K2|exact I|exact D2|]. constructor. exact K4.
  - split; [|split; [reflexivity|]; split; [exact FU|]; cbn [u4 VmModel.upd vmem]; eapply near_trans; [apply agree_near; exact AG2|exact A4]].
    eapply set_exist; eauto. destruct CS as (_ & CS & _). pose proof (OpsProofs3.spec_int_range _ _ _ _ RO RY CS). unfold is_s32, int_min in *; lia.
Qed.
Lemma changed_means s q n t e env old y z f : usable_setting wide (Changes s q n t) -> compile_setting (Changes s q n t) = COk e -> look (int_changes trap) s = Some f ->
  env q n = Some old -> value_of trap env t = Some y -> f old y = Some z -> run_means machine C variables R e env (set env q n z).
Proof.
  intros U CE LK EQ V FZ. destruct (setting_sets wide _ e ltac:(lia) U CE) as [P0 ST]. destruct U as ((NB & FN & AR & LO & TX & (b & h & b1 & h1 & Cb & Ch & EA & Pb & Ph & EL) & W) & K).
  assert (b = e) by (unfold compile_setting in CE; congruence). subst b.
  intros P p s0 HP PL PC HR. rewrite (sets_only _ _ _ ST HP) in *. clear HP P.
  assert (P0 = b_all h1). { destruct ST as (c' & q' & n' & b' & b1' & _ & _ & E1 & ->). congruence. } subst P0.
  unfold compile_honest in Ch. change (tree_max depth _) with (tree_max depth t) in Ch. destruct (change_block _ _ _ _ _ _ _ K FN LO Ch) as (h0 & B0 & ->).
  destruct (evaluates env _ t h0 y s0 FN (Nat.lt_succ_diag_r _) W B0 HR V) as (NF & RY & PU & is & u & EM & RU & SU & FU & AU & SK).
  destruct (emitted_runs _ _ _ _ _ EM RU) as (cs & js & v & EB & _ & _ & RJ & FL & RV & [S1 S2 _ _ S5]). rewrite SU in S1, S5.
  assert (AV : agree B (vmem s0) (vmem v)) by (eapply agree_trans; [exact AU|eapply agree_mono; [|exact S5]; lia]).
  destruct (change_means _ _ _ LK) as (op & bo & PF & IO & CS). pose proof HR as (EX & SB & SF & AS0).
  assert (RO : is_s32 old) by (destruct (EX _ _ _ EQ) as (_ & X & _); exact X).
  destruct (change_runs env bo q n z y old v EX EQ RY (CS _ _ _ RO RY FZ) (runs_calm _ _ _ _ _ _ _ _ _ _ _ _ _ _ _ _ _ _ _ _ RV) S1) as (w & RW & HW).
  { congruence. } { eapply near_agree; eauto. } { rewrite <- (ag_mv _ _ _ S5) by (cbn; lia). eapply slot_agree; [apply agree_sym; exact AV|exact SK]. }
  rewrite (pop_changed _ _ _ _ _ PF) in Ph. injection Ph as <-. cbn [b_all set_code] in PL |- *.
  destruct (load_chunk_at q n NB) as [IL _].
  assert (EP : b_all h0 ++ [byte_of (load_op q); u8 n; byte_of op] = plain_bytes (rev cs ++ [(load_op q, [u8 n]); (op, [])])).
  { rewrite EB. unfold plain_bytes. rewrite map_app, concat_app. reflexivity. }
  pose proof (pure_placed _ _ _ _ (sets_pure _ _ ST) PL) as PB. rewrite EP in PB |- *.
  exists (at_pc w (p + lenZ (plain_bytes (rev cs ++ [(load_op q, [u8 n]); (op, [])])))). split; [|split; [reflexivity|now apply R_at]].
  eapply walk with (js := js ++ [ILoad q (Z.to_nat n); ICompoundPop bo]); [exact PB|apply reads_app2; [exact RJ|constructor; [exact IL|constructor; [exact IO|constructor]]]|rewrite forallb_app, FL; reflexivity|exact PC|].
  apply runs_app. exists v. auto.
Qed.
(* ++x *)
Lemma stepped_means s after d q n e env old : usable_setting wide (Steps s after q n) -> compile_setting (Steps s after q n) = COk e -> look int_steps s = Some d ->
  env q n = Some old -> EvalSpec.int_min <= old + d <= 2147483647 -> run_means machine C variables R e env (set env q n (old + d)).
Proof.
  intros U CE LK EQ RZ. destruct (setting_sets wide _ e ltac:(lia) U CE) as [P0 ST]. destruct U as (NB & K).
  intros P p s0 HP PL PC HR. rewrite (sets_only _ _ _ ST HP) in *. clear HP P. pose proof HR as (EX & SB & SF & AS0).
  unfold compile_setting, compile in CE. rewrite (step_block _ _ _ _ _ _ K) in CE. injection CE as <-.
  assert (EP : P0 = plain_bytes [(step_form q s, [u8 n])]).
  { destruct (sets_clause _ _ ST) as (_ & _ & e1 & K1 & K2). rewrite pop_stepped in K1. injection K1 as <-. destruct (K2 empty_bc I) as (b2 & X1 & X2 & _). rewrite append_pure in X1; [|reflexivity|exact I|cbn; lia]. injection X1 as <-. cbn in X2. now rewrite <- X2. }
  pose proof (pure_placed _ _ _ _ (sets_pure _ _ ST) PL) as PB. rewrite EP in PB |- *.
  assert (IN : instr_at (step_form q s, [u8 n]) = Some (IIncVar d q (Z.to_nat n))).
  { replace n with (u8 n) at 2 by (unfold u8; lia). unfold step_form. unfold look, int_steps in LK. cbn [find fst] in LK.
    destruct (String.eqb s "++"); [cbn in LK; injection LK as <-; destruct q; reflexivity|]. destruct (String.eqb s "--"); [cbn in LK; injection LK as <-; destruct q; reflexivity|discriminate]. }
  assert (VX : mv (stored env fb nl m0) (vloc fb q (Z.to_nat n)) = VInt (u32 old)) by now apply stored_var.
  assert (LX : live B (vloc fb q (Z.to_nat n))) by (eapply live_var; eauto). pose proof (vloc_auto fb q (Z.to_nat n)) as XA.
  assert (RO : is_s32 old) by (destruct (EX _ _ _ EQ) as (_ & X & _); exact X).
  set (x := vloc fb q (Z.to_nat n)) in *. set (w := VmModel.upd s0 (wr (vmem s0) x (VInt (u32 (old + d)))) B).
  assert (XV : mv (vmem s0) x = VInt (u32 old)) by (rewrite (near_at _ _ _ _ AS0 LX XA); exact VX).
  assert (HW : R (set env q n (old + d)) w).
  { split; [eapply set_exist; eauto|]. split; [reflexivity|]. split; [exact SF|]. cbn [w VmModel.upd vmem]. eapply near_trans; [apply agree_near, (set_stored env fb nl m0 q n old (old + d) B EX EQ)|]. now apply near_wr. }
  exists (at_pc w (p + lenZ (plain_bytes [(step_form q s, [u8 n])]))). split; [|split; [reflexivity|now apply R_at]].
  eapply walk with (js := [IIncVar d q (Z.to_nat n)]); [exact PB|constructor; [exact IN|constructor]|reflexivity|exact PC|].
  eapply runs_cons with (t := w); [exact (R_calm _ _ HR)| | |constructor; exact (R_calm _ _ HW)].
  - cbn [tame]. destruct (EX _ _ _ EQ) as (? & _ & L). destruct q; [exact I|]. specialize (L eq_refl). lia.
  - exists 3%nat. split; [lia|]. cbn [VmModel.exec VmModel.upd vmem vsp vfb vpc vslice]. rewrite SF. fold x. 
    unfold eval_pre. rewrite XV. cbn [type_of OpsModel.unary_pre]. rewrite XV. cbn [incr].
    rewrite s32_u32_id by exact RO. unfold checked. unfold OpsModel.int_min. unfold EvalSpec.int_min in RZ. replace ((-2147483648 <=? old + d) && (old + d <=? 2147483647)) with true by lia. cbn [option_map of_opt bind]. unfold w. rewrite SB. reflexivity.
Qed.
Theorem setting_means a e env env1 : usable_setting wide a -> compile_setting a = COk e -> assigns trap a env env1 -> run_means machine C variables R e env env1.
Proof.
  intros U CE H. destruct H as [q n t env old z EQ V|s f q n t env old y z LK EQ V FZ|s d after q n env old LK EQ RZ]; [eapply set_means|eapply changed_means|eapply stepped_means]; eauto.
Qed.
Lemma yields s s' : exists s2, resumed (k_ips k) (fun _ => Ok (force_yield (k_slices k) s')) s = Ok (Run s2) /\ vpc s2 = vpc s' /\ vsp s2 = vsp s' /\ vfb s2 = vfb s' /\
  (vmem s2 = vmem s' \/ vmem s2 = wr (vmem s') (LStack (vsp s')) (VInt 0)).
Proof.
  unfold resumed, force_yield. destruct ((vslice s' - 1 =? 0) && k_slices k); cbn; (eexists; split; [reflexivity|]); cbn; rewrite ?Nat.sub_0_r; auto.
Qed.
Lemma exec_fuel fuel i q s o : (fuel <= 3)%nat -> decode C (vpc s) = Some (i, q) -> exec fuel i (at_pc s q) = Ok o -> machine s = resumed (k_ips k) (fun _ => Ok o) s.
Proof.
  intros LF D E. unfold CtlSem.machine, resumed. assert (ST : step (k_pbits k) (k_obj_hash k) (k_as_string k) trap (k_hash_index k) (k_new_table k) (k_lib k) (k_native k) (k_ext k) C (k_funs k) (k_base k) (k_limit k) (k_protect k) (k_slices k) fuel s = Ok o) by (unfold step; rewrite D; exact E).
  now rewrite (step_deep _ _ _ _ _ _ _ _ _ _ _ _ _ _ _ fuel (k_fuel k) s ltac:(lia) _ ST).
Qed.
Lemma slot_truth m v z b : is_s32 z -> slot_ok B fb m v z -> v = VInt (Z.b2z b) -> b = negb (z =? 0).
Proof.
  intros RZ [E|(y & E & _)] V; [|congruence]. rewrite E in V. assert (V1 : u32 z = Z.b2z b) by congruence. clear V. rename V1 into V. unfold is_s32 in RZ. unfold u32 in V. destruct (Z.eqb_spec z 0), b; unfold Z.b2z in V; cbn [negb]; try reflexivity; exfalso; lia.
Qed.
(* what a branch does, in terms of the instruction without it *)
Lemma branch_exec j i f r w v ms z pp : branch_of f j = Some i -> does j w (Run v) -> decode C pp = Some (i, r) -> vsp v = S B -> vfb v = fb -> agree B ms (vmem v) -> is_s32 z -> slot_ok B fb ms (mv (vmem v) (LStack B)) z ->
  exists s2, machine (at_pc w pp) = Ok (Run s2) /\ vpc s2 = (if z =? 0 then f else r) /\ vsp s2 = B /\ vfb s2 = fb /\ agree B ms (vmem s2).
Proof.
  intros BO (fuel & LF & E) D SV FV AV RZ SK.
  assert (YI : forall s', vsp s' = B -> vfb s' = fb -> agree B ms (vmem s') -> vpc s' = (if z =? 0 then f else r) ->
     exists s2, resumed (k_ips k) (fun _ => Ok (force_yield (k_slices k) s')) (at_pc w pp) = Ok (Run s2) /\ vpc s2 = (if z =? 0 then f else r) /\ vsp s2 = B /\ vfb s2 = fb /\ agree B ms (vmem s2)).
  { intros s' Y1 Y2 Y3 Y4. destruct (yields (at_pc w pp) s') as (s2 & Z1 & Z2 & Z3 & Z4 & Z5). exists s2. split; [exact Z1|]. split; [congruence|]. split; [congruence|]. split; [congruence|].
    destruct Z5 as [-> | ->]; [exact Y3|]. apply agree_dead; [exact Y3|]. rewrite Y1. cbn. lia. }
  destruct j; try discriminate BO; injection BO as <-; cbn [VmModel.exec VmModel.upd vmem vsp vfb vpc vslice] in E.
  - (* variable *)
    unfold checked_run in E. destruct (k_protect k && _) in E; [discriminate|]. injection E as <-. cbn [VmModel.push VmModel.upd vsp vfb vmem] in *. injection SV as SV.
    rewrite SV in *. rewrite wr_same in SK. destruct SK as [X|(y & X & LY & VY)]; [discriminate|]. injection X as <-.
    assert (AW : agree B ms (vmem w)). { eapply agree_trans; [exact AV|]. apply agree_wr_dead; [cbn; lia|apply agree_refl]. }
    assert (VY' : mv (vmem w) (vloc (vfb w) s n) = VInt (u32 z)) by (rewrite <- (ag_mv _ _ _ AW) by exact (proj1 LY); exact VY).
    rewrite (exec_fuel 3 _ r (at_pc w pp) (force_yield (k_slices k) (if z =? 0 then set_pc (VmModel.upd (at_pc w r) (vmem w) B) f else VmModel.upd (at_pc w r) (vmem w) B)) (le_n 3) D).
    + apply YI; destruct (z =? 0); cbn; auto.
    + cbn [VmModel.exec VmModel.upd at_pc vfb vmem vsp vpc vslice]. rewrite (not_int _ _ _ _ z RZ) by (left; exact VY'). cbn [bind]. rewrite SV. reflexivity.
  - (* comparison of two values *)
    unfold need in E. cbn [VmModel.upd vsp vmem vfb vpc vslice] in E. destruct (vsp w <? 2)%nat eqn:L2; [discriminate|]. apply Nat.ltb_ge in L2. apply bind_inv in E. destruct E as ([b m1] & EC & E). injection E as <-. cbn [VmModel.upd vsp vfb vmem] in *.
    assert (SB : (vsp w - 2)%nat = B) by lia. rewrite SB in *. rewrite wr_same in SK. pose proof (slot_truth _ _ _ b RZ SK eq_refl) as TB.
    assert (AW : agree B ms m1). { eapply agree_trans; [exact AV|]. apply agree_wr_dead; [cbn; lia|apply agree_refl]. }
    rewrite (exec_fuel fuel _ r (at_pc w pp) (force_yield (k_slices k) (if b then VmModel.upd (at_pc w r) m1 B else set_pc (VmModel.upd (at_pc w r) m1 B) f)) LF D).
    + rewrite TB. apply YI; destruct (z =? 0); cbn; auto.
    + cbn [VmModel.exec VmModel.upd at_pc vfb vmem vsp vpc vslice]. unfold need. cbn [VmModel.upd vsp at_pc vmem vfb vpc vslice]. destruct (Nat.ltb_spec (vsp w) 2); [lia|]. rewrite SB, EC. reflexivity.
  - (* two variables *)
    apply bind_inv in E. destruct E as ([b m1] & EC & E). unfold checked_run in E. destruct (k_protect k && _) in E; [discriminate|]. injection E as <-. cbn [VmModel.upd vsp vfb vmem] in *.
    injection SV as SB. rewrite SB in *. rewrite wr_same in SK. pose proof (slot_truth _ _ _ b RZ SK eq_refl) as TB.
    assert (AW : agree B ms m1). { eapply agree_trans; [exact AV|]. apply agree_wr_dead; [cbn; lia|apply agree_refl]. }
    rewrite (exec_fuel fuel _ r (at_pc w pp) (Run (if b then VmModel.upd (at_pc w r) m1 B else set_pc (VmModel.upd (at_pc w r) m1 B) f)) LF D).
    + cbn. eexists. split; [reflexivity|]. rewrite TB. destruct (z =? 0); cbn; auto.
    + cbn [VmModel.exec VmModel.upd at_pc vfb vmem vsp vpc vslice]. rewrite EC. cbn [bind]. rewrite SB. reflexivity.
  - (* a variable and a value *)
    unfold need in E. cbn [VmModel.upd vsp vmem vfb vpc vslice] in E. destruct (vsp w <? 1)%nat eqn:L2; [discriminate|]. apply Nat.ltb_ge in L2. apply bind_inv in E. destruct E as ([b m1] & EC & E). injection E as <-. cbn [VmModel.upd vsp vfb vmem] in *.
    assert (SB : (vsp w - 1)%nat = B) by lia. rewrite SB in *. rewrite wr_same in SK. pose proof (slot_truth _ _ _ b RZ SK eq_refl) as TB.
    assert (AW : agree B ms m1). { eapply agree_trans; [exact AV|]. apply agree_wr_dead; [cbn; lia|apply agree_refl]. }
    rewrite (exec_fuel fuel _ r (at_pc w pp) (Run (if b then VmModel.upd (at_pc w r) m1 B else set_pc (VmModel.upd (at_pc w r) m1 B) f)) LF D).
    + cbn. eexists. split; [reflexivity|]. rewrite TB. destruct (z =? 0); cbn; auto.
    + cbn [VmModel.exec VmModel.upd at_pc vfb vmem vsp vpc vslice]. unfold need. cbn [VmModel.upd vsp at_pc vmem vfb vpc vslice]. destruct (Nat.ltb_spec (vsp w) 1); [lia|]. rewrite SB, EC. reflexivity.
Qed.
(* the branch that is not fused with the instruction before it *)
Lemma bz_exec f r v ms z pp : decode C pp = Some (IBZ f, r) -> vsp v = S B -> vfb v = fb -> agree B ms (vmem v) -> is_s32 z -> slot_ok B fb ms (mv (vmem v) (LStack B)) z ->
  exists s2, machine (at_pc v pp) = Ok (Run s2) /\ vpc s2 = (if z =? 0 then f else r) /\ vsp s2 = B /\ vfb s2 = fb /\ agree B ms (vmem s2).
Proof.
  intros D SV FV AV RZ SK. set (s' := if z =? 0 then set_pc (VmModel.upd (at_pc v r) (vmem v) B) f else VmModel.upd (at_pc v r) (vmem v) B).
  rewrite (exec_fuel 3 _ r (at_pc v pp) (force_yield (k_slices k) s') (le_n 3) D).
  - destruct (yields (at_pc v pp) s') as (s2 & Z1 & Z2 & Z3 & Z4 & Z5). exists s2. split; [exact Z1|]. unfold s' in *. split; [rewrite Z2; now destruct (z =? 0)|]. split; [rewrite Z3; now destruct (z =? 0)|].
    split; [rewrite Z4; destruct (z =? 0); exact FV|]. destruct (z =? 0); (destruct Z5 as [-> | ->]; cbn; [exact AV|apply agree_dead; [exact AV|cbn; lia]]).
  - cbn [VmModel.exec VmModel.upd at_pc vfb vmem vsp vpc vslice]. unfold need. cbn [VmModel.upd vsp at_pc vmem vfb vpc vslice]. rewrite SV. destruct (Nat.ltb_spec (S B) 1); [lia|]. replace (S B - 1)%nat with B by lia.
    rewrite (not_int _ _ _ _ z RZ) by (eapply slot_holds; eauto). reflexivity.
Qed.
Theorem condition_means t c env z : usable wide O_BZ t -> compile t = COk c -> value_of trap env t = Some z -> cond_means machine C variables R c env (negb (z =? 0)) env.
Proof.
  intros U CE V. destruct (usable_neat O_BZ wide t c ltac:(lia) U CE) as [NB _].
  destruct U as (FN & AR & (b & h & b1 & h1 & Cb & Ch & EA & Pb & Ph & EL) & W). assert (b = c) by congruence. subst b.
  intros p r f s (Q & kk & kd & t0 & (_ & _ & KP & _ & BR) & RE & PL & J0 & J) PC HR.
  destruct (BR empty_bc I) as (b1' & o & rest & E1 & E2 & E3 & _ & _ & E4). rewrite (empty_append _ NB) in E1. cbn [cbind] in E1. assert (b1' = b1) by congruence. subst b1'. cbn [empty_bc b_all List.app] in E2.
  destruct (evaluates env _ t h z s FN (Nat.lt_succ_diag_r _) W Ch HR V) as (NF & RZ & PU & is & u & EM & RU & SU & FU & AU & SK). pose proof HR as (EX & SB & SF & AS0).
  destruct (emitted_runs _ _ _ _ _ EM RU) as (cs & js & v & EB & CV & GD & RJ & FL & RV & [S1 S2 _ _ S5]).
  rewrite SU in S1, S5. assert (FV : vfb v = fb) by congruence.
  assert (AV : agree B (vmem s) (vmem v)) by (eapply agree_trans; [exact AU|eapply agree_mono; [|exact S5]; lia]).
  assert (SV : slot_ok B fb (vmem s) (mv (vmem v) (LStack B)) z) by (rewrite <- (ag_mv _ _ _ S5) by (cbn; lia); exact SK).
  assert (FINAL : forall s2, vpc s2 = (if z =? 0 then f else r) -> vsp s2 = B -> vfb s2 = fb -> agree B (vmem s) (vmem s2) -> vpc s2 = (if negb (z =? 0) then r else f) /\ R env s2).
  { intros s2 X1 X2 X3 X4. split; [now destruct (z =? 0)|]. eapply R_mem; eauto. }
  unfold push_opcode in Pb, Ph. rewrite EA in Ph, EB.
  destruct (fuse O_BZ (b_ops h) (rev (b_all c))) as [oh rh| |] eqn:FH; [| |discriminate]; (destruct (fuse O_BZ (b_ops c) (rev (b_all c))) as [oc rc| |] eqn:FC; [| |discriminate]);
    injection Ph as <-; injection Pb as <-; cbn [b_all b_ops set_code] in EL, E2, E3.
  - (* fused with the last instruction *)
    destruct (bz_inv _ _ _ _ FH) as (o0 & resth & op & kh & EO & BF & KH & _ & RH). destruct (bz_inv _ _ _ _ FC) as (o0c & restc & opc & kc & _ & BFc & KC & EOc & RC).
    apply (f_equal (@rev Z)) in EL. rewrite !rev_involutive in EL.
    rewrite EO in CV. destruct cs as [|[o1 d] cs']; [destruct CV|]. destruct CV as [CV _]. cbn [fst] in CV. subst o1.
    destruct (last_chunk _ _ _ _ RJ) as (js0 & j0 & -> & RJ0 & IJ). destruct (branch_instr _ _ _ _ _ BF IJ) as (LD & NBY & i & tt0 & BO & JA).
    cbn [rev] in EB. rewrite plain_snoc in EB. set (A := plain_bytes (rev cs')) in *.
    assert (EL2 : rev (b_all c) = rev d ++ byte_of o0 :: rev A) by (rewrite EB, rev_app_distr; cbn [rev]; now rewrite <- app_assoc).
    assert (LRD : length (rev d) = Z.to_nat kh) by (rewrite rev_length; unfold lenZ in LD; lia).
    assert (AT : nth_error (rev (b_all c)) (Z.to_nat kh) = Some (byte_of o0)) by (rewrite EL2, nth_error_app2 by lia; rewrite LRD, Nat.sub_diag; reflexivity).
    assert (KK : kc = kh).
    { destruct (Z.eq_dec kc kh) as [|NE]; [assumption|]. exfalso. assert (X : nth_error rc (Z.to_nat kh) = nth_error rh (Z.to_nat kh)) by congruence.
      rewrite RC, RH, upd_other, upd_same, AT in X by (unfold lenZ in *; lia). congruence. }
    subst kc. assert (EQ : Q = A ++ byte_of op :: d).
    { rewrite <- E2, <- EL, RH, upd_cut by (unfold lenZ in KH; lia). rewrite EL2, firstn_app, LRD, Nat.sub_diag. cbn [firstn]. rewrite firstn_all2 by lia.
      rewrite skipn_app, LRD. rewrite skipn_all2 by lia. replace (S (Z.to_nat kh) - Z.to_nat kh)%nat with 1%nat by lia. cbn [skipn List.app]. rewrite app_nil_r, rev_app_distr. cbn [rev]. rewrite !rev_involutive, <- app_assoc. reflexivity. }
    destruct (bz_inert _ _ _ BFc) as (_ & SBK & _). rewrite EOc in E3. injection E3 as <- _. rewrite SBK in E4.
    assert (LQ : lenZ Q = lenZ A + 1 + kh) by (rewrite EQ, lenZ_app', lenZ_cons; lia).
    assert (K1 : kk - 1 = lenZ A) by lia. rewrite K1 in *.
    assert (FQ : firstn (Z.to_nat (lenZ A)) Q = A). { rewrite EQ. unfold lenZ. rewrite Nat2Z.id, firstn_app, Nat.sub_diag, firstn_all. cbn. apply app_nil_r. }
    rewrite FQ in PL. pose proof (pure_placed _ _ _ _ (ne_pure _ NB) PL) as PB.
    apply runs_app in RV. destruct RV as (w & RW & RL). clear E2. inversion RL as [|? ? ? t1 ? CW TW DW RN]; subst. apply runs_nil_inv in RN. destruct RN as [-> _].
    assert (FL0 : forallb flatline js0 = true) by (rewrite forallb_app in FL; now apply andb_prop in FL).
    pose proof (walk (rev cs') js0 _ s w PB RJ0 FL0 eq_refl RW) as WK. fold A in WK.
    assert (KD : kd = JInstr i).
    { assert (X : jump_at ((A ++ byte_of op :: d) ++ [9; 9]) (lenZ A) = Some (JInstr i, lenZ A + tt0, lenZ A + (1 + lenZ d + 2))).
      { rewrite <- app_assoc. change ((byte_of op :: d) ++ [9; 9]) with ((byte_of op :: d) ++ [9; 9]). rewrite <- (Z.add_0_r (lenZ A)) at 1.
        apply (LayProofs.jump_at_shift _ _ _ _ _ _ _ JA). intros x X. apply LayProofs.nthZ_app2. lia. }
      rewrite X in J0. congruence. }
    subst kd. destruct (jump_back _ _ _ _ _ J) as (i1 & D1 & T1 & R1). pose proof (branch_target _ _ _ _ BO T1 R1) as BT.
    destruct (branch_exec _ _ _ _ _ _ _ _ _ BT DW D1 S1 FV AV RZ SV) as (s2 & M2 & P2 & Q2 & F2 & A2).
    exists s2. split; [eapply reaches_trans; [exact WK|now apply reaches_one]|]. apply FINAL; auto.
  - exfalso. apply (f_equal lenZ) in EL. destruct (bz_inv _ _ _ _ FH) as (o0 & resth & op & kh & EO & BF & KH & _ & RH). rewrite RH, lenZ_app' in EL. unfold lenZ in EL. rewrite rev_length, upd_length, rev_length in EL. cbn in EL. lia.
  - exfalso. apply (f_equal lenZ) in EL. destruct (bz_inv _ _ _ _ FC) as (o0 & resth & op & kh & EO & BF & KH & _ & RH). rewrite RH, lenZ_app' in EL. unfold lenZ in EL. rewrite rev_length, upd_length, rev_length in EL. cbn in EL. lia.
  - (* not fused *)
    injection E3 as <- _. assert (EQ : Q = b_all c ++ [byte_of O_BZ]) by (now rewrite <- E2). assert (LQ : lenZ Q = lenZ (b_all c) + 1) by (rewrite EQ, lenZ_app'; reflexivity).
    change (source_back O_BZ) with 0 in E4. assert (K1 : kk - 1 = lenZ (b_all c)) by lia. rewrite K1 in *.
    assert (FQ : firstn (Z.to_nat (lenZ (b_all c))) Q = b_all c). { rewrite EQ. unfold lenZ. rewrite Nat2Z.id, firstn_app, Nat.sub_diag, firstn_all. cbn. apply app_nil_r. }
    rewrite FQ in PL. pose proof (pure_placed _ _ _ _ (ne_pure _ NB) PL) as PB. rewrite EB in PB. subst p.
    pose proof (walk (rev cs) js _ s v PB RJ FL eq_refl RV) as WK. rewrite <- EB in WK.
    assert (KD : kd = JInstr (IBZ 0)).
    { assert (JA : jump_at ([byte_of O_BZ] ++ [9; 9]) 0 = Some (JInstr (IBZ 0), 1 + 2313, 3)) by (vm_compute; reflexivity).
      assert (X : jump_at ((b_all c ++ [byte_of O_BZ]) ++ [9; 9]) (lenZ (b_all c)) = Some (JInstr (IBZ 0), lenZ (b_all c) + (1 + 2313), lenZ (b_all c) + 3)).
      { rewrite <- app_assoc. rewrite <- (Z.add_0_r (lenZ (b_all c))) at 1. apply (LayProofs.jump_at_shift _ _ _ _ _ _ _ JA). intros x X. apply LayProofs.nthZ_app2. lia. }
      rewrite EQ in J0. rewrite X in J0. congruence. }
    subst kd. destruct (jump_back _ _ _ _ _ J) as (i1 & D1 & T1 & R1). assert (i1 = IBZ f) by (destruct i1; try discriminate T1; try discriminate R1; cbn in T1; congruence). subst i1.
    destruct (bz_exec _ _ _ _ _ _ D1 S1 FV AV RZ SV) as (s2 & M2 & P2 & Q2 & F2 & A2).
    exists s2. split; [eapply reaches_trans; [exact WK|now apply reaches_one]|]. apply FINAL; auto.
Qed.

(* ---------------------------------------------------------------- the value of a switch *)
Lemma neat_only b P : neat b -> CtlSpec.pushes b P -> P = b_all b.
Proof. intros N (_ & _ & H). destruct (H empty_bc I) as (b1 & E & L). rewrite (empty_append _ N) in E. injection E as <-. symmetry. exact L. Qed.
Theorem selector_means t c env z : fine t -> arithmetic t -> not_misled t -> (tree_sum width t <= wide)%nat -> compile t = COk c -> value_of trap env t = Some z ->
  sel_means machine (top_hash k) C variables R c env (u32 z) env.
Proof.
  intros FN AR (b & h & Cb & Ch & EA) W CE V. assert (b = c) by congruence. subst b.
  assert (NB : neat c) by (eapply block_neat; [exact FN|exact AR|lia| |exact CE]; lia).
  split; [apply u32_range|]. intros P p s HP PL PC HR. rewrite (neat_only _ _ NB HP) in *. subst p.
  destruct (evaluates env _ t h z s FN (Nat.lt_succ_diag_r _) W Ch HR V) as (NF & RZ & PU & is & u & EM & RU & SU & FU & AU & SK). pose proof HR as (EX & SB & SF & AS0).
  destruct (emitted_runs _ _ _ _ _ EM RU) as (cs & js & v & EB & CV & GD & RJ & FL & RV & [S1 S2 _ _ S5]). rewrite EA in EB.
  rewrite SU in S1, S5. assert (FV : vfb v = fb) by congruence.
  assert (AV : agree B (vmem s) (vmem v)) by (eapply agree_trans; [exact AU|eapply agree_mono; [|exact S5]; lia]).
  assert (SV : slot_ok B fb (vmem s) (mv (vmem v) (LStack B)) z) by (rewrite <- (ag_mv _ _ _ S5) by (cbn; lia); exact SK).
  pose proof (pure_placed _ _ _ _ (ne_pure _ NB) PL) as PB. rewrite EB in PB.
  pose proof (walk (rev cs) js _ s v PB RJ FL eq_refl RV) as WK. rewrite <- EB in WK.
  assert (HASH : forall m, agree B (vmem s) m -> mv m (LStack B) = mv (vmem v) (LStack B) -> top_hash k (S B) m = Ok (u32 z, m)).
  { intros m A E. unfold top_hash. replace (S B - 1)%nat with B by lia. destruct (k_fuel k) as [|[|n]]; try lia. cbn [get_hash]. rewrite E. destruct SV as [->|(y & -> & LY & EY)]; [reflexivity|].
    cbn [get_hash]. rewrite <- (ag_mv _ _ _ A) by exact (proj1 LY). now rewrite EY. }
  exists (at_pc v (vpc s + lenZ (b_all c))), (vmem v). cbn [at_pc vsp vmem vpc]. split; [exact WK|]. split; [reflexivity|]. rewrite S1. split; [lia|]. split; [now apply HASH|].
  replace (S B - 1)%nat with B by lia. split; [eapply R_mem; [exact HR|reflexivity|exact FV|exact AV]|].
  exists (wr (vmem v) (LStack (S B)) (VInt 0)). assert (A2 : agree B (vmem s) (wr (vmem v) (LStack (S B)) (VInt 0))) by (apply agree_dead; [exact AV|cbn; lia]).
  split; [apply HASH; [exact A2|apply wr_other; intros [= X]; lia]|]. eapply R_mem; [exact HR|reflexivity|exact FV|exact A2].
Qed.

(* ---------------------------------------------------------------- return *)
Variables (ret : opcode) (caller : nat) (rp : nat).
Hypothesis RET : ends_a_function ret.
(* a function: under the operands lies the return vector *)
Hypothesis vector : ret = O_Return -> (fb + nl < B)%nat /\ mv m0 (LStack (B - 1)) = VRaw caller rp.
Definition valued (x : Z * variables) (s : vm) : Prop :=
  vsp s = S B /\ vfb s = fb /\ near B (stored (snd x) fb nl m0) (vmem s) /\ slot_ok B fb (vmem s) (mv (vmem s) (LStack B)) (fst x).
(* what a return does: the frame is left, or the machine stops *)
Definition ended (x : Z * variables) (o : outcome) : Prop := exists s, valued x s /\
  match ret with
  | O_Return => o = Run (mkVm (vmem s) (Z.of_nat rp) fb caller (Some (LStack (B - 1))) None (vslice s))
  | _ => o = Done s
  end.
Lemma vector_at env m : ret = O_Return -> near B (stored env fb nl m0) m -> mv m (LStack (B - 1)) = VRaw caller rp.
Proof.
  intros E A. destruct (vector E) as [L V]. rewrite (near_at _ _ _ _ A) by (discriminate || (cbn; lia)). unfold stored, stored_at. cbn [mv].
  destruct (Nat.leb_spec fb (B - 1)); cbn [andb]; [|exact V]. destruct (Nat.ltb_spec (B - 1) (fb + nl)); [lia|exact V].
Qed.
Definition ret_instr : instr := match ret with O_Return => IReturn | _ => IGlobalStop end.
Lemma ret_ends x s q : valued x s -> decode C (vpc s) = Some (ret_instr, q) -> exists o, machine s = Ok o /\ ended x o.
Proof.
  intros V D. pose proof V as (S1 & F1 & A1 & K1). unfold ended, ret_instr in *. destruct RET as [E|E].
  - rewrite E in D |- *. eexists. split.
    + rewrite (exec_fuel 3 _ q s (Run (mkVm (vmem s) (Z.of_nat rp) fb caller (Some (LStack (B - 1))) None (vslice s))) (le_n 3) D); [reflexivity|].
      cbn [VmModel.exec VmModel.upd at_pc vfb vmem vsp vpc vslice]. unfold do_return, need. cbn [VmModel.upd at_pc vfb vmem vsp vpc vslice]. rewrite S1. destruct (vector E) as [L _].
      destruct (Nat.ltb_spec (S B) 2); [lia|]. replace (S B - 2)%nat with (B - 1)%nat by lia. rewrite (vector_at (snd x)) by assumption. rewrite F1. reflexivity.
    + exists s. split; [exact V|reflexivity].
  - rewrite E in D |- *. eexists. split.
    + rewrite (exec_fuel 3 _ q s (Done (VmModel.upd (at_pc s q) (vmem s) (vsp s))) (le_n 3) D); reflexivity.
    + eexists. split; [|reflexivity]. destruct x. exact V.
Qed.
Lemma ret_zero env s q : ret = O_Return -> vsp s = B -> vfb s = fb -> near B (stored env fb nl m0) (vmem s) -> decode C (vpc s) = Some (IReturnZero, q) -> exists o, machine s = Ok o /\ ended (0, env) o.
Proof.
  intros E S1 F1 A1 D. set (s1 := VmModel.upd (at_pc s q) (wr (vmem s) (LStack B) (VInt 0)) (S B)).
  assert (V : valued (0, env) s1).
  { split; [reflexivity|]. split; [exact F1|]. split; [apply near_dead; [exact A1|cbn; lia]|]. left. cbn [s1 VmModel.upd vmem]. apply wr_same. }
  eexists. split.
  - rewrite (exec_fuel 3 _ q s (Run (mkVm (vmem s1) (Z.of_nat rp) fb caller (Some (LStack (B - 1))) None (vslice s1))) (le_n 3) D); [reflexivity|].
    cbn [VmModel.exec VmModel.upd at_pc vfb vmem vsp vpc vslice VmModel.push]. rewrite S1. fold s1.
    replace (k_protect k && (k_limit k <=? S B)%nat) with false.
    2:{ destruct (k_protect k); [|reflexivity]. specialize (room eq_refl). symmetry. cbn. apply Nat.leb_gt. lia. }
    unfold do_return, need. cbn [VmModel.upd VmModel.push at_pc vfb vmem vsp vpc vslice]. destruct (vector E) as [L _]. rewrite ?S1.
    destruct (Nat.ltb_spec (S B) 2); [lia|]. replace (S B - 2)%nat with (B - 1)%nat by lia. destruct V as (_ & _ & A & _). unfold s1 in A. cbn [VmModel.upd vmem snd] in A. rewrite (vector_at env) by assumption. rewrite F1. reflexivity.
  - unfold ended. exists s1. split; [exact V|]. now rewrite E.
Qed.
Lemma op_at A o p i : (forall j, 0 <= j < lenZ (A ++ [byte_of o]) -> nthZ C (p + j) = nthZ (A ++ [byte_of o]) j) -> opcode_of (byte_of o) = Some o -> (forall (l : list Z) q, decode_op o l q = Some (i, q)) ->
  (forall j, 0 <= j < lenZ A -> nthZ C (p + j) = nthZ A j) /\ decode C (p + lenZ A) = Some (i, p + lenZ A + 1).
Proof.
  intros H O D. pose proof (lenZ_nonneg A). split.
  - intros j J. rewrite H by (rewrite lenZ_app'; change (lenZ [byte_of o]) with 1; lia). apply LayProofs.nthZ_app1. lia.
  - unfold decode, rd8. rewrite H by (rewrite lenZ_app'; change (lenZ [byte_of o]) with 1; lia).
    replace (nthZ (A ++ [byte_of o]) (lenZ A)) with (Some (byte_of o)) by (rewrite <- (Z.add_0_r (lenZ A)), LayProofs.nthZ_app2 by lia; reflexivity). rewrite O. apply D.
Qed.
Lemma ret_op : opcode_of (byte_of ret) = Some ret /\ forall (l : list Z) q, decode_op ret l q = Some (ret_instr, q).
Proof. unfold ret_instr. destruct RET as [-> | ->]; split; reflexivity. Qed.
Lemma none_only P : CtlSpec.returns ret None P -> P = nothing_returned ret.
Proof.
  intros [_ H]. destruct (H empty_bc I) as (b1 & E & L & _). destruct (none_returns ret RET) as [_ K]. destruct (K empty_bc I) as (b2 & E' & L' & _). cbn in L, L'. congruence.
Qed.
Theorem nothing_means env : ret_means machine C ret variables (Z * variables) R ended None env (0, env).
Proof.
  intros P p s HP PL PC HR. rewrite (none_only _ HP) in *. pose proof HR as (EX & SB & SF & AS0). pose proof (pure_placed _ _ _ empty_bc eq_refl PL) as PB. subst p.
  unfold nothing_returned in PB. destruct RET as [E|E]; rewrite E in PB.
  - destruct (op_at [] O_ReturnZero (vpc s) IReturnZero PB eq_refl ltac:(reflexivity)) as [_ D]. change (lenZ []) with 0 in D. rewrite Z.add_0_r in D.
    destruct (ret_zero env s _ E SB SF AS0 D) as (o & M & EN). exists s, o. split; [exists 0%nat; constructor|]. auto.
  - destruct (op_at [byte_of O_LiteralZero] O_GlobalStop (vpc s) IGlobalStop PB eq_refl ltac:(reflexivity)) as [PA D].
    destruct (op_at [] O_LiteralZero (vpc s) (ILit (VInt 0) true) PA eq_refl ltac:(reflexivity)) as [_ D0]. change (lenZ []) with 0 in D0. rewrite Z.add_0_r in D0. change (lenZ [byte_of O_LiteralZero]) with 1 in D.
    set (s1 := VmModel.upd (at_pc s (vpc s + 1)) (wr (vmem s) (LStack B) (VInt 0)) (S B)).
    assert (M1 : machine s = Ok (Run s1)).
    { rewrite (exec_fuel 3 _ _ s (Run s1) (le_n 3) D0); [reflexivity|]. cbn [VmModel.exec]. unfold checked_run, VmModel.push. cbn [VmModel.upd at_pc vfb vmem vsp vpc vslice]. rewrite SB. fold s1.
      destruct (k_protect k && (k_limit k <=? S B)%nat) eqn:PR; [|reflexivity]. exfalso. destruct (k_protect k); [|discriminate]. specialize (room eq_refl). cbn in PR. apply Nat.leb_le in PR. lia. }
    destruct (ret_ends (0, env) s1 (vpc s + 1 + 1)) as (o & M & EN).
    + split; [reflexivity|]. split; [exact SF|]. split; [apply near_dead; [exact AS0|cbn; lia]|]. left. cbn [s1 VmModel.upd vmem]. apply wr_same.
    + unfold ret_instr. rewrite E. exact D.
    + exists s1, o. split; [now apply reaches_one|]. auto.
Qed.
Lemma fuse_ret ops rl : fuse ret ops rl = NoFuse \/
  ret = O_Return /\ exists r, ops = O_LiteralZero :: r /\ match rl with x :: l => fuse ret ops rl = Fuse (O_ReturnZero :: r) (byte_of O_ReturnZero :: l) | [] => fuse ret ops rl = FuseUB end.
Proof.
  destruct RET as [-> | ->].
  - destruct ops as [|o r]; [now left|]. destruct o; try (left; reflexivity). right. split; [reflexivity|]. exists r. split; [reflexivity|]. now destruct rl.
  - left. destruct ops; reflexivity.
Qed.
Theorem returned_means t c env z : usable wide ret t -> compile t = COk c -> value_of trap env t = Some z -> ret_means machine C ret variables (Z * variables) R ended (Some c) env (z, env).
Proof.
  intros U CE V. destruct (usable_neat ret wide t c ltac:(lia) U CE) as [NB (b1x & PX)]. pose proof (neat_returns _ _ _ RET NB PX) as RX.
  destruct U as (FN & AR & (b & h & b1 & h1 & Cb & Ch & EA & Pb & Ph & EL) & W). assert (b = c) by congruence. subst b. assert (b1x = b1) by congruence. subst b1x.
  intros P p s HP PL PC HR.
  assert (P = b_all b1). { destruct HP as [_ H1]. destruct RX as [_ H2]. destruct (H1 empty_bc I) as (x & X1 & X2 & _). destruct (H2 empty_bc I) as (y & Y1 & Y2 & _). cbn in X2, Y2. congruence. } subst P.
  clear HP RX PX.
  destruct (evaluates env _ t h z s FN (Nat.lt_succ_diag_r _) W Ch HR V) as (NF & RZ & PU & is & u & EM & RU & SU & FU & AU & SK). pose proof HR as (EX & SB & SF & AS0).
  destruct (emitted_runs _ _ _ _ _ EM RU) as (cs & js & v & EB & CV & GD & RJ & FL & RV & [S1 S2 _ _ S5]). rewrite EA in EB.
  rewrite SU in S1, S5. assert (FV : vfb v = fb) by congruence.
  assert (AGV : agree B (vmem s) (vmem v)) by (eapply agree_trans; [exact AU|]; eapply agree_mono; [|exact S5]; lia).
  assert (AV : near B (stored env fb nl m0) (vmem v)) by (eapply near_agree; [exact AS0|exact AGV]).
  assert (SV : slot_ok B fb (vmem v) (mv (vmem v) (LStack B)) z) by (rewrite <- (ag_mv _ _ _ S5) by (cbn; lia); exact (slot_agree _ _ _ _ (agree_sym _ _ _ AGV) SK)).
  pose proof (pure_placed _ _ _ _ (ne_pure _ NB) PL) as PB.
  unfold push_opcode in Pb, Ph. rewrite EA in Ph.
  destruct (fuse_ret (b_ops h) (rev (b_all c))) as [FH|(ER & r & EO & FH)], (fuse_ret (b_ops c) (rev (b_all c))) as [FC|(_ & rc & EOc & FC)].
  - rewrite FH in Ph. rewrite FC in Pb. injection Ph as <-. injection Pb as <-. cbn [b_all set_code] in *. destruct ret_op as [RO1 RO2].
    destruct (op_at _ _ _ _ PB RO1 RO2) as [PA D]. rewrite EB in PA. subst p. pose proof (walk (rev cs) js _ s v PA RJ FL eq_refl RV) as WK. rewrite <- EB in WK.
    destruct (ret_ends (z, env) (at_pc v (vpc s + lenZ (b_all c))) _ (conj S1 (conj FV (conj AV SV))) D) as (o & M & EN).
    exists (at_pc v (vpc s + lenZ (b_all c))), o. auto.
  - exfalso. rewrite FH in Ph. injection Ph as <-. destruct (rev (b_all c)) as [|x l] eqn:EC; rewrite FC in Pb; [discriminate|]. injection Pb as <-. cbn [b_all set_code] in EL.
    apply (f_equal (@length Z)) in EL. apply (f_equal (@length Z)) in EC. rewrite rev_length in EC. rewrite !app_length, rev_length, EC in EL. cbn in EL. lia.
  - exfalso. rewrite FC in Pb. injection Pb as <-. destruct (rev (b_all c)) as [|x l] eqn:EC; rewrite FH in Ph; [discriminate|]. injection Ph as <-. cbn [b_all set_code] in EL.
    apply (f_equal (@length Z)) in EL. apply (f_equal (@length Z)) in EC. rewrite rev_length in EC. rewrite !app_length, rev_length, EC in EL. cbn in EL. lia.
  - destruct (rev (b_all c)) as [|x l] eqn:EC; rewrite FC in Pb; [discriminate|]. injection Pb as <-. cbn [b_all set_code rev] in PB.
    rewrite EO in CV. destruct cs as [|[o1 d] cs']; [destruct CV|]. destruct CV as [CV _]. cbn [fst] in CV. subst o1.
    destruct (last_chunk _ _ _ _ RJ) as (js0 & j0 & -> & RJ0 & IJ).
    assert (d = [] /\ j0 = ILit (VInt 0) true) as [-> ->].
    { unfold instr_at, chunk_bytes in IJ. cbn [fst snd] in IJ. replace (decode (byte_of O_LiteralZero :: d) 0) with (Some (ILit (VInt 0) true, 1)) in IJ by reflexivity.
      destruct (1 =? lenZ (byte_of O_LiteralZero :: d)) eqn:L1; [|discriminate]. rewrite lenZ_cons in L1. destruct d; [split; [reflexivity|congruence]|]. rewrite lenZ_cons in L1. pose proof (lenZ_nonneg d). lia. }
    cbn [rev] in EB. rewrite plain_snoc in EB. set (A := plain_bytes (rev cs')) in *.
    assert (rev l = A). { apply (f_equal (@rev Z)) in EB. rewrite EC, rev_app_distr in EB. cbn in EB. injection EB as _ ->. apply rev_involutive. } 
    rewrite H in PB. destruct (op_at A O_ReturnZero p IReturnZero PB eq_refl ltac:(reflexivity)) as [PA D]. subst p.
    apply runs_app in RV. destruct RV as (w & RW & RL). inversion RL as [|? ? ? t1 ? CW TW DW RN]; subst. apply runs_nil_inv in RN. destruct RN as [-> _].
    assert (FL0 : forallb flatline js0 = true) by (rewrite forallb_app in FL; now apply andb_prop in FL).
    pose proof (walk (rev cs') js0 _ s w PA RJ0 FL0 eq_refl RW) as WK. fold A in WK.
    destruct DW as (fuel & LF & EW). cbn [VmModel.exec] in EW. unfold checked_run in EW. cbn [VmModel.push VmModel.upd vsp vmem vfb] in EW. destruct (k_protect k && (k_limit k <=? S (vsp w))%nat); [discriminate|]. injection EW as <-. unfold VmModel.push in *. cbn [VmModel.upd vsp vfb vmem] in *. injection S1 as S1. rewrite S1 in *. rewrite wr_same in SV.
    assert (z = 0). { destruct SV as [X|(y & X & _)]; [|discriminate]. assert (X' : u32 z = 0) by congruence. unfold is_s32 in RZ. unfold u32 in X'. lia. } subst z.
    assert (AW : near B (stored env fb nl m0) (vmem w)) by (eapply near_agree; [exact AV|]; apply agree_wr_dead; [cbn; lia|apply agree_refl]).
    destruct (ret_zero env (at_pc w (vpc s + lenZ A)) _ ER S1 FV AW D) as (o & M & EN). exists (at_pc w (vpc s + lenZ A)), o. auto.
Qed.
End Run.
