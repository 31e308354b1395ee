(* Proofs about expressions, third part: the code leaves the value of the tree on the stack. *)
From Coq Require Import String Permutation.
From Verif Require Import Base HashModel OpsModel VmModel EmitModel ExprModel ExprSpec ExprProofs ExprStack.
Open Scope list_scope. Open Scope Z_scope.

Section Run.
Context {leaf V : Type}.
Variables (val hash : leaf -> V) (un : opcode -> list leaf -> V -> V) (bin : opcode -> V -> V -> V).
Notation performs := (ExprSpec.performs val hash un bin).
Notation slot := (@slot leaf V).
Hypothesis Hcom : forall q, In q c_operations -> o_type q = Commute ->
  (forall x y, bin (o_code q) x y = bin (o_code q) y x) /\ op_eqb (o_code q) O_HASH_PLACEHOLDER = false.
Hypothesis Halt : forall q c, In q c_operations -> o_alt q = Some c -> forall x y, bin c x y = bin (o_code q) y x.
Definition triv : Prop := forall v w : V, v = w.
(* every SwapTwoToTop is one that does what was meant *)
Definition no2 (a : list (action leaf)) : Prop := forall n m, In (ASwap2 n m) a -> n <= 2.

Lemma no2_app : forall a b, no2 (a ++ b) <-> no2 a /\ no2 b.
Proof.
  intros a b; unfold no2; split.
  - intro H; split; intros n m I; apply (H n m); apply in_or_app; tauto.
  - intros [H1 H2] n m I; apply in_app_or in I; destruct I; [apply (H1 n m) | apply (H2 n m)]; assumption.
Qed.
Lemma performs_app : forall a b st, performs (a ++ b) st = match performs a st with Some s => performs b s | None => None end.
Proof.
  induction a as [|x a IH]; intros b st; cbn; [reflexivity|]. destruct (perform val hash un bin x st); [apply IH|reflexivity].
Qed.

Definition hashq (q : oper) : bool := op_eqb (o_code q) O_HASH_PLACEHOLDER.
Fixpoint ieval (t : itree leaf) : V :=
  match t with
  | A l => val l
  | U q x t => un (o_code q) x (ieval t)
  | B q l r => bin (o_code q) (ieval l) (if hashq q then match r with A x => hash x | _ => ieval r end else ieval r)
  end.
Definition slot_of (i : it leaf) : slot :=
  match i with O q x => SOp q x | T (A l) => SLeaf l | T t => SVal (ieval t) end.
Definition lv (s : slot) (h : bool) : option V :=
  match s with SLeaf l => Some (if h then hash l else val l) | SVal v => Some v | SOp _ _ => None end.

Lemma triv_lists : triv -> forall a b : list V, length a = length b -> a = b.
Proof.
  intros H a; induction a as [|x a IH]; intros [|y b] E; try discriminate; [reflexivity|]. rewrite (H x y). f_equal; apply IH; cbn in E; lia.
Qed.
Lemma load_code_leaf : forall (cs : list (ectx leaf)) i o l h, nth_error cs i = Some (mkE (KLeaf l) (-1)) ->
  ((0 <? o) && (o <? i))%nat && is_hash cs o = h ->
  forall st, performs (load_code cs i o) st = Some ((if h then hash l else val l) :: st).
Proof. intros cs i o l h E Eh st; unfold load_code; rewrite E, Eh; destruct h; reflexivity. Qed.
Lemma no2_load : forall (cs : list (ectx leaf)) i o, no2 (load_code cs i o).
Proof.
  intros cs i o n m; unfold load_code; destruct (nth_error cs i) as [e|]; [|intros []].
  destruct (_ && _); [intros [|[]]; discriminate|]. destruct (e_kind e); cbn; intuition discriminate.
Qed.
Lemma no2_swap : forall p, no2 (swap_code p).
Proof. intros p n m; unfold swap_code; destruct (p =? 0); cbn; intuition discriminate. Qed.

(* the two operands *)
Lemma mid : forall (X : list slot) a o b Y, X ++ a :: o :: b :: Y = (X ++ [a; o]) ++ b :: Y.
Proof. intros; rewrite <- app_assoc; reflexivity. Qed.
Lemma midlen : forall (X : list slot) a o, length (X ++ [a; o]) = S (S (length X)).
Proof. intros; rewrite app_length; cbn; lia. Qed.
Lemma nth_mid : forall (X : list slot) a o b Y,
  nth_error (X ++ a :: o :: b :: Y) (length X) = Some a /\ nth_error (X ++ a :: o :: b :: Y) (S (length X)) = Some o /\
  nth_error (X ++ a :: o :: b :: Y) (S (S (length X))) = Some b.
Proof.
  intros; rewrite !nth_error_app2 by lia. rewrite Nat.sub_diag. replace (S (length X) - length X)%nat with 1%nat by lia.
  replace (S (S (length X)) - length X)%nat with 2%nat by lia. auto.
Qed.
Lemma pos_leaf : forall cs xs (st : list V) i l, Inv cs xs st -> nth_error xs i = Some (SLeaf l) -> pos_of (leaf := leaf) cs i = -1.
Proof. intros cs xs st i l H E; unfold pos_of; rewrite (inv_leaf _ _ _ _ _ H E); reflexivity. Qed.
Lemma is_hash_op : forall cs xs (st : list V) i q x, Inv cs xs st -> nth_error xs i = Some (SOp q x) -> is_hash (leaf := leaf) cs i = hashq q.
Proof. intros cs xs st i q x H E; unfold is_hash; rewrite (inv_op _ _ _ _ _ _ H E); reflexivity. Qed.

Definition operand (s : slot) : Prop := match s with SOp _ _ => False | _ => True end.
Definition operands_ok (q : oper) (cs : list (ectx leaf)) X a x b Y (st : list V) (r : cres (list (ectx leaf) * list (action leaf) * bool)) : Prop :=
  exists cs1 code alt, r = COk (cs1, code, alt) /\
    ((exists l, a = SLeaf l \/ b = SLeaf l) -> no2 code) /\
    (no2 code \/ triv -> exists st1 va vb, lv a false = Some va /\ lv b (hashq q) = Some vb /\
       performs code st = Some st1 /\ Inv cs1 (X ++ SVal va :: SOp q x :: SVal vb :: Y) st1 /\
       let f := pos_of cs1 (length X) in let s := pos_of cs1 (S (S (length X))) in
       (f = 0 /\ s = 1 /\ alt = false) \/ (f = 1 /\ s = 0 /\ (alt = true /\ o_alt q <> None \/ alt = false /\ o_type q = Commute))).

Definition sw (i j k : nat) : nat := if Nat.eqb k i then j else if Nat.eqb k j then i else k.
Lemma exch_len : forall i j (st : list V), (i < length st)%nat -> (j < length st)%nat -> exists st', exchange i j st = Some st' /\ length st' = length st /\
  forall k, nth_error st' k = nth_error st (sw i j k).
Proof.
  intros i j st Hi Hj; unfold exchange. destruct (nth_error st i) eqn:E1; [|apply nth_error_None in E1; lia].
  destruct (nth_error st j) eqn:E2; [|apply nth_error_None in E2; lia]. eexists; split; [reflexivity|]. rewrite !length_upd; split; [reflexivity|].
  intro k; rewrite nth_upd, length_upd, nth_upd. unfold sw.
  replace (i <? length st)%nat with true by (symmetry; apply Nat.ltb_lt; lia).
  replace (j <? length st)%nat with true by (symmetry; apply Nat.ltb_lt; lia).
  destruct (Nat.eqb_spec k j), (Nat.eqb_spec k i); subst; congruence.
Qed.
Lemma nth_error_ext : forall {X} (a b : list X), (forall k, nth_error a k = nth_error b k) -> a = b.
Proof.
  intros X a; induction a as [|x a IH]; intros [|y b] H; [reflexivity | discriminate (H 0%nat) | discriminate (H 0%nat) |].
  pose proof (H 0%nat) as H0; injection H0 as ->. f_equal; apply IH; intro k; apply (H (S k)).
Qed.
Lemma swap2_len : forall f s (st : list V), 0 <= f < Z.of_nat (length st) -> 0 <= s < Z.of_nat (length st) -> (1 < length st <= 255)%nat ->
  exists st', performs [ASwap2 (u8 (f + 1)) (u8 (s + 1))] st = Some st' /\ length st' = length st /\
    forall k, nth_error st' k = nth_error st (sw 0 (Z.to_nat f) (sw 1 (Z.to_nat s) k)).
Proof.
  intros f s st Hf Hs Hl. cbn [ExprSpec.performs perform].
  assert (u8 (f + 1) = f + 1) as -> by (unfold u8; apply Z.mod_small; lia).
  assert (u8 (s + 1) = s + 1) as -> by (unfold u8; apply Z.mod_small; lia).
  replace ((f + 1 <? 1) || (s + 1 <? 1)) with false by lia.
  replace (f + 1 - 1) with f by lia. replace (s + 1 - 1) with s by lia.
  destruct (exch_len 0 (Z.to_nat f) st ltac:(lia) ltac:(lia)) as (st1 & -> & L1 & Z1).
  destruct (exch_len 1 (Z.to_nat s) st1 ltac:(lia) ltac:(lia)) as (st2 & -> & L2 & Z2). exists st2; split; [reflexivity|]; split; [lia|].
  intro k; rewrite Z2, Z1; reflexivity.
Qed.

Ltac zcases := unfold swpz; repeat match goal with |- context [?u =? ?v] =>
  lazymatch u with context [if _ then _ else _] => fail | _ =>
  lazymatch v with context [if _ then _ else _] => fail | _ => destruct (u =? v) eqn:? end end end; lia.
Ltac ncases := unfold sw; repeat match goal with |- context [Nat.eqb ?u ?v] =>
  lazymatch u with context [if _ then _ else _] => fail | _ =>
  lazymatch v with context [if _ then _ else _] => fail | _ => destruct (Nat.eqb_spec u v) end end end; lia.
Ltac nat_eq := repeat match goal with |- context [Nat.eqb ?u ?v] => destruct (Nat.eqb_spec u v); [try lia | try lia] end.

Lemma two_done : forall q (cs : list (ectx leaf)) X a x b Y (st : list V) f s,
  Inv cs (X ++ SVal a :: SOp q x :: SVal b :: Y) st -> (length (X ++ SVal a :: SOp q x :: SVal b :: Y) <= 255)%nat ->
  pos_of cs (length X) = f -> pos_of cs (S (S (length X))) = s -> s <> 1 -> (f = 1 -> s <> 0) ->
  operands_ok q cs X (SVal a) x (SVal b) Y st (two_to_top f s [ASwap2 (u8 (f + 1)) (u8 (s + 1))] cs (length X)).
Proof.
  intros q cs X a x b Y st f s HI Hl Ef Es Hs Hs0.
  destruct (nth_mid X (SVal a) (SOp q x) (SVal b) Y) as (N1 & N2 & N3).
  destruct (inv_val _ _ _ _ _ HI N1) as (pf & _ & Hf & _ & Ef'). rewrite Ef in Ef'; subst pf.
  destruct (inv_val _ _ _ _ _ HI N3) as (ps & _ & Hs' & _ & Es'). rewrite Es in Es'; subst ps.
  assert (Hd : f <> s).
  { intro E. apply (inv_distinct _ _ _ (length X) (S (S (length X))) HI); [lia| rewrite Ef; lia | lia]. }
  destruct (swap_ok val hash un bin cs _ st s HI Hs' Hl) as (st1 & E1 & _ & I1 & L1 & Z1).
  destruct (swap_ok val hash un bin _ _ st1 1 I1 ltac:(lia) Hl) as (st2 & E2 & _ & I2 & L2 & Z2).
  set (p3 := pos_of (map (swp 1) (map (swp s) cs)) (length X)).
  assert (Ep3 : p3 = swpz 1 (swpz s f)) by (unfold p3; rewrite !pos_swap by lia; rewrite Ef; reflexivity).
  assert (Hp3 : 0 <= p3 < Z.of_nat (length st2)) by (rewrite Ep3; zcases).
  destruct (swap_ok val hash un bin _ _ st2 p3 I2 Hp3 Hl) as (st3 & E3 & _ & I3 & L3 & Z3).
  exists (map (swp p3) (map (swp 1) (map (swp s) cs))), [ASwap2 (u8 (f + 1)) (u8 (s + 1))], false. split.
  - unfold two_to_top. rewrite E1; cbn [cbind]. rewrite E2; cbn [cbind]. fold p3. rewrite E3; reflexivity.
  - split; [intros (l & [E|E]); discriminate|]. intro N.
    pose proof (inv_bound _ _ _ HI) as Hbd.
    destruct (swap2_len f s st Hf Hs' ltac:(lia)) as (st' & P & L' & Z'). exists st', a, b.
    assert (st' = st3) as ->.
    { destruct N as [N|Tr]; [|apply triv_lists; [exact Tr|lia]].
      specialize (N _ _ (or_introl eq_refl)). unfold u8 in N; rewrite Z.mod_small in N by lia.
      apply nth_error_ext; intro k. rewrite Z', Z3, Z2, Z1. f_equal. rewrite Ep3.
      assert (Hff : f = 0 \/ f = 1) by lia. destruct Hff as [-> | ->].
      - replace (swpz 1 (swpz s 0)) with s by zcases. ncases.
      - replace (swpz 1 (swpz s 1)) with 0 by zcases. ncases. }
    split; [reflexivity|]; split; [reflexivity|]; split; [exact P|]; split; [exact I3|].
    left. rewrite !pos_swap by lia. rewrite Ef, Es, Ep3. split; [zcases|]; split; [zcases | reflexivity].
Qed.
Lemma no2_nil : no2 [].
Proof. intros n m []. Qed.
Hint Resolve no2_load no2_swap no2_nil : core.
Ltac nosw := repeat (apply no2_app; split); auto.

Lemma commute_ok : forall q (cs : list (ectx leaf)) X a x b Y (st : list V),
  Inv cs (X ++ a :: SOp q x :: b :: Y) st -> operand a -> operand b -> (length (X ++ a :: SOp q x :: b :: Y) <= 255)%nat ->
  o_type q = Commute -> hashq q = false ->
  operands_ok q cs X a x b Y st (commute_operands (S (length X)) cs).
Proof.
  intros q cs X a x b Y st HI Oa Ob Hl Hc Hh.
  destruct (nth_mid X a (SOp q x) b Y) as (N1 & N2 & N3).
  unfold commute_operands. replace (S (length X) - 1)%nat with (length X) by lia.
  assert (LX : forall c, length (X ++ c :: SOp q x :: b :: Y) = length (X ++ a :: SOp q x :: b :: Y)) by (intro; rewrite !app_length; reflexivity).
  destruct b as [|lb|vb]; [contradiction| |].
  - rewrite (pos_leaf _ _ _ _ _ HI N3). cbn [Z.eqb Pos.eqb].
    (* first to the top, then load the second *)
    assert (exists cs1 a1 st1 va, (if pos_of cs (length X) =? -1 then COk (load (length X) cs, load_code cs (length X) (S (length X)))
                  else cs1 <~ swap_with_top (pos_of cs (length X)) cs;; COk (cs1, swap_code (pos_of cs (length X)))) = COk (cs1, a1) /\
              performs a1 st = Some st1 /\ Inv cs1 (X ++ SVal va :: SOp q x :: SLeaf lb :: Y) st1 /\ pos_of cs1 (length X) = 0 /\ lv a false = Some va /\ no2 a1)
      as (cs1 & a1 & st1 & va & E1 & P1 & I1 & F1 & Va & Na1).
    { destruct a as [|la|va]; [contradiction| |].
      - rewrite (pos_leaf _ _ _ _ _ HI N1). cbn [Z.eqb Pos.eqb].
        destruct (load_ok cs X la _ st (val la) HI) as [I1 Hp].
        do 4 eexists; split; [reflexivity|]; split; [apply (load_code_leaf cs (length X) (S (length X)) la false);
          [apply (inv_leaf _ _ _ _ _ HI N1) | replace (S (length X) <? length X)%nat with false by (symmetry; apply Nat.ltb_ge; lia); rewrite andb_false_r; reflexivity]|].
        split; [exact I1|]; split; [rewrite Hp, Nat.eqb_refl; reflexivity | split; [reflexivity | auto]].
      - destruct (inv_val _ _ _ _ _ HI N1) as (p & _ & Hp & _ & Ep). rewrite Ep. replace (p =? -1) with false by lia.
        destruct (swap_ok val hash un bin cs _ st p HI Hp Hl) as (st1 & E1 & P1 & I1 & _).
        rewrite E1; cbn [cbind]. do 4 eexists; split; [reflexivity|]; split; [exact P1|]; split; [exact I1|]; split; [|split; [reflexivity|auto]].
        rewrite pos_swap by lia. rewrite Ep; zcases. }
    rewrite E1; cbn [cbind]. do 3 eexists; split; [reflexivity|]; split; [intros _; nosw|]; intros _.
    rewrite mid in I1. destruct (load_ok cs1 _ lb Y st1 (val lb) I1) as [I2 Hp2]. rewrite midlen in I2, Hp2. rewrite <- mid in I2.
    do 3 eexists; split; [exact Va|]; split; [cbn; rewrite Hh; reflexivity|]; split; [rewrite performs_app, P1; apply (load_code_leaf cs1 _ _ lb false);
      [apply (inv_leaf _ _ _ _ _ I1); rewrite <- mid; apply nth_mid |
       rewrite (is_hash_op _ _ _ (S (length X)) q x I1); [rewrite Hh, !andb_false_r; reflexivity | rewrite <- mid; apply nth_mid]]|].
    split; [exact I2|]. right. cbv zeta. rewrite !Hp2. nat_eq. rewrite F1; cbn. auto 6.
  - destruct (inv_val _ _ _ _ _ HI N3) as (s & _ & Hs & _ & Es). rewrite Es. replace (s =? -1) with false by lia.
    destruct a as [|la|va]; [contradiction| |].
    + rewrite (pos_leaf _ _ _ _ _ HI N1). cbn [Z.eqb Pos.eqb].
      destruct (swap_ok val hash un bin cs _ st s HI Hs Hl) as (st1 & E1 & P1 & I1 & _). rewrite E1; cbn [cbind].
      do 3 eexists; split; [reflexivity|]; split; [intros _; nosw|]; intros _.
      destruct (load_ok _ X la _ st1 (val la) I1) as [I2 Hp2].
      do 3 eexists; split; [reflexivity|]; split; [reflexivity|]; split; [rewrite performs_app, P1; apply (load_code_leaf _ _ _ la false);
        [apply (inv_leaf _ _ _ _ _ I1 N1) | replace (S (length X) <? length X)%nat with false by (symmetry; apply Nat.ltb_ge; lia); rewrite andb_false_r; reflexivity]|].
      split; [exact I2|]. left. cbv zeta. rewrite !Hp2, Nat.eqb_refl. nat_eq. rewrite pos_swap by lia. rewrite Es.
      split; [reflexivity|]; split; [zcases|reflexivity].
    + destruct (inv_val _ _ _ _ _ HI N1) as (f & _ & Hf & _ & Ef). rewrite Ef. replace (f =? -1) with false by lia.
      assert (Hd : f <> s).
      { intro E. apply (inv_distinct _ _ _ (length X) (S (S (length X))) HI); [lia| rewrite Ef; lia | lia]. }
      destruct (s =? 1) eqn:S1; [|destruct (f =? 1) eqn:F1].
      * destruct (swap_ok val hash un bin cs _ st f HI Hf Hl) as (st1 & E1 & P1 & I1 & _). rewrite E1; cbn [cbind].
        do 3 eexists; split; [reflexivity|]; split; [intros _; nosw|]; intros _. do 3 eexists; split; [reflexivity|]; split; [reflexivity|]; split; [exact P1|]; split; [exact I1|].
        left. cbv zeta. rewrite !pos_swap by lia. rewrite Ef, Es. split; [zcases|]; split; [zcases|reflexivity].
      * destruct (swap_ok val hash un bin cs _ st s HI Hs Hl) as (st1 & E1 & P1 & I1 & _). rewrite E1; cbn [cbind].
        do 3 eexists; split; [reflexivity|]; split; [intros _; nosw|]; intros _. do 3 eexists; split; [reflexivity|]; split; [reflexivity|]; split; [exact P1|]; split; [exact I1|].
        right. cbv zeta. rewrite !pos_swap by lia. rewrite Ef, Es. split; [zcases|]; split; [zcases|auto].
      * apply two_done; auto; lia.
Qed.

Lemma binary_ok : forall q (cs : list (ectx leaf)) X a x b Y (st : list V),
  Inv cs (X ++ a :: SOp q x :: b :: Y) st -> operand a -> operand b -> (length (X ++ a :: SOp q x :: b :: Y) <= 255)%nat ->
  operands_ok q cs X a x b Y st (binary_operands q (S (length X)) cs).
Proof.
  intros q cs X a x b Y st HI Oa Ob Hl.
  destruct (nth_mid X a (SOp q x) b Y) as (N1 & N2 & N3).
  assert (Hlt : (S (length X) <? length X)%nat = false) by (apply Nat.ltb_ge; lia).
  assert (Hlt2 : (S (length X) <? S (S (length X)))%nat = true) by (apply Nat.ltb_lt; lia).
  unfold binary_operands. replace (S (length X) - 1)%nat with (length X) by lia.
  destruct b as [|lb|vb]; [contradiction| |].
  - rewrite (pos_leaf _ _ _ _ _ HI N3). cbn [Z.eqb Pos.eqb].
    destruct a as [|la|va]; [contradiction| |].
    + rewrite (pos_leaf _ _ _ _ _ HI N1). cbn [Z.eqb Pos.eqb].
      do 3 eexists; split; [reflexivity|]; split; [intros _; nosw|]; intros _.
      set (w := if hashq q then hash lb else val lb).
      pose proof HI as HI0. rewrite mid in HI. destruct (load_ok cs _ lb Y st w HI) as [I1 Hp1]. rewrite midlen in I1, Hp1. rewrite <- mid in I1, HI.
      destruct (load_ok _ X la _ _ (val la) I1) as [I2 Hp2].
      do 3 eexists; split; [reflexivity|]; split; [reflexivity|]; split.
      { rewrite performs_app. rewrite (load_code_leaf cs _ _ lb (hashq q)).
        - apply (load_code_leaf _ _ _ la false); [apply (inv_leaf _ _ _ _ _ I1); apply nth_mid | rewrite Hlt, andb_false_r; reflexivity].
        - apply (inv_leaf _ _ _ _ _ HI N3).
        - rewrite Hlt2, (is_hash_op _ _ _ _ _ _ HI N2); reflexivity. }
      split; [exact I2|]. left. cbv zeta. rewrite !Hp2, Nat.eqb_refl. nat_eq. rewrite Hp1, Nat.eqb_refl. cbn; auto.
    + destruct (inv_val _ _ _ _ _ HI N1) as (f & _ & Hf & _ & Ef). rewrite Ef. replace (f =? -1) with false by lia.
      destruct (swap_ok val hash un bin cs _ st f HI Hf Hl) as (st1 & E1 & P1 & I1 & _). rewrite E1; cbn [cbind].
      set (w := if hashq q then hash lb else val lb).
      pose proof I1 as I1'. rewrite mid in I1'. destruct (load_ok _ _ lb Y st1 w I1') as [I2 Hp2]. rewrite midlen in I2, Hp2. rewrite <- mid in I2.
      assert (PL : performs (load_code (map (swp f) cs) (S (S (length X))) (S (length X))) st1 = Some (w :: st1)).
      { apply (load_code_leaf _ _ _ lb (hashq q)); [apply (inv_leaf _ _ _ _ _ I1 N3) | rewrite Hlt2, (is_hash_op _ _ _ _ _ _ I1 N2); reflexivity]. }
      set (cs2 := load (S (S (length X))) (map (swp f) cs)) in *.
      assert (Q1 : pos_of cs2 (length X) = 1).
      { rewrite Hp2. nat_eq. rewrite pos_swap by lia. rewrite Ef. zcases. }
      assert (Q2 : pos_of cs2 (S (S (length X))) = 0) by (rewrite Hp2, Nat.eqb_refl; reflexivity).
      destruct (o_alt q) as [c|] eqn:EA.
      * do 3 eexists; split; [reflexivity|]; split; [intros _; nosw|]; intros _. do 3 eexists; split; [reflexivity|]; split; [reflexivity|]; split.
        { rewrite performs_app, P1. exact PL. }
        split; [exact I2|]. right. cbv zeta. rewrite Q1, Q2. split; [reflexivity|]; split; [reflexivity|]. left; split; [reflexivity|congruence].
      * assert (Hl2 : (length (X ++ SVal va :: SOp q x :: SVal w :: Y) <= 255)%nat) by (rewrite !app_length in *; cbn in *; lia).
        destruct (swap_ok val hash un bin cs2 _ _ 1 I2) as (st3 & E3 & P3 & I3 & _); [|exact Hl2|].
        { destruct (nth_mid X (SVal va) (SOp q x) (SVal w) Y) as (M1 & _ & _). destruct (inv_val _ _ _ _ _ I2 M1) as (p & _ & Hp & _ & E). lia. }
        rewrite E3; cbn [cbind]. do 3 eexists; split; [reflexivity|]; split; [intros _; nosw|]; intros _. do 3 eexists; split; [reflexivity|]; split; [reflexivity|]; split.
        { rewrite <- app_assoc, performs_app, P1, performs_app, PL. exact P3. }
        split; [exact I3|]. left. cbv zeta. rewrite !pos_swap by lia. rewrite Q1, Q2. cbn; auto.
  - destruct (inv_val _ _ _ _ _ HI N3) as (s & _ & Hs & _ & Es). rewrite Es. replace (s =? -1) with false by lia.
    destruct a as [|la|va]; [contradiction| |].
    + rewrite (pos_leaf _ _ _ _ _ HI N1). cbn [Z.eqb Pos.eqb].
      destruct (swap_ok val hash un bin cs _ st s HI Hs Hl) as (st1 & E1 & P1 & I1 & _). rewrite E1; cbn [cbind].
      do 3 eexists; split; [reflexivity|]; split; [intros _; nosw|]; intros _.
      destruct (load_ok _ X la _ st1 (val la) I1) as [I2 Hp2].
      do 3 eexists; split; [reflexivity|]; split; [reflexivity|]; split; [rewrite performs_app, P1; apply (load_code_leaf _ _ _ la false);
        [apply (inv_leaf _ _ _ _ _ I1 N1) | rewrite Hlt, andb_false_r; reflexivity]|].
      split; [exact I2|]. left. cbv zeta. rewrite !Hp2, Nat.eqb_refl. nat_eq. rewrite pos_swap by lia. rewrite Es.
      split; [reflexivity|]; split; [zcases|reflexivity].
    + destruct (inv_val _ _ _ _ _ HI N1) as (f & _ & Hf & _ & Ef). rewrite Ef. replace (f =? -1) with false by lia.
      assert (Hd : f <> s).
      { intro E. apply (inv_distinct _ _ _ (length X) (S (S (length X))) HI); [lia| rewrite Ef; lia | lia]. }
      destruct (s =? 1) eqn:S1; [|destruct (s =? 0) eqn:S0; [destruct (f =? 1) eqn:F1|]].
      * destruct (swap_ok val hash un bin cs _ st f HI Hf Hl) as (st1 & E1 & P1 & I1 & _). rewrite E1; cbn [cbind].
        do 3 eexists; split; [reflexivity|]; split; [intros _; nosw|]; intros _. do 3 eexists; split; [reflexivity|]; split; [reflexivity|]; split; [exact P1|]; split; [exact I1|].
        left. cbv zeta. rewrite !pos_swap by lia. rewrite Ef, Es. split; [zcases|]; split; [zcases|reflexivity].
      * destruct (swap_ok val hash un bin cs _ st 1 HI ltac:(lia) Hl) as (st1 & E1 & P1 & I1 & _). rewrite E1; cbn [cbind].
        do 3 eexists; split; [reflexivity|]; split; [intros _; nosw|]; intros _. do 3 eexists; split; [reflexivity|]; split; [reflexivity|]; split; [exact P1|]; split; [exact I1|].
        left. cbv zeta. rewrite !pos_swap by lia. rewrite Ef, Es. split; [zcases|]; split; [zcases|reflexivity].
      * destruct (swap_ok val hash un bin cs _ st 1 HI ltac:(lia) Hl) as (st1 & E1 & _ & I1 & L1 & Z1). rewrite E1; cbn [cbind].
        assert (Q : pos_of (map (swp 1) cs) (length X) = f) by (rewrite pos_swap by lia; rewrite Ef; zcases).
        rewrite Q.
        destruct (swap_ok val hash un bin _ _ st1 f I1 ltac:(lia) Hl) as (st2 & E2 & _ & I2 & L2 & Z2). rewrite E2; cbn [cbind].
        do 3 eexists; split; [reflexivity|]; split; [intros (l & [E|E]); discriminate|]; intros N.
        pose proof (inv_bound _ _ _ HI) as Hbd.
        destruct N as [N|Tr].
        { exfalso. specialize (N _ _ (or_introl eq_refl)). unfold u8 in N; rewrite Z.mod_small in N by lia. lia. }
        destruct (swap2_len f 1 st Hf ltac:(lia) ltac:(lia)) as (st' & P & L' & _). change (u8 (1 + 1)) with 2 in P.
        exists st', va, vb. assert (st' = st2) as -> by (apply triv_lists; [exact Tr|lia]).
        split; [reflexivity|]; split; [reflexivity|]; split; [exact P|]; split; [exact I2|].
        left. cbv zeta. rewrite !pos_swap by lia. rewrite Ef, Es. split; [zcases|]; split; [zcases|reflexivity].
      * apply two_done; auto; lia.
Qed.

(* ---------------------------------------------------------------- one operator *)
Lemma slot_operand : forall t, operand (slot_of (T t)).
Proof. intros [l|q x t|q l r]; exact I. Qed.
Lemma lv_left : forall t, lv (slot_of (T t)) false = Some (ieval t).
Proof. intros [l|q x t|q l r]; reflexivity. Qed.
Lemma lv_right : forall q t, lv (slot_of (T t)) (hashq q) = Some (if hashq q then match t with A x => hash x | _ => ieval t end else ieval t).
Proof. intros q [l|q' x t|q' l r]; cbn [slot_of lv]; destruct (hashq q); reflexivity. Qed.
Lemma grown_same : forall i (cs : list (ectx leaf)), (i < length cs)%nat -> grown i cs = cs.
Proof. intros i cs H; unfold grown; replace (i <? length cs)%nat with true by (symmetry; apply Nat.ltb_lt; exact H); reflexivity. Qed.

Definition step_ok (t : itree leaf) (cs : list (ectx leaf)) (its : list (it leaf)) (st : list V) (R : list (it leaf) -> Prop) (o : nat) : Prop :=
  exists cs1 a1 k, resolve_ex o cs = COk (cs1, a1, k) /\ (isimple t -> no2 a1) /\
    (no2 a1 \/ triv -> exists its' st', Inv cs1 (map slot_of its') st' /\ performs a1 st = Some st' /\ R its' /\
       lenZ its' + k = lenZ its /\ (length its' < length its)%nat /\
       (forall P : it leaf -> Prop, (forall t, P (T t)) -> Forall P its -> Forall P its')).

Lemma top_ok : forall cs xs st i t, Inv cs xs st -> nth_error xs i = Some (slot_of (T t)) -> (length xs <= 255)%nat -> forall o, o = S i \/ o = 0%nat ->
  forall X Y, xs = X ++ slot_of (T t) :: Y -> length X = i ->
  exists cs1 a1 st1, (if pos_of cs i =? -1 then COk (load i cs, load_code cs i o) else cs1 <~ swap_with_top (pos_of cs i) cs ;; COk (cs1, swap_code (pos_of cs i))) = COk (cs1, a1) /\
    no2 a1 /\ performs a1 st = Some st1 /\ Inv cs1 (X ++ SVal (ieval t) :: Y) st1 /\ pos_of cs1 i = 0.
Proof.
  intros cs xs st i t HI N Hl o Ho X Y -> Hi. subst i.
  destruct t as [l|q x t|q l r]; cbn [slot_of] in *.
  - rewrite (pos_leaf _ _ _ _ _ HI N). cbn [Z.eqb Pos.eqb].
    destruct (load_ok cs X l Y st (val l) HI) as [I1 Hp].
    do 3 eexists; split; [reflexivity|]; split; [apply no2_load|]; split.
    + apply (load_code_leaf cs (length X) o l false); [apply (inv_leaf _ _ _ _ _ HI N)|].
      destruct Ho as [ -> | -> ]; [|reflexivity]. replace (S (length X) <? length X)%nat with false by (symmetry; apply Nat.ltb_ge; lia).
      rewrite andb_false_r; reflexivity.
    + split; [exact I1|]. rewrite Hp, Nat.eqb_refl; reflexivity.
  - destruct (inv_val _ _ _ _ _ HI N) as (p & _ & Hp & _ & Ep). rewrite Ep. replace (p =? -1) with false by lia.
    destruct (swap_ok val hash un bin cs _ st p HI Hp Hl) as (st1 & E1 & P1 & I1 & _). rewrite E1; cbn [cbind].
    do 3 eexists; split; [reflexivity|]; split; [apply no2_swap|]; split; [exact P1|]; split; [exact I1|].
    rewrite pos_swap by lia; rewrite Ep; zcases.
  - destruct (inv_val _ _ _ _ _ HI N) as (p & _ & Hp & _ & Ep). rewrite Ep. replace (p =? -1) with false by lia.
    destruct (swap_ok val hash un bin cs _ st p HI Hp Hl) as (st1 & E1 & P1 & I1 & _). rewrite E1; cbn [cbind].
    do 3 eexists; split; [reflexivity|]; split; [apply no2_swap|]; split; [exact P1|]; split; [exact I1|].
    rewrite pos_swap by lia; rewrite Ep; zcases.
Qed.

Lemma no2_op : forall q x, no2 [AOp q x].
Proof. intros q x n m [H|[]]; discriminate. Qed.
Lemma no2_alt : forall c, no2 [AAlt c].
Proof. intros c n m [H|[]]; discriminate. Qed.
Lemma nth_app_len : forall {X} (a : list X) e b, nth_error (a ++ e :: b) (length a) = Some e.
Proof. intros; rewrite nth_error_app2, Nat.sub_diag by lia; reflexivity. Qed.

Lemma resolve_step : forall cs its st q x u v t L,
  its = u ++ O q x :: v -> Inv cs (map slot_of its) st -> (length its <= 255)%nat -> In q c_operations -> reduct L t q x u v ->
  step_ok t cs its st (part L t) (length u).
Proof.
  intros cs its st q x u v t L -> HI Hl Hq HR.
  assert (Hlen : length cs = length (u ++ O q x :: v)) by (rewrite (inv_len _ _ _ HI), map_length; reflexivity).
  assert (Nop : nth_error cs (length u) = Some (mkE (KOp q x) (-1))).
  { apply (inv_op _ _ _ _ _ _ HI). rewrite nth_error_map, nth_app_len; reflexivity. }
  unfold reduct in HR. unfold step_ok, resolve_ex. rewrite Nop.
  destruct (o_type q) eqn:ET.
  - (* prefix *)
    destruct HR as (a & v' & -> & P & G).
    rewrite grown_same by (rewrite Hlen, app_length; cbn; lia).
    unfold unary. rewrite ET.
    rewrite map_app in HI; cbn [map] in HI.
    set (X := map slot_of u) in *. set (Y := map slot_of v') in *.
    assert (LX : length X = length u) by (unfold X; apply map_length).
    destruct (top_ok cs (X ++ slot_of (O q x) :: slot_of (T a) :: Y) st (S (length u)) a HI) with (o := 0%nat) (X := X ++ [slot_of (O q x)]) (Y := Y)
      as (cs1 & a1 & st1 & E1 & N1 & P1 & I1 & F1).
    + rewrite nth_error_app2 by lia. replace (S (length u) - length X)%nat with 1%nat by lia. reflexivity.
    + unfold X, Y; rewrite app_length in *; cbn in *; rewrite !map_length; lia.
    + now right.
    + rewrite <- app_assoc; reflexivity.
    + rewrite app_length; cbn; lia.
    + rewrite E1; cbn [cbind]. do 3 eexists; split; [reflexivity|]; split; [intros _; apply no2_app; split; [exact N1 | apply no2_op]|]; intros _.
      rewrite <- app_assoc in I1; cbn [app slot_of] in I1.
      destruct (unary_done cs1 X Y q x (ieval a) st1 (un (o_code q) x (ieval a)) false I1) as (rest & -> & I2); [rewrite LX; exact F1|].
      rewrite LX in I2. exists (u ++ T (U q x a) :: v'), (un (o_code q) x (ieval a) :: rest).
      split; [rewrite map_app; exact I2|].
      split; [rewrite performs_app, P1; cbn; rewrite ET; reflexivity|].
      split; [exact P|]. unfold lenZ; rewrite !app_length; cbn. split; [lia|]; split; [lia|].
      intros Q HQ F. rewrite Forall_app in *; destruct F as [F1' F2]; split; [exact F1'|]. inversion F2 as [|? ? _ F3]; subst; inversion F3; subst. constructor; auto.
  - (* binary *)
    destruct HR as (a & b & u' & v' & -> & -> & P & G & ->).
    replace (length (u' ++ [T a])) with (S (length u')) in * by (rewrite app_length; cbn; lia).
    cbn [Nat.eqb]. rewrite <- app_assoc in HI; cbn [app] in HI.
    rewrite grown_same by (rewrite Hlen, !app_length; cbn; lia).
    rewrite map_app in HI; cbn [map] in HI.
    set (X := map slot_of u') in *. set (Y := map slot_of v') in *.
    assert (LX : length X = length u') by (unfold X; apply map_length).
    destruct (binary_ok q cs X (slot_of (T a)) [] (slot_of (T b)) Y st HI (slot_operand a) (slot_operand b)) as (cs1 & code & alt & E & Ksim & K).
    { unfold X, Y; rewrite !app_length in *; cbn in *; rewrite !map_length; lia. }
    rewrite LX in E; rewrite E; cbn [cbind].
    do 3 eexists; split; [reflexivity|]; split.
    { intro Sm. apply no2_app; split; [|destruct alt; [destruct (o_alt q)|]; auto using no2_op, no2_alt]. apply Ksim.
      destruct (part_mid _ _ _ _ _ _ _ P Sm) as [Ha|Ha]; [destruct a as [l| |] | destruct b as [l| |]]; try contradiction; exists l; cbn; auto. }
    intro N.
    assert (N' : no2 code \/ triv) by (destruct N as [N|]; [apply no2_app in N; left; tauto | now right]).
    destruct (K N') as (st1 & va & vb & Ea & Eb & Pc & I1 & Hpos). rewrite lv_left in Ea; rewrite lv_right in Eb. injection Ea as <-; injection Eb as <-.
    set (w := ieval (B q a b)).
    destruct (binary_done cs1 X Y q [] _ _ st1 w I1) as (rest & Est & I2).
    { cbv zeta in Hpos. tauto. }
    replace (S (length u') - 1)%nat with (length u') by lia. rewrite LX in I2.
    exists (u' ++ T (B q a b) :: v'), (w :: rest). split; [rewrite map_app; exact I2|]. split.
    { rewrite performs_app, Pc, Est. cbv zeta in Hpos. rewrite LX in *.
      destruct Hpos as [(F & Sx & ->) | (F & Sx & [[-> EA]|[-> EC]])]; rewrite F; cbn [Z.eqb].
      - cbn. rewrite ET. reflexivity.
      - destruct (o_alt q) as [c|] eqn:EA2; [|congruence]. cbn. rewrite (Halt q c Hq EA2). reflexivity.
      - congruence. }
    split; [exact P|]. unfold lenZ; rewrite !app_length; cbn. split; [lia|]; split; [lia|].
    intros Q HQ F. rewrite !Forall_app in *; destruct F as [[F1' _] F2]; split; [exact F1'|]. inversion F2 as [|? ? _ F3]; subst; inversion F3; subst. constructor; auto.
  - (* commuting *)
    destruct HR as (a & b & u' & v' & -> & -> & P & G & ->).
    replace (length (u' ++ [T a])) with (S (length u')) in * by (rewrite app_length; cbn; lia).
    cbn [Nat.eqb]. rewrite <- app_assoc in HI; cbn [app] in HI.
    rewrite grown_same by (rewrite Hlen, !app_length; cbn; lia).
    rewrite map_app in HI; cbn [map] in HI.
    set (X := map slot_of u') in *. set (Y := map slot_of v') in *.
    assert (LX : length X = length u') by (unfold X; apply map_length).
    destruct (Hcom q Hq ET) as [Hc Hh].
    destruct (commute_ok q cs X (slot_of (T a)) [] (slot_of (T b)) Y st HI (slot_operand a) (slot_operand b)) as (cs1 & code & alt & E & Ksim & K); [|exact ET|exact Hh|].
    { unfold X, Y; rewrite !app_length in *; cbn in *; rewrite !map_length; lia. }
    rewrite LX in E; rewrite E; cbn [cbind].
    do 3 eexists; split; [reflexivity|]; split.
    { intro Sm. apply no2_app; split; [|destruct alt; [destruct (o_alt q)|]; auto using no2_op, no2_alt]. apply Ksim.
      destruct (part_mid _ _ _ _ _ _ _ P Sm) as [Ha|Ha]; [destruct a as [l| |] | destruct b as [l| |]]; try contradiction; exists l; cbn; auto. }
    intro N.
    assert (N' : no2 code \/ triv) by (destruct N as [N|]; [apply no2_app in N; left; tauto | now right]).
    destruct (K N') as (st1 & va & vb & Ea & Eb & Pc & I1 & Hpos). rewrite lv_left in Ea; rewrite lv_right in Eb. injection Ea as <-; injection Eb as <-.
    set (w := ieval (B q a b)).
    destruct (binary_done cs1 X Y q [] _ _ st1 w I1) as (rest & Est & I2).
    { cbv zeta in Hpos. tauto. }
    replace (S (length u') - 1)%nat with (length u') by lia. rewrite LX in I2.
    exists (u' ++ T (B q a b) :: v'), (w :: rest). split; [rewrite map_app; exact I2|]. split.
    { rewrite performs_app, Pc, Est. cbv zeta in Hpos. rewrite LX in *.
      destruct Hpos as [(F & Sx & ->) | (F & Sx & [[-> EA]|[-> EC]])]; rewrite F; cbn [Z.eqb].
      - cbn. rewrite ET. reflexivity.
      - destruct (o_alt q) as [c|] eqn:EA2; [|congruence]. cbn. rewrite (Halt q c Hq EA2). reflexivity.
      - cbn. rewrite ET, Hc. reflexivity. }
    split; [exact P|]. unfold lenZ; rewrite !app_length; cbn. split; [lia|]; split; [lia|].
    intros Q HQ F. rewrite !Forall_app in *; destruct F as [[F1' _] F2]; split; [exact F1'|]. inversion F2 as [|? ? _ F3]; subst; inversion F3; subst. constructor; auto.
  - (* postfix *)
    destruct HR as (a & u' & -> & P & G).
    replace (length (u' ++ [T a])) with (S (length u')) in * by (rewrite app_length; cbn; lia).
    cbn [Nat.eqb]. replace (S (length u') - 1)%nat with (length u') by lia.
    unfold unary. rewrite ET. rewrite <- app_assoc in HI; cbn [app] in HI.
    rewrite map_app in HI; cbn [map] in HI.
    set (X := map slot_of u') in *. set (Y := map slot_of v) in *.
    assert (LX : length X = length u') by (unfold X; apply map_length).
    destruct (top_ok cs (X ++ slot_of (T a) :: slot_of (O q x) :: Y) st (length u') a HI) with (o := S (length u')) (X := X) (Y := slot_of (O q x) :: Y)
      as (cs1 & a1 & st1 & E1 & N1 & P1 & I1 & F1).
    + rewrite <- LX; apply nth_app_len.
    + unfold X, Y; rewrite !app_length in *; cbn in *; rewrite !map_length; lia.
    + now left.
    + reflexivity.
    + exact LX.
    + rewrite E1; cbn [cbind]. do 3 eexists; split; [reflexivity|]; split; [intros _; apply no2_app; split; [exact N1 | apply no2_op]|]; intros _.
      cbn [slot_of] in I1.
      destruct (unary_done cs1 X Y q x (ieval a) st1 (un (o_code q) x (ieval a)) true I1) as (rest & -> & I2); [rewrite LX; exact F1|].
      rewrite LX in I2. exists (u' ++ T (U q x a) :: v), (un (o_code q) x (ieval a) :: rest).
      replace (S (length u') - 1)%nat with (length u') by lia.
      split; [rewrite map_app; exact I2|].
      split; [rewrite performs_app, P1; cbn; rewrite ET; reflexivity|].
      split; [exact P|]. unfold lenZ; rewrite !app_length; cbn. split; [lia|]; split; [lia|].
      intros Q HQ F. rewrite !Forall_app in *; destruct F as [[F1' _] F2]; split; [exact F1'|]. inversion F2; subst. constructor; auto.
Qed.

(* ---------------------------------------------------------------- a phase *)
Lemma find_first_spec : forall (f : ectx leaf -> bool) cs k,
  match find_first f k cs with
  | Some o => exists a e b, cs = a ++ e :: b /\ o = (k + length a)%nat /\ f e = true /\ Forall (fun e => f e = false) a
  | None => Forall (fun e => f e = false) cs
  end.
Proof.
  intros f cs; induction cs as [|e cs IH]; intro k; cbn; [constructor|]. destruct (f e) eqn:E.
  - exists [], e, cs; repeat split; cbn; [lia | exact E | constructor].
  - specialize (IH (S k)). destruct (find_first f (S k) cs) as [o|].
    + destruct IH as (a & e' & b & -> & -> & H & F). exists (e :: a), e', b. split; [reflexivity|]; split; [cbn; lia|]; split; [exact H|]. constructor; assumption.
    + constructor; assumption.
Qed.
Lemma find_last_spec : forall (f : ectx leaf -> bool) cs k,
  match find_last f k cs with
  | Some o => exists a e b, cs = a ++ e :: b /\ o = (k + length a)%nat /\ f e = true /\ Forall (fun e => f e = false) b
  | None => Forall (fun e => f e = false) cs
  end.
Proof.
  intros f cs; induction cs as [|e cs IH]; intro k; cbn; [constructor|]. specialize (IH (S k)).
  destruct (find_last f (S k) cs) as [o|].
  - destruct IH as (a & e' & b & -> & -> & H & F). exists (e :: a), e', b. split; [reflexivity|]; split; [cbn; lia|]; split; [exact H|exact F].
  - destruct (f e) eqn:E; [|constructor; assumption]. exists [], e, cs; split; [reflexivity|]; split; [cbn; lia|]; split; assumption.
Qed.
Definition fkey (p : Z) (d : bool) : Z := 2 * p + (if d then 0 else 1).
Lemma due_key : forall q x p d, (due (leaf := leaf) p d (mkE (KOp q x) (-1)) = true -> fkey p d <= key q -> key q = fkey p d /\ o_l2r q = d) /\
  (due (leaf := leaf) p d (mkE (KOp q x) (-1)) = false -> fkey p d <= key q -> fkey p d < key q).
Proof.
  intros q x p d; unfold due, fkey, key; cbn [e_kind]. destruct (o_l2r q), d; cbn [Bool.eqb]; rewrite ?andb_true_r, ?andb_false_r; split; intros; try discriminate; try lia; auto; split; try lia; reflexivity.
Qed.
Lemma none_above : forall p d cs its (st : list V), Forall2 (rel st) cs (map slot_of its) -> Forall (fun e => due p d e = false) cs -> from (fkey p d) its -> above (fkey p d) its.
Proof.
  intros p d cs its st; revert cs; induction its as [|i its IH]; intros cs H F G; [constructor|].
  inversion H as [|e ? cs' ? R H']; subst. inversion F; subst. inversion G; subst. constructor; [|eapply IH; eassumption].
  destruct i as [t|q x]; [exact I|]. cbn [opf] in *. cbn [slot_of] in R. inversion R; subst.
  apply (due_key q x p d); assumption.
Qed.

Definition legal (its : list (it leaf)) : Prop := Forall (fun i => match i with O q _ => In q c_operations | T _ => True end) its.
Definition state (t : itree leaf) (N L : Z) (cs : list (ectx leaf)) (a : list (action leaf)) (r : Z) (its : list (it leaf)) : Prop :=
  exists st, Inv cs (map slot_of its) st /\ performs a [] = Some st /\ part L t its /\ from L its /\ legal its /\ (length its <= 255)%nat /\ r + lenZ its = N /\ (isimple t -> no2 a).
Definition outcome (res : cres (resolved (leaf := leaf))) (post : list (ectx leaf) -> list (action leaf) -> Z -> Prop) : Prop :=
  match res with COk (cs, a, r) => no2 a \/ triv -> post cs a r | _ => ~ triv end.

Lemma outcome_bind : forall (a : list (action leaf)) (res : cres (resolved (leaf := leaf))) post,
  (no2 a \/ triv -> outcome res post) -> (forall cs b r, res = COk (cs, b, r) -> exists ext, b = a ++ ext) -> outcome res post.
Proof.
  intros a res post H Hx; unfold outcome in *; destruct res as [[[cs b] r]|e|].
  - intros N. apply H; [|exact N]. destruct N as [N|]; [left|now right]. destruct (Hx _ _ _ eq_refl) as (ext & ->); apply no2_app in N; tauto.
  - intro Tr; apply H; [right; exact Tr | exact Tr].
  - intro Tr; apply H; [right; exact Tr | exact Tr].
Qed.
Lemma phase_ext : forall n p d (cs : list (ectx leaf)) a r cs' b r', resolve_phase n p d cs a r = COk (cs', b, r') -> exists ext, b = a ++ ext.
Proof.
  induction n as [|n IH]; intros p d cs a r cs' b r' E; cbn [resolve_phase] in E;
    destruct ((if d then find_first else find_last) (due p d) 0%nat cs) as [o|]; try discriminate.
  - injection E as <- <- <-; exists []; rewrite app_nil_r; reflexivity.
  - destruct (resolve_ex o cs) as [[[cs1 a1] k]| |]; try discriminate. cbn [cbind] in E. destruct (IH _ _ _ _ _ _ _ _ E) as (ext & ->).
    exists (a1 ++ ext); rewrite app_assoc; reflexivity.
  - injection E as <- <- <-; exists []; rewrite app_nil_r; reflexivity.
Qed.

Lemma phase_ok : forall t N p d, good t -> forall n cs a r its, state t N (fkey p d) cs a r its -> (length its <= n)%nat ->
  outcome (resolve_phase n p d cs a r) (fun cs' a' r' => exists its', state t N (fkey p d) cs' a' r' its' /\ above (fkey p d) its' /\ (length its' <= length its)%nat).
Proof.
  intros t N p d G; induction n as [|n IH]; intros cs a r its (st & HI & HP & Hpart & Hfrom & Hleg & Hl & Hr & Hsim) Hn; cbn [resolve_phase].
  - destruct its; [|cbn in Hn; lia]. destruct HI as [HF HPm]. inversion HF; subst.
    assert (find_first (leaf := leaf) (due p d) 0%nat [] = None) by reflexivity.
    destruct d; cbn; intros _; exists []; (split; [exists st; repeat split; auto | split; [constructor | lia]]).
  - assert (Spec : match (if d then find_first else find_last) (due p d) 0%nat cs with
                   | Some o => exists u q x v, its = u ++ O q x :: v /\ o = length u /\ key q = fkey p d /\ o_l2r q = d /\
                                (d = true -> above (fkey p d) u) /\ (d = false -> above (fkey p d) v)
                   | None => Forall (fun e => due p d e = false) cs
                   end).
    { destruct HI as [HF _].
      assert (H : forall o, (exists c1 e c2, cs = c1 ++ e :: c2 /\ o = (0 + length c1)%nat /\ due p d e = true /\
                     ((d = true -> Forall (fun e => due p d e = false) c1) /\ (d = false -> Forall (fun e => due p d e = false) c2))) ->
                exists u q x v, its = u ++ O q x :: v /\ o = length u /\ key q = fkey p d /\ o_l2r q = d /\
                                (d = true -> above (fkey p d) u) /\ (d = false -> above (fkey p d) v)).
      { intros o (c1 & e & c2 & -> & -> & De & D1 & D2).
        apply Forall2_app_inv_l in HF. destruct HF as (m1 & m2 & F1 & F2 & EM). apply map_eq_app in EM. destruct EM as (u & w & -> & <- & <-).
        inversion F2 as [|? s ? m3 R F3 E0 E1]; subst. destruct w as [|i v]; [discriminate|]. cbn [map] in E1. injection E1 as -> ->.
        unfold from in Hfrom. rewrite Forall_app in Hfrom. destruct Hfrom as [Fu Fv]. inversion Fv as [|? ? Fi Fv']; subst.
        destruct i as [[l|q0 x0 t0|q0 t1 t2]|q x]; cbn [slot_of] in R; inversion R; subst; try discriminate De.
        exists u, q, x, v. destruct (due_key q x p d) as [K _]. destruct (K De Fi) as [K1 K2].
        split; [reflexivity|]; split; [clear -F1; cbn; remember (map slot_of u) as m; revert u Heqm; induction F1; intros [|i u] E; try discriminate; cbn; [reflexivity|]; injection E as _ E; rewrite (IHF1 u E); reflexivity|].
        split; [exact K1|]; split; [exact K2|]. split; intro Ed; [apply (none_above p d c1 u st F1 (D1 Ed) Fu) | apply (none_above p d c2 v st F3 (D2 Ed) Fv')]. }
      destruct d.
      - pose proof (find_first_spec (due p true) cs 0%nat) as FS. destruct (find_first (due p true) 0%nat cs) as [o|]; [|exact FS].
        apply H. destruct FS as (c1 & e & c2 & E1 & E2 & E3 & E4). exists c1, e, c2. repeat split; auto. intro; discriminate.
      - pose proof (find_last_spec (due p false) cs 0%nat) as FS. destruct (find_last (due p false) 0%nat cs) as [o|]; [|exact FS].
        apply H. destruct FS as (c1 & e & c2 & E1 & E2 & E3 & E4). exists c1, e, c2. repeat split; auto. intro; discriminate. }
    destruct ((if d then find_first else find_last) (due p d) 0%nat cs) as [o|].
    + destruct Spec as (u & q & x & v & -> & -> & K1 & K2 & Au & Av).
      assert (Hq : In q c_operations).
      { unfold legal in Hleg; rewrite Forall_app in Hleg; destruct Hleg as [_ Hv]; inversion Hv; assumption. }
      assert (HR : reduct (fkey p d) t q x u v).
      { apply (part_step _ _ _ Hpart G Hfrom q x u v eq_refl K1); rewrite K2; assumption. }
      destruct (resolve_step cs _ st q x u v t _ eq_refl HI Hl Hq HR) as (cs1 & a1 & k & E & Ksim & K). rewrite E; cbn [cbind].
      apply (outcome_bind (a ++ a1)); [|intros; eapply phase_ext; eassumption].
      intro Na. assert (Na1 : no2 a1 \/ triv) by (destruct Na as [Na|]; [apply no2_app in Na; left; tauto | now right]).
      destruct (K Na1) as (its' & st' & I' & P' & Part' & Hk & Hlt & Hsub).
      assert (S' : state t N (fkey p d) cs1 (a ++ a1) (r + k) its').
      { exists st'. split; [exact I'|]; split; [rewrite performs_app, HP; exact P'|]; split; [exact Part'|].
        split; [apply Hsub; [intro; exact I | exact Hfrom]|]; split; [apply Hsub; [intro; exact I | exact Hleg]|]; split; [lia|]. split; [lia|].
        intro Sm; apply no2_app; split; auto. }
      specialize (IH cs1 (a ++ a1) (r + k) its' S' ltac:(lia)).
      unfold outcome in *. destruct (resolve_phase n p d cs1 (a ++ a1) (r + k)) as [[[cs' a'] r']| |]; [|exact IH|exact IH].
      intro Nf. destruct (IH Nf) as (its2 & S2 & A2 & L2). exists its2; split; [exact S2|]; split; [exact A2|lia].
    + unfold outcome. intros _. exists its. split; [exists st; repeat split; auto; apply HI|]. split; [|lia].
      destruct HI as [HF _]. eapply none_above; eassumption.
Qed.

(* ---------------------------------------------------------------- all levels *)
Lemma levels_ext : forall n p (cs : list (ectx leaf)) a r cs' b r', resolve_levels n p cs a r = COk (cs', b, r') -> exists ext, b = a ++ ext.
Proof.
  induction n as [|n IH]; intros p cs a r cs' b r' E; cbn [resolve_levels] in E.
  - injection E as <- <- <-; exists []; rewrite app_nil_r; reflexivity.
  - destruct (length cs <=? 1)%nat; [injection E as <- <- <-; exists []; rewrite app_nil_r; reflexivity|].
    destruct (resolve_phase (length cs) p true cs a r) as [[[cs1 a1] r1]| |] eqn:E1; try discriminate. cbn [cbind] in E.
    destruct (resolve_phase (length cs1) p false cs1 a1 r1) as [[[cs2 a2] r2]| |] eqn:E2; try discriminate. cbn [cbind] in E.
    destruct (phase_ext _ _ _ _ _ _ _ _ _ E1) as (x1 & ->). destruct (phase_ext _ _ _ _ _ _ _ _ _ E2) as (x2 & ->).
    destruct (IH _ _ _ _ _ _ _ E) as (x3 & ->). exists (x1 ++ x2 ++ x3); rewrite <- !app_assoc; reflexivity.
Qed.
Lemma state_up : forall t N L cs a r its, state t N L cs a r its -> above L its -> state t N (L + 1) cs a r its.
Proof.
  intros t N L cs a r its (st & HI & HP & Hpart & Hfrom & Hrest) Ha. exists st. split; [exact HI|]; split; [exact HP|].
  split; [apply part_up; assumption|]; split; [apply above_from; exact Ha | exact Hrest].
Qed.
Lemma part_nonempty : forall L t (l : list (it leaf)), part L t l -> l <> [].
Proof. intros L t l H; destruct H; try discriminate; destruct a; discriminate. Qed.
Lemma levels_ok : forall t N, good t -> forall n p cs a r its, 0 <= p -> p + Z.of_nat n = 17 ->
  state t N (2 * p) cs a r its ->
  outcome (resolve_levels n p cs a r) (fun cs' a' r' => exists st, performs a' [] = Some st /\ Inv cs' (map slot_of [T t]) st /\ r' + 1 = N /\ (isimple t -> no2 a')).
Proof.
  intros t N G; induction n as [|n IH]; intros p cs a r its Hp Hn HS; cbn [resolve_levels].
  - unfold outcome; intros _. destruct HS as (st & HI & HP & Hpart & Hfrom & _ & _ & Hr & Hsim).
    assert (its = [T t]) as ->.
    { apply (part_end (2 * p) t its Hpart G ltac:(lia)).
      (* nothing binds as loosely *)
      assert (Hall : Forall (opf (fun k => k <= 33)) its).
      { clear -Hpart G. induction Hpart; [repeat constructor | | |]; cbn [good] in G.
        - constructor; [cbn; lia | apply IHHpart; tauto].
        - apply Forall_app; split; [apply IHHpart; tauto | repeat constructor; cbn; lia].
        - apply Forall_app; split; [apply IHHpart1; tauto | constructor; [cbn; lia | apply IHHpart2; tauto]]. }
      unfold above. revert Hfrom Hall. generalize its. induction its0 as [|i l IHl]; intros F1 F2; constructor; inversion F1; inversion F2; subst; auto.
      destruct i as [|q x]; [exact I|]. cbn [opf] in *. lia. }
    exists st; split; [exact HP|]; split; [exact HI|]. split; [unfold lenZ in Hr; cbn in Hr; lia | exact Hsim].
  - destruct HS as (st & HI & HP & Hpart & Hfrom & Hleg & Hl & Hr & Hsim).
    pose proof (inv_len _ _ _ HI) as Hlen; rewrite map_length in Hlen.
    destruct (length cs <=? 1)%nat eqn:E1.
    + apply Nat.leb_le in E1. unfold outcome; intros _.
      destruct its as [|i [|j its]]; [exfalso; eapply part_nonempty; [exact Hpart|reflexivity] | | cbn in Hlen; lia].
      assert (i = T t) as ->.
      { destruct (part_root _ _ _ Hpart) as [E | (q & x & u & v & E & _)]; [congruence|].
        exfalso. destruct u as [|? u]; [|destruct u; discriminate]. destruct v; [|discriminate]. injection E as ->.
        inversion Hpart as [|? ? ? a0 ? ? Pa|? ? ? a0 ? ? Pa Et Ea|? ? ? a0 ? ? Pa ? Et Ea]; subst.
        - apply part_nonempty in Pa; congruence.
        - destruct a0 as [|? a0]; [apply part_nonempty in Pa; congruence | destruct a0; discriminate].
        - destruct a0 as [|? a0]; [apply part_nonempty in Pa; congruence | destruct a0; discriminate]. }
      exists st; split; [exact HP|]; split; [exact HI|]. split; [unfold lenZ in Hr; cbn in Hr; lia | exact Hsim].
    + assert (HS : state t N (fkey p true) cs a r its) by (unfold fkey; rewrite Z.add_0_r; exists st; repeat split; auto; apply HI).
      pose proof (phase_ok t N p true G (length cs) cs a r its HS ltac:(lia)) as H1.
      destruct (resolve_phase (length cs) p true cs a r) as [[[cs1 a1] r1]| |] eqn:R1; [|exact H1|exact H1]. cbn [cbind]. cbn [outcome] in H1.
      apply (outcome_bind a1).
      2:{ intros cs' b r' E. destruct (resolve_phase (length cs1) p false cs1 a1 r1) as [[[cs2 a2] r2]| |] eqn:R2; try discriminate. cbn [cbind] in E.
          destruct (phase_ext _ _ _ _ _ _ _ _ _ R2) as (x2 & ->). destruct (levels_ext _ _ _ _ _ _ _ _ E) as (x3 & ->). exists (x2 ++ x3); rewrite app_assoc; reflexivity. }
      intro N1. destruct (H1 N1) as (its1 & S1 & A1 & L1).
      apply state_up in S1; [|exact A1].
      assert (EL : length cs1 = length its1) by (destruct S1 as (st1 & I1 & _); rewrite (inv_len _ _ _ I1), map_length; reflexivity).
      assert (K2 : fkey p true + 1 = fkey p false) by (unfold fkey; lia). rewrite K2 in S1.
      pose proof (phase_ok t N p false G (length cs1) cs1 a1 r1 its1 S1 ltac:(lia)) as H2.
      destruct (resolve_phase (length cs1) p false cs1 a1 r1) as [[[cs2 a2] r2]| |] eqn:R2; [|exact H2|exact H2]. cbn [cbind]. cbn [outcome] in H2.
      apply (outcome_bind a2); [|intros; eapply levels_ext; eassumption].
      intro N2. destruct (H2 N2) as (its2 & S2 & A2 & L2).
      apply state_up in S2; [|exact A2]. replace (fkey p false + 1) with (2 * (p + 1)) in S2 by (unfold fkey; lia).
      apply (IH (p + 1) cs2 a2 r2 its2 ltac:(lia) ltac:(lia) S2).
Qed.

(* the contexts of a tree *)
Definition ectx_of (i : it leaf) : ectx leaf := match i with O q x => mkE (KOp q x) (-1) | T (A l) => mkE (KLeaf l) (-1) | T _ => mkE KNone (-1) end.
Definition plain (i : it leaf) : Prop := match i with T (A _) | O _ _ => True | _ => False end.
Lemma inv_init : forall its, Forall plain its -> Inv (V := V) (map ectx_of its) (map slot_of its) [].
Proof.
  intros its H; split.
  - induction H as [|i its Hi H IH]; cbn; constructor; [|exact IH]. destruct i as [[l|? ? ?|? ? ?]|q x]; try contradiction; constructor.
  - induction H as [|i its Hi H IH]; cbn [map]; [constructor|]. rewrite locs_cons. destruct i as [[l|? ? ?|? ? ?]|q x]; try contradiction; exact IH.
Qed.
Lemma flat_plain : forall t : itree leaf, Forall plain (flat t).
Proof.
  induction t as [l|q x t IH|q l IHl r IHr]; cbn [flat].
  - repeat constructor.
  - destruct (o_type q); [constructor; [exact I|exact IH] | | | ]; apply Forall_app; split; auto; repeat constructor.
  - apply Forall_app; split; [exact IHl | constructor; [exact I | exact IHr]].
Qed.
Lemma flat_len : forall t : itree leaf, good t -> (forall l, t <> A l) -> (1 < length (flat t))%nat.
Proof.
  assert (P : forall t : itree leaf, (1 <= length (flat t))%nat).
  { induction t as [l|q x t IH|q l IHl r IHr]; cbn [flat]; [cbn; lia | destruct (o_type q); cbn; rewrite ?app_length; cbn; lia | rewrite app_length; cbn; lia]. }
  intros [l|q x t|q l r] G N; [congruence | |].
  - cbn [flat]. specialize (P t). destruct (o_type q); cbn; rewrite ?app_length; cbn; lia.
  - cbn [flat]. specialize (P l) as P1; specialize (P r). rewrite app_length; cbn; lia.
Qed.
Lemma expression_run' : forall t, good t -> (forall l, t <> A l) -> legal (flat t) -> (length (flat t) <= 255)%nat ->
  match resolve_expression (map ectx_of (flat t)) with
  | COk a => no2 a \/ triv -> performs a [] = Some [ieval t] /\ (isimple t -> no2 a)
  | _ => ~ triv
  end.
Proof.
  intros t G NA HL Hl. pose proof (flat_len t G NA) as Hlen.
  unfold resolve_expression. destruct (map ectx_of (flat t)) as [|e1 [|e2 es]] eqn:EM;
    [apply (f_equal (@length _)) in EM; rewrite map_length in EM; cbn in EM; lia | apply (f_equal (@length _)) in EM; rewrite map_length in EM; cbn in EM; lia |].
  rewrite <- EM. destruct (flat_part t G) as [P F].
  assert (HS : state t (1 + lenZ (flat t)) 0 (map ectx_of (flat t)) [] 1 (flat t)).
  { exists []. split; [apply inv_init, flat_plain|]. repeat split; auto using no2_nil. }
  pose proof (levels_ok t _ G 17 0 _ _ _ _ ltac:(lia) ltac:(lia) HS) as H.
  change (Z.to_nat c_highestPrecedence) with 17%nat.
  destruct (resolve_levels 17 0 (map ectx_of (flat t)) [] 1) as [[[cs a] r]| |]; cbn [cbind]; [|exact H|exact H].
  cbn [outcome] in H.
  assert (HL2 : lenZ (map ectx_of (flat t)) = lenZ (flat t)) by (unfold lenZ; rewrite map_length; reflexivity).
  rewrite HL2.
  assert (Q : no2 a \/ triv -> r = lenZ (flat t) /\ performs a [] = Some [ieval t] /\ (isimple t -> no2 a)).
  { intro N. destruct (H N) as (st & Pf & I & Er & Hsim). split; [lia|]. split; [|exact Hsim]. rewrite Pf; f_equal.
    destruct I as [If Ip]. inversion If as [|e0 s0 cs0 ? R T0 E1 E2]; subst. inversion T0; subst.
    assert (R2 : rel st e0 (SVal (ieval t))) by (destruct t as [l| |]; [exfalso; eapply NA; reflexivity | exact R | exact R]).
    inversion R2 as [| |pp vv Hp Hn]; subst. apply Permutation_length in Ip. rewrite length_zseq, locs_cons in Ip.
    cbn [e_pos] in Ip. replace (pp =? -1) with false in Ip by lia. cbn in Ip.
    destruct st as [|v0 [|v1 st]]; try discriminate. destruct (Z.to_nat pp) as [|m]; [|destruct m; discriminate]. cbn in Hn; congruence. }
  destruct (negb (lenZ (flat t) =? 0) && negb (r =? lenZ (flat t))) eqn:EC.
  - intro Tr. destruct (Q (or_intror Tr)) as [E _]. lia.
  - intro N. apply Q; exact N.
Qed.
Theorem expression_run : forall t, good t -> legal (flat t) -> (length (flat t) <= 255)%nat ->
  match resolve_expression (map ectx_of (flat t)) with
  | COk a => no2 a \/ triv -> performs a [] = Some [ieval t] /\ (isimple t -> no2 a)
  | _ => ~ triv
  end.
Proof.
  intros t G HL Hl. destruct t as [l|q x t|q l r]; [cbn; intros _; split; [reflexivity | intros _ n m [E|[]]; discriminate] | |]; apply expression_run'; auto; discriminate.
Qed.
End Run.
