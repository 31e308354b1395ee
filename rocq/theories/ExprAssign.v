(* Proofs about expressions: what stands to the left of an expression and binds loosely does not change
   how the expression is resolved, so the code of x = e is the code of e, then x, then the assignment. *)
From Coq Require Import String Permutation.
From Verif Require Import Base HashModel OpsModel VmModel EmitModel ExprModel ExprSpec ExprProofs ExprStack ExprRun ExprText ExprProps.
Open Scope string_scope. Open Scope list_scope. Open Scope Z_scope.

Section Nothing.
Context {leaf : Type}.
Notation ectx := (ectx leaf).
Lemma phase_none : forall n p l (cs : list ectx) a r, Forall (fun e => due p l e = false) cs -> resolve_phase n p l cs a r = COk (cs, a, r).
Proof.
  intros n p l cs a r H.
  assert (F : (if l then find_first else find_last) (due p l) 0%nat cs = None).
  { generalize 0%nat. destruct l; induction H as [|e cs E F IH]; intro i; cbn; try reflexivity; rewrite ?IH, ?E; auto. }
  destruct n; cbn [resolve_phase]; rewrite F; reflexivity.
Qed.
Lemma levels_none : forall n p (cs : list ectx) a r, (forall x l, p <= x < p + Z.of_nat n -> Forall (fun e => due x l e = false) cs) -> resolve_levels n p cs a r = COk (cs, a, r).
Proof.
  induction n as [|n IH]; intros p cs a r H; cbn [resolve_levels]; [reflexivity|]. destruct (length cs <=? 1)%nat; [reflexivity|].
  rewrite phase_none by (apply H; lia). cbn [cbind]. rewrite phase_none by (apply H; lia). cbn [cbind]. apply IH. intros x l Hx; apply H; lia.
Qed.
End Nothing.

Section Prefix.
Context {leaf : Type}.
Notation ectx := (ectx leaf). Notation action := (action leaf).
Variable P : list ectx.
Hypothesis HP : Forall (fun e => e_pos e = -1) P.
Let d := length P.
(* a condition on the contexts that no step breaks *)
Variable K : kind leaf -> Prop.
Hypothesis K_resolved : K KResolved.
Hypothesis K_none : K KNone.
Definition nn (cs : list ectx) : Prop := Forall (fun e => -1 <= e_pos e /\ K (e_kind e)) cs.

Lemma mapi_app : forall {X Y} (f : nat -> X -> Y) a i b, mapi f i (a ++ b) = mapi f i a ++ mapi f (i + length a) b.
Proof.
  induction a as [|x a IH]; intros i b; cbn [mapi app length]; [rewrite Nat.add_0_r; reflexivity|].
  rewrite IH; do 3 f_equal; lia.
Qed.
Lemma mapi_prefix : forall {X} (f : nat -> X -> X) a i, (forall j x, In x a -> (i <= j < i + length a)%nat -> f j x = x) -> mapi f i a = a.
Proof.
  induction a as [|x a IH]; intros i H; cbn [mapi]; [reflexivity|].
  rewrite H; [|left; reflexivity | cbn; lia]. f_equal. apply IH. intros j y Hy Hj. apply H; [right; exact Hy | cbn; lia].
Qed.
Lemma mapi_shift : forall {X Y} (f g : nat -> X -> Y) a i j, (forall k x, f (i + k)%nat x = g (j + k)%nat x) -> mapi f i a = mapi g j a.
Proof.
  induction a as [|x a IH]; intros i j H; cbn [mapi]; [reflexivity|].
  f_equal; [specialize (H 0%nat x); rewrite !Nat.add_0_r in H; exact H|]. apply IH. intros k y. specialize (H (S k) y).
  rewrite !Nat.add_succ_r in H. exact H.
Qed.
Lemma mapi_all : forall {X} (Q : X -> Prop) (f : nat -> X -> X) a i, Forall Q a -> (forall j x, Q x -> Q (f j x)) -> Forall Q (mapi f i a).
Proof. induction a as [|x a IH]; intros i H Hf; cbn [mapi]; inversion H; subst; constructor; auto. Qed.

Lemma pre_exists : forall h cs, 0 <= h -> existsb (fun e => e_pos e =? h) (P ++ cs) = existsb (fun e => e_pos e =? h) cs.
Proof.
  intros h cs Hh. rewrite existsb_app. replace (existsb (fun e => e_pos e =? h) P) with false; [reflexivity|].
  clear -HP Hh. induction HP as [|e l E F IH]; cbn; [reflexivity|]. rewrite <- IH, E by exact F. replace (-1 =? h) with false by lia. reflexivity.
Qed.
Lemma compact_pre : forall n h cs, 0 <= h -> compact n h (P ++ cs) = P ++ compact n h cs.
Proof.
  induction n as [|n IH]; intros h cs Hh; cbn [compact]; [reflexivity|]. rewrite pre_exists by exact Hh.
  destruct (existsb _ cs); [apply IH; lia|]. rewrite map_app.
  replace (map (fun e => if h <? e_pos e then set_pos e (e_pos e - 1) else e) P) with P; [apply IH; exact Hh|].
  clear -HP Hh. induction HP as [|e l E F IH]; cbn; [reflexivity|]. rewrite <- IH, E by exact F. replace (h <? -1) with false by lia. reflexivity.
Qed.
Lemma fold_pre : forall h, 0 <= h -> fold_left (fun h e => Z.max h (e_pos e)) P h = h.
Proof. clear -HP. induction HP as [|e l E F IH]; intros h Hh; cbn; [reflexivity|]. rewrite E, Z.max_l by lia. apply IH; assumption. Qed.
Lemma push_pre : forall i cs, push_to_stack (d + i) (P ++ cs) = P ++ push_to_stack i cs.
Proof.
  intros i cs. unfold push_to_stack. rewrite mapi_app. rewrite (mapi_prefix _ P).
  2:{ intros j e He Hj. replace (Nat.eqb j (d + i)) with false by (symmetry; apply Nat.eqb_neq; unfold d; lia).
      rewrite Forall_forall in HP. rewrite (HP e He). reflexivity. }
  cbn [Nat.add]. fold d.
  rewrite (mapi_shift _ (fun j e => if Nat.eqb j i then set_pos e 0 else if e_pos e =? -1 then e else set_pos e (e_pos e + 1)) cs d 0).
  2:{ intros k e. cbn [Nat.add]. replace (Nat.eqb (d + k) (d + i)) with (Nat.eqb k i); [reflexivity|].
      destruct (Nat.eqb_spec k i), (Nat.eqb_spec (d + k) (d + i)); try reflexivity; lia. }
  rewrite fold_left_app, fold_pre by lia. apply compact_pre. lia.
Qed.
Lemma load_pre : forall i cs, load (d + i) (P ++ cs) = P ++ load i cs.
Proof.
  intros i cs. unfold load. rewrite push_pre, mapi_app. f_equal.
  - apply mapi_prefix. intros j e He Hj. replace (Nat.eqb j (d + i)) with false by (symmetry; apply Nat.eqb_neq; unfold d; lia). reflexivity.
  - apply mapi_shift. intros k e. cbn [Nat.add]. fold d. replace (Nat.eqb (d + k) (d + i)) with (Nat.eqb k i); [reflexivity|].
    destruct (Nat.eqb_spec k i), (Nat.eqb_spec (d + k) (d + i)); try reflexivity; lia.
Qed.
Lemma swap_pre : forall p cs, 0 <= p -> swap_with_top p (P ++ cs) = (r <~ swap_with_top p cs ;; COk (P ++ r)).
Proof.
  intros p cs Hp. unfold swap_with_top. destruct (p =? 0); [reflexivity|]. rewrite !pre_exists by lia.
  destruct (_ && _); [|reflexivity]. cbn [cbind]. rewrite map_app. do 2 f_equal.
  clear -HP Hp. induction HP as [|e l E F IH]; cbn; [reflexivity|]. rewrite IH, E by exact F.
  replace (-1 =? p) with false by lia. reflexivity.
Qed.
Lemma nth_pre : forall i cs, nth_error (P ++ cs) (d + i) = nth_error cs i.
Proof. intros; rewrite nth_error_app2 by (unfold d; lia). f_equal. unfold d; lia. Qed.
Lemma pos_pre : forall i cs, pos_of (P ++ cs) (d + i) = pos_of cs i.
Proof. intros; unfold pos_of; rewrite nth_pre; reflexivity. Qed.
Lemma code_pre : forall i o cs, (0 < o)%nat -> load_code (P ++ cs) (d + i) (d + o) = load_code cs i o.
Proof.
  intros i o cs Ho. unfold load_code, is_hash. rewrite !nth_pre. destruct (nth_error cs i) as [e|]; [|reflexivity].
  replace ((0 <? d + o)%nat && (d + o <? d + i)%nat) with ((0 <? o)%nat && (o <? i)%nat); [reflexivity|].
  destruct (Nat.ltb_spec 0 o), (Nat.ltb_spec o i), (Nat.ltb_spec 0 (d + o)), (Nat.ltb_spec (d + o) (d + i)); try reflexivity; lia.
Qed.
Lemma code_pre0 : forall i cs, load_code (P ++ cs) (d + i) 0 = load_code cs i 0.
Proof. intros i cs. unfold load_code. rewrite nth_pre. reflexivity. Qed.
Lemma remove_pre : forall i n cs, remove_at (d + i) n (P ++ cs) = P ++ remove_at i n cs.
Proof.
  intros. unfold remove_at. rewrite firstn_app, skipn_app.
  replace (d + i - length P)%nat with i by (unfold d; lia). replace (d + i + n - length P)%nat with (i + n)%nat by (unfold d; lia).
  rewrite firstn_all2 by (unfold d; lia). rewrite (skipn_all2 P) by (unfold d; lia). rewrite <- app_assoc. cbn [app]. reflexivity.
Qed.
Lemma grown_pre : forall i cs, grown (d + i) (P ++ cs) = P ++ grown i cs.
Proof.
  intros. unfold grown. rewrite app_length. fold d. replace (d + i <? d + length cs)%nat with (i <? length cs)%nat;
    [destruct (i <? length cs)%nat; [reflexivity | rewrite app_assoc; reflexivity]|].
  destruct (Nat.ltb_spec i (length cs)), (Nat.ltb_spec (d + i) (d + length cs)); try reflexivity; lia.
Qed.

(* positions stay at -1 or above *)
Lemma nn_compact : forall n h cs, 0 <= h -> nn cs -> nn (compact n h cs).
Proof.
  induction n as [|n IH]; intros h cs Hh H; cbn [compact]; [exact H|]. destruct (existsb _ cs); [apply IH; [lia|exact H]|].
  apply IH; [exact Hh|]. unfold nn in *. rewrite Forall_map. revert H; apply Forall_impl. intros e [He Hk].
  destruct (h <? e_pos e) eqn:E; (split; [cbn [e_pos set_pos]; lia | exact Hk]).
Qed.
Lemma nn_push : forall i cs, nn cs -> nn (push_to_stack i cs).
Proof.
  intros i cs H. unfold push_to_stack. apply nn_compact; [lia|]. apply mapi_all; [exact H|]. intros j e [He Hk].
  destruct (Nat.eqb j i); [split; [cbn; lia | exact Hk]|]. destruct (e_pos e =? -1); (split; [cbn [e_pos set_pos]; lia | exact Hk]).
Qed.
Lemma nn_load : forall i cs, nn cs -> nn (load i cs).
Proof.
  intros i cs H. unfold load. apply mapi_all; [apply nn_push, H|]. intros j e [He Hk]. destruct (Nat.eqb j i); split; auto.
Qed.
Lemma nn_swap : forall p cs r, 0 <= p -> nn cs -> swap_with_top p cs = COk r -> nn r.
Proof.
  intros p cs r Hp H. unfold swap_with_top. destruct (p =? 0); [intro E; injection E as <-; exact H|].
  destruct (_ && _); [|discriminate]. intro E; injection E as <-. unfold nn in *. rewrite Forall_map. revert H; apply Forall_impl.
  intros e [He Hk]. destruct (e_pos e =? 0); [split; [cbn; lia | exact Hk]|]. destruct (e_pos e =? p); (split; [cbn [e_pos set_pos]; lia | exact Hk]).
Qed.
Lemma nn_pos : forall cs i, nn cs -> -1 <= pos_of cs i.
Proof.
  intros cs i H. unfold pos_of. destruct (nth_error cs i) eqn:E; [|lia]. unfold nn in H. rewrite Forall_forall in H.
  apply H. eapply nth_error_In; eassumption.
Qed.
Lemma forall_firstn : forall {X} (Q : X -> Prop) n l, Forall Q l -> Forall Q (firstn n l).
Proof. intros X Q n l H. rewrite <- (firstn_skipn n l) in H. apply Forall_app in H. apply H. Qed.
Lemma forall_skipn : forall {X} (Q : X -> Prop) n l, Forall Q l -> Forall Q (skipn n l).
Proof. intros X Q n l H. rewrite <- (firstn_skipn n l) in H. apply Forall_app in H. apply H. Qed.
Lemma nn_remove : forall i n cs, nn cs -> nn (remove_at i n cs).
Proof. intros i n cs H. unfold remove_at. apply Forall_app. split; [apply forall_firstn | apply forall_skipn]; exact H. Qed.
Lemma nn_grown : forall i cs, nn cs -> nn (grown i cs).
Proof. intros i cs H. unfold grown. destruct (_ <? _)%nat; [exact H|]. apply Forall_app; split; [exact H|]. repeat constructor; cbn; [lia | exact K_none]. Qed.
Lemma swap_nonneg : forall p i cs r, 0 <= p -> nn cs -> 0 <= pos_of cs i -> swap_with_top p cs = COk r -> 0 <= pos_of r i.
Proof.
  intros p i cs r Hp H Hi. unfold swap_with_top. destruct (p =? 0); [intro E; injection E as <-; exact Hi|].
  destruct (_ && _); [|discriminate]. intro E; injection E as <-. unfold pos_of in *. rewrite nth_error_map.
  destruct (nth_error cs i) as [e|]; cbn [option_map]; [|lia].
  destruct (e_pos e =? 0); [cbn; lia|]. destruct (e_pos e =? p); cbn [e_pos set_pos]; lia.
Qed.

Lemma bind_ok : forall {X Y} (x : cres X) (k : X -> cres Y) y, cbind x k = COk y -> exists v, x = COk v /\ k v = COk y.
Proof. intros X Y [v| |] k y E; try discriminate. exists v; split; [reflexivity | exact E]. Qed.

Lemma unary_pre : forall q x o arg cs cs1 a k, nn cs -> (o_type q = Post -> (0 < o)%nat) ->
  unary q x o arg cs = COk (cs1, a, k) ->
  unary q x (d + o) (d + arg) (P ++ cs) = COk (P ++ cs1, a, k) /\ nn cs1.
Proof.
  intros q x o arg cs cs1 a k Hn Ho E. unfold unary in *. rewrite pos_pre.
  apply bind_ok in E. destruct E as ([cs2 a2] & E1 & E2). injection E2 as <- <- <-.
  assert (HC : load_code (P ++ cs) (d + arg) (match o_type q with Post => d + o | _ => 0 end)%nat = load_code cs arg (match o_type q with Post => o | _ => 0 end)%nat).
  { destruct (o_type q); try apply code_pre0. apply code_pre; auto. }
  assert (Hi : (match o_type q with Post => (d + o - 1) | _ => d + o end = d + match o_type q with Post => o - 1 | _ => o end)%nat).
  { destruct (o_type q); try reflexivity. specialize (Ho eq_refl). lia. }
  destruct (pos_of cs arg =? -1) eqn:Ep.
  - injection E1 as <- <-. rewrite load_pre, HC. cbn [cbind]. rewrite remove_pre, Hi, push_pre. split; [reflexivity|].
    apply nn_push, nn_remove, nn_load, Hn.
  - pose proof (nn_pos cs arg Hn). apply bind_ok in E1. destruct E1 as (cs3 & E1 & E3). injection E3 as <- <-.
    rewrite swap_pre by lia. rewrite E1. cbn [cbind]. rewrite remove_pre, Hi, push_pre. split; [reflexivity|].
    apply nn_push, nn_remove. eapply nn_swap; [|exact Hn|exact E1]. lia.
Qed.

Lemma two_pre : forall f s c cs first cs1 a k, nn cs -> 0 <= s -> 0 <= pos_of cs first -> two_to_top f s c cs first = COk (cs1, a, k) ->
  two_to_top f s c (P ++ cs) (d + first) = COk (P ++ cs1, a, k) /\ nn cs1.
Proof.
  intros f s c cs first cs1 a k Hn Hs Hf E. unfold two_to_top in *. apply bind_ok in E. destruct E as (c1 & E1 & E).
  apply bind_ok in E. destruct E as (c2 & E2 & E). apply bind_ok in E. destruct E as (c3 & E3 & E). injection E as <- <- <-.
  rewrite swap_pre by exact Hs. rewrite E1; cbn [cbind]. rewrite swap_pre by lia. rewrite E2; cbn [cbind]. rewrite pos_pre.
  assert (N1 : nn c1) by (eapply nn_swap; [|exact Hn|exact E1]; lia).
  assert (N2 : nn c2) by (eapply nn_swap; [|exact N1|exact E2]; lia).
  assert (P2 : 0 <= pos_of c2 first).
  { eapply (swap_nonneg 1); [lia | exact N1 | | exact E2]. eapply (swap_nonneg s); [lia | exact Hn | exact Hf | exact E1]. }
  rewrite swap_pre by exact P2. rewrite E3; cbn [cbind]. split; [reflexivity|]. eapply nn_swap; [|exact N2|exact E3]. exact P2.
Qed.

Ltac swp E := let c := fresh "c" in let F := fresh "F" in
  apply bind_ok in E; destruct E as (c & F & E); rewrite swap_pre by lia; rewrite F; cbn [cbind].
Ltac fin E := injection E as <- <- <-; split; [reflexivity|];
  repeat first [assumption | apply nn_load | (eapply nn_swap; [| |eassumption]; [lia|])].

Lemma commute_pre : forall o cs cs1 a k, nn cs -> (0 < o)%nat -> commute_operands o cs = COk (cs1, a, k) ->
  commute_operands (d + o) (P ++ cs) = COk (P ++ cs1, a, k) /\ nn cs1.
Proof.
  intros o cs cs1 a k Hn Ho E. unfold commute_operands in *.
  replace (S (d + o)) with (d + S o)%nat by lia. replace (d + o - 1)%nat with (d + (o - 1))%nat by lia.
  rewrite !pos_pre. pose proof (nn_pos cs (S o) Hn). pose proof (nn_pos cs (o - 1) Hn).
  destruct (pos_of cs (S o) =? -1) eqn:Es.
  - apply bind_ok in E. destruct E as ([c1 a1] & E1 & E).
    destruct (pos_of cs (o - 1) =? -1) eqn:Ef.
    + injection E1 as <- <-. rewrite load_pre, code_pre by exact Ho. cbn [cbind]. rewrite load_pre, code_pre by exact Ho. fin E.
    + swp E1. injection E1 as <- <-. cbn [cbind]. rewrite load_pre, code_pre by exact Ho. fin E.
  - destruct (pos_of cs (o - 1) =? -1) eqn:Ef.
    + swp E. rewrite load_pre, code_pre by exact Ho. fin E.
    + destruct (pos_of cs (S o) =? 1); [swp E; fin E|]. destruct (pos_of cs (o - 1) =? 1); [swp E; fin E|].
      apply two_pre; [exact Hn | lia | lia | exact E].
Qed.
Lemma binary_pre : forall q o cs cs1 a k, nn cs -> (0 < o)%nat -> binary_operands q o cs = COk (cs1, a, k) ->
  binary_operands q (d + o) (P ++ cs) = COk (P ++ cs1, a, k) /\ nn cs1.
Proof.
  intros q o cs cs1 a k Hn Ho E. unfold binary_operands in *.
  replace (S (d + o)) with (d + S o)%nat by lia. replace (d + o - 1)%nat with (d + (o - 1))%nat by lia.
  rewrite !pos_pre. pose proof (nn_pos cs (S o) Hn). pose proof (nn_pos cs (o - 1) Hn).
  destruct (pos_of cs (S o) =? -1) eqn:Es.
  - destruct (pos_of cs (o - 1) =? -1) eqn:Ef.
    + rewrite !load_pre, !code_pre by exact Ho. fin E.
    + swp E. destruct (o_alt q).
      * rewrite load_pre, code_pre by exact Ho. fin E.
      * rewrite load_pre, code_pre by exact Ho. swp E. fin E.
  - destruct (pos_of cs (o - 1) =? -1) eqn:Ef.
    + swp E. rewrite load_pre, code_pre by exact Ho. fin E.
    + destruct (pos_of cs (S o) =? 1); [swp E; fin E|]. destruct (pos_of cs (S o) =? 0).
      * destruct (pos_of cs (o - 1) =? 1); [swp E; fin E|].
        swp E. rewrite pos_pre.
        assert (0 <= pos_of c (o - 1)) by (eapply (swap_nonneg 1); [lia | exact Hn | | exact F]; lia).
        swp E. fin E.
      * apply two_pre; [exact Hn | lia | lia | exact E].
Qed.

Lemma resolve_pre : forall o cs cs1 a k, nn cs -> resolve_ex o cs = COk (cs1, a, k) ->
  resolve_ex (d + o) (P ++ cs) = COk (P ++ cs1, a, k) /\ nn cs1.
Proof.
  intros o cs cs1 a k Hn E. unfold resolve_ex in *. rewrite nth_pre. destruct (nth_error cs o) as [[[|?|q x|] p]|]; try discriminate.
  replace (S (d + o)) with (d + S o)%nat by lia. rewrite grown_pre.
  assert (B : o_type q = Binary \/ o_type q = Commute -> (0 < o)%nat -> forall f g,
    (forall c1 a1 b1, f (grown (S o) cs) = COk (c1, a1, b1) -> g (P ++ grown (S o) cs) = COk (P ++ c1, a1, b1) /\ nn c1) ->
    ('(c, b, alt) <~ f (grown (S o) cs) ;; let op := if alt : bool then match o_alt q with Some c => [AAlt c] | None => [] end else [AOp q x] in
        COk (push_to_stack (o - 1) (remove_at (o - 1) 2 c), b ++ op, 2)) = COk (cs1, a, k) ->
    ('(c, b, alt) <~ g (P ++ grown (S o) cs) ;; let op := if alt : bool then match o_alt q with Some c => [AAlt c] | None => [] end else [AOp q x] in
        COk (push_to_stack (d + o - 1) (remove_at (d + o - 1) 2 c), b ++ op, 2)) = COk (P ++ cs1, a, k) /\ nn cs1).
  { intros _ Ho f g Hfg F. apply bind_ok in F. destruct F as ([[c1 a1] b1] & F1 & F2). destruct (Hfg _ _ _ F1) as [-> N1]. cbn [cbind].
    injection F2 as <- <- <-. replace (d + o - 1)%nat with (d + (o - 1))%nat by lia. rewrite remove_pre, push_pre. split; [reflexivity|].
    apply nn_push, nn_remove, N1. }
  destruct (o_type q) eqn:ET.
  - eapply unary_pre; [apply nn_grown, Hn | congruence | exact E].
  - destruct (Nat.eqb_spec o 0) as [|Ho]; [discriminate|]. replace (Nat.eqb (d + o) 0) with false by (symmetry; apply Nat.eqb_neq; lia).
    eapply (B (or_introl eq_refl) ltac:(lia) (binary_operands q o) (binary_operands q (d + o))); [|exact E].
    intros c1 a1 b1 F. apply binary_pre; [apply nn_grown, Hn | lia | exact F].
  - destruct (Nat.eqb_spec o 0) as [|Ho]; [discriminate|]. replace (Nat.eqb (d + o) 0) with false by (symmetry; apply Nat.eqb_neq; lia).
    eapply (B (or_intror eq_refl) ltac:(lia) (commute_operands o) (commute_operands (d + o))); [|exact E].
    intros c1 a1 b1 F. apply commute_pre; [apply nn_grown, Hn | lia | exact F].
  - destruct (Nat.eqb_spec o 0) as [|Ho]; [discriminate|]. replace (Nat.eqb (d + o) 0) with false by (symmetry; apply Nat.eqb_neq; lia).
    replace (d + o - 1)%nat with (d + (o - 1))%nat by lia. eapply unary_pre; [exact Hn | lia | exact E].
Qed.

Lemma first_pre : forall (f : ectx -> bool) cs i, Forall (fun e => f e = false) P ->
  find_first f i (P ++ cs) = option_map (fun o => (d + o)%nat) (find_first f i cs).
Proof.
  intros f cs i H. unfold d. clear -H. revert i. induction H as [|e l E F IH]; intro i; cbn [find_first app length Nat.add].
  - destruct (find_first f i cs); reflexivity.
  - rewrite E. rewrite IH. clear. revert i. induction cs as [|e cs IH]; intro i; cbn [find_first]; [reflexivity|].
    destruct (f e); [cbn; f_equal; lia | apply IH].
Qed.
Lemma last_shift : forall (f : ectx -> bool) cs i, find_last f (S i) cs = option_map S (find_last f i cs).
Proof.
  induction cs as [|e cs IH]; intro i; cbn [find_last]; [reflexivity|]. rewrite (IH (S i)). destruct (find_last f (S i) cs); [reflexivity|].
  destruct (f e); reflexivity.
Qed.
Lemma last_pre : forall (f : ectx -> bool) cs i, Forall (fun e => f e = false) P ->
  find_last f i (P ++ cs) = option_map (fun o => (d + o)%nat) (find_last f i cs).
Proof.
  intros f cs i H. unfold d. clear -H. revert i. induction H as [|e l E F IH]; intro i; cbn [find_last app length Nat.add].
  - destruct (find_last f i cs); reflexivity.
  - rewrite E, IH, last_shift. destruct (find_last f i cs); cbn [option_map]; [f_equal; lia | reflexivity].
Qed.

Lemma phase_pre : forall p l n m cs a r cs1 a1 r1 pa pr, nn cs -> Forall (fun e => due p l e = false) P -> (n <= m)%nat ->
  resolve_phase n p l cs a r = COk (cs1, a1, r1) ->
  resolve_phase m p l (P ++ cs) (pa ++ a) (pr + r) = COk (P ++ cs1, pa ++ a1, pr + r1) /\ nn cs1.
Proof.
  intros p l n; induction n as [|n IH]; intros m cs a r cs1 a1 r1 pa pr Hn Hd Hm E; cbn [resolve_phase] in E.
  - assert (F : (if l then find_first else find_last) (due p l) 0%nat (P ++ cs) =
                option_map (fun o => (d + o)%nat) ((if l then find_first else find_last) (due p l) 0%nat cs))
      by (destruct l; [apply first_pre | apply last_pre]; exact Hd).
    destruct ((if l then find_first else find_last) (due p l) 0%nat cs); [discriminate|]. injection E as <- <- <-.
    destruct m; cbn [resolve_phase]; rewrite F; auto.
  - assert (F : (if l then find_first else find_last) (due p l) 0%nat (P ++ cs) =
                option_map (fun o => (d + o)%nat) ((if l then find_first else find_last) (due p l) 0%nat cs))
      by (destruct l; [apply first_pre | apply last_pre]; exact Hd).
    destruct m as [|m]; [lia|]. cbn [resolve_phase]. rewrite F.
    destruct ((if l then find_first else find_last) (due p l) 0%nat cs) as [o|]; cbn [option_map]; [|injection E as <- <- <-; auto].
    apply bind_ok in E. destruct E as ([[c2 a2] k] & E1 & E2). destruct (resolve_pre _ _ _ _ _ Hn E1) as [-> N2]. cbn [cbind].
    rewrite <- app_assoc, <- Z.add_assoc. apply (IH m); [exact N2 | exact Hd | lia | exact E2].
Qed.
(* the first n levels, where nothing in the prefix is due; what is left of the expression is one operand *)
Lemma levels_pre : forall n p cs a r cs1 a1 r1 pa pr, nn cs ->
  (forall x l, p <= x < p + Z.of_nat n -> Forall (fun e => due x l e = false) P) ->
  resolve_levels n p cs a r = COk (cs1, a1, r1) -> (forall x l, Forall (fun e => due x l e = false) cs1) ->
  resolve_levels n p (P ++ cs) (pa ++ a) (pr + r) = COk (P ++ cs1, pa ++ a1, pr + r1).
Proof.
  induction n as [|n IH]; intros p cs a r cs1 a1 r1 pa pr Hn Hd E Hc; cbn [resolve_levels] in *.
  - injection E as <- <- <-. reflexivity.
  - destruct (length cs <=? 1)%nat eqn:EL.
    + injection E as <- <- <-.
      pose proof (levels_none (S n) p (P ++ cs) (pa ++ a) (pr + r)) as L. cbn [resolve_levels] in L. apply L.
      intros x l Hx. apply Forall_app; split; [apply Hd; lia | apply Hc].
    + apply bind_ok in E. destruct E as ([[c2 a2] r2] & E2 & E). apply bind_ok in E. destruct E as ([[c3 a3] r3] & E3 & E).
      replace (length (P ++ cs) <=? 1)%nat with false by (symmetry; apply Nat.leb_gt; apply Nat.leb_gt in EL; rewrite app_length; lia).
      destruct (phase_pre p true (length cs) (length (P ++ cs)) _ _ _ _ _ _ pa pr Hn ltac:(apply Hd; lia) ltac:(rewrite app_length; lia) E2) as [-> N2]. cbn [cbind].
      destruct (phase_pre p false (length c2) (length (P ++ c2)) _ _ _ _ _ _ pa pr N2 ltac:(apply Hd; lia) ltac:(rewrite app_length; lia) E3) as [-> N3]. cbn [cbind].
      apply (IH (p + 1) c3 a3 r3 cs1 a1 r1 pa pr N3); [|exact E | exact Hc]. intros x l Hx; apply Hd; lia.
Qed.
End Prefix.

(* ---------------------------------------------------------------- levels at which nothing is due *)
Section Last.
Context {leaf : Type}.
Notation ectx := (ectx leaf).
Definition kop (Q : oper -> Prop) (k : kind leaf) : Prop := match k with KOp q _ => Q q | _ => True end.
Lemma phase_keeps : forall (Q : oper -> Prop) p l n (cs : list ectx) a r cs1 a1 r1, nn (kop Q) cs -> resolve_phase n p l cs a r = COk (cs1, a1, r1) ->
  nn (kop Q) cs1 /\ Forall (fun e => due p l e = false) cs1.
Proof.
  intros Q p l n cs a r cs1 a1 r1 Hn E. split.
  - eapply (phase_pre [] (Forall_nil _) (kop Q) I I p l n n cs a r cs1 a1 r1 [] 0 Hn); [constructor | lia | exact E].
  - clear Hn. revert cs a r E. induction n as [|n IH]; intros cs a r E; cbn [resolve_phase] in E.
    + pose proof (find_first_spec (due p l) cs 0%nat) as F1. pose proof (find_last_spec (due p l) cs 0%nat) as F2.
      destruct l; [destruct (find_first (due p true) 0%nat cs) | destruct (find_last (due p false) 0%nat cs)]; try discriminate; injection E as <- _ _; assumption.
    + pose proof (find_first_spec (due p l) cs 0%nat) as F1. pose proof (find_last_spec (due p l) cs 0%nat) as F2.
      destruct l; [destruct (find_first (due p true) 0%nat cs) | destruct (find_last (due p false) 0%nat cs)];
        try (injection E as <- _ _; assumption); apply bind_ok in E; destruct E as ([[c2 a2] k] & E1 & E2); eapply IH; exact E2.
Qed.
Lemma nn_and : forall (K L : kind leaf -> Prop) (cs : list ectx), nn K cs -> Forall (fun e => L (e_kind e)) cs -> nn (fun k => K k /\ L k) cs.
Proof. intros K L cs H1 H2. unfold nn in *. induction H1; inversion H2; subst; constructor; tauto. Qed.
Lemma nn_weak : forall (K L : kind leaf -> Prop) (cs : list ectx), (forall k, K k -> L k) -> nn K cs -> nn L cs.
Proof. intros K L cs H. unfold nn. apply Forall_impl. intros e []; auto. Qed.
Lemma due_not : forall p l (e : ectx), due p l e = false <-> kop (fun q => ~ (o_prec q <= p /\ o_l2r q = l)) (e_kind e).
Proof.
  intros p l e. unfold due, kop. destruct (e_kind e) as [|?|q x|]; try (split; auto; fail).
  destruct (Z.leb_spec (o_prec q) p), (Bool.eqb_spec (o_l2r q) l); cbn; split; intros; try discriminate; try reflexivity; try tauto; lia.
Qed.
Lemma levels_last : forall n p (cs : list ectx) a r cs1 a1 r1, nn (kop (fun q => p <= o_prec q < p + Z.of_nat n)) cs ->
  resolve_levels (S n) p cs a r = COk (cs1, a1, r1) -> resolve_levels n p cs a r = COk (cs1, a1, r1).
Proof.
  induction n as [|n IH]; intros p cs a r cs1 a1 r1 Hn E.
  - rewrite levels_none in E; [exact E|]. intros x l Hx. unfold nn in Hn. revert Hn; apply Forall_impl. intros e [_ H]. apply due_not.
    unfold kop in *. destruct (e_kind e); auto. lia.
  - cbn [resolve_levels] in *. destruct (length cs <=? 1)%nat; [exact E|].
    apply bind_ok in E. destruct E as ([[c2 a2] r2] & E2 & E). apply bind_ok in E. destruct E as ([[c3 a3] r3] & E3 & E).
    rewrite E2; cbn [cbind]. rewrite E3; cbn [cbind]. destruct (phase_keeps _ _ _ _ _ _ _ _ _ _ Hn E2) as [N2 D2].
    assert (N2' : nn (kop (fun q => (p <= o_prec q < p + Z.of_nat (S n)) /\ ~ (o_prec q <= p /\ o_l2r q = true))) c2).
    { eapply nn_weak; [|apply (nn_and _ (kop (fun q => ~ (o_prec q <= p /\ o_l2r q = true))) _ N2)].
      - intros [| | |]; cbn; tauto.
      - revert D2; apply Forall_impl; intros e He; apply due_not, He. }
    destruct (phase_keeps _ _ _ _ _ _ _ _ _ _ N2' E3) as [N3 D3].
    apply IH; [|exact E]. eapply nn_weak; [|apply (nn_and _ (kop (fun q => ~ (o_prec q <= p /\ o_l2r q = false))) _ N3)].
    + intros [|?|q x|]; cbn; auto. intros [[H1 H2] H3]. destruct (o_l2r q); lia.
    + revert D3; apply Forall_impl; intros e He; apply due_not, He.
Qed.
End Last.

(* ---------------------------------------------------------------- assignments *)
Section Assign.
Context {leaf : Type}.
Notation ectx := (ectx leaf).
Lemma levels_more : forall n p (cs : list ectx) a r cs1 a1 r1, resolve_levels n p cs a r = COk (cs1, a1, r1) ->
  resolve_levels (S n) p cs a r = resolve_levels 1 (p + Z.of_nat n) cs1 a1 r1.
Proof.
  induction n as [|n IH]; intros p cs a r cs1 a1 r1 E.
  - cbn [resolve_levels] in E. injection E as <- <- <-. rewrite Z.add_0_r. reflexivity.
  - change (resolve_levels (S (S n)) p cs a r) with (if (length cs <=? 1)%nat then COk (cs, a, r)
      else '(cs1, a1, r1) <~ resolve_phase (length cs) p true cs a r ;; '(cs2, a2, r2) <~ resolve_phase (length cs1) p false cs1 a1 r1 ;; resolve_levels (S n) (p + 1) cs2 a2 r2).
    cbn [resolve_levels] in E. destruct (length cs <=? 1)%nat eqn:EL.
    + injection E as <- <- <-. cbn [resolve_levels]. rewrite EL. reflexivity.
    + apply bind_ok in E. destruct E as ([[c2 a2] r2] & E2 & E). apply bind_ok in E. destruct E as ([[c3 a3] r3] & E3 & E).
      rewrite E2; cbn [cbind]. rewrite E3; cbn [cbind]. rewrite (IH _ _ _ _ _ _ _ E). f_equal. lia.
Qed.
Lemma good_keys : forall t : itree leaf, good t -> Forall (opf (fun k => 0 <= k <= lvl t)) (flat t).
Proof.
  assert (W : forall (l : list (it leaf)) n m, n <= m -> Forall (opf (fun k => 0 <= k <= n)) l -> Forall (opf (fun k => 0 <= k <= m)) l).
  { intros l n m H. apply Forall_impl. intros [?|q x]; cbn; [auto | lia]. }
  induction t as [l|q x t IH|q l IHl r IHr]; cbn [good flat lvl]; intro G.
  - repeat constructor.
  - destruct G as (G & Hk & HT). specialize (IH G). destruct (o_type q) eqn:ET; try contradiction.
    + constructor; [cbn; lia|]. eapply W; [|exact IH]. lia.
    + apply Forall_app. split; [eapply W; [|exact IH]; lia | repeat constructor; cbn; lia].
  - destruct G as (Gl & Gr & Hk & _ & HT & _). specialize (IHl Gl). specialize (IHr Gr).
    apply Forall_app. split; [eapply W; [|exact IHl]; destruct (o_l2r q); lia|].
    constructor; [cbn; lia|]. eapply W; [|exact IHr]. destruct (o_l2r q); lia.
Qed.
Lemma last_level : forall (x : leaf) q k p a r, o_prec q = 16 -> o_type q = Binary -> o_code q <> O_HASH_PLACEHOLDER ->
  (k = KResolved /\ p = 0) \/ (exists y, k = KLeaf y /\ p = -1) ->
  exists cs, resolve_levels 1 16 [mkE (KLeaf x) (-1); mkE (KOp q []) (-1); mkE k p] a r =
    COk (cs, a ++ (match k with KLeaf y => [ALoad y] | _ => [] end) ++ [ALoad x; AOp q []], r + 2).
Proof.
  intros x q k p a r Hp Ht Hh Hk.
  assert (HH : op_eqb (o_code q) O_HASH_PLACEHOLDER = false) by (destruct (o_code q); try reflexivity; congruence).
  destruct q as [tok pr code l2r ty alt]. cbn [o_prec o_type o_code] in *. subst pr ty.
  destruct Hk as [[-> ->] | (y & -> & ->)]; destruct l2r; eexists; cbn -[op_eqb]; unfold load_code, is_hash; cbn -[op_eqb];
    rewrite ?HH; cbn -[op_eqb]; rewrite <- ?app_assoc; reflexivity.
Qed.
Lemma assign_parse : forall (t : tree leaf) x s q acts, shaped t -> (length (text t) <= 255)%nat -> looseness t <= 11 ->
  later_found s = Some q -> o_prec q = 16 -> o_type q = Binary -> o_code q <> O_HASH_PLACEHOLDER ->
  parse_expression (text t) = COk acts ->
  parse_expression (text (Infix s (Atom x) t)) = COk (acts ++ [ALoad x; AOp q []]).
Proof.
  intros t x s q acts Ht Hl Hlo Hq Hp Hty Hh E.
  assert (EC : parse_expression (text (Infix s (Atom x) t)) = resolve_expression (mkE (KLeaf x) (-1) :: mkE (KOp q []) (-1) :: map ectx_of (flat (tr t)))).
  { unfold parse_expression. cbn [text app contexts cbind]. rewrite found_later by exact I. rewrite Hq. cbn [cbind].
    destruct (contexts_text t Ht [] (Some (mkE (KOp q []) (-1)))) as (e & _ & Ee); [left; cbn; rewrite Hty; reflexivity|].
    rewrite app_nil_r in Ee. rewrite Ee. cbn [contexts cbind]. rewrite app_nil_r. reflexivity. }
  rewrite EC. rewrite (parse_text t Ht) in E.
  unfold resolve_expression at 1. change (Z.to_nat c_highestPrecedence) with 17%nat.
  set (P := [mkE (KLeaf x) (-1); mkE (KOp q []) (-1)]).
  change (mkE (KLeaf x) (-1) :: mkE (KOp q []) (-1) :: map ectx_of (flat (tr t))) with (P ++ map ectx_of (flat (tr t))).
  destruct (shaped_good t Ht) as (G & Hr & Hlv & Hleg).
  assert (HK : K (looseness t) <= 30).
  { pose proof (proj2 (K_mono (looseness t) 11 Hr ltac:(lia)) Hlo) as H. exact H. }
  assert (Hd : forall y l, 0 <= y < 0 + Z.of_nat 16 -> Forall (fun e => due y l e = false) P).
  { intros y l Hy. unfold P. constructor; [reflexivity|]. constructor; [|constructor]. unfold due. cbn [e_kind]. rewrite Hp. replace (16 <=? y) with false by lia. reflexivity. }
  assert (HP : Forall (fun e => e_pos e = -1) P) by (repeat constructor).
  set (cs := map ectx_of (flat (tr t))) in *.
  assert (Hn : nn (kop (fun q => 0 <= o_prec q < 0 + Z.of_nat 16)) cs).
  { unfold nn, cs. rewrite Forall_map. pose proof (good_keys (tr t) G) as Hk. pose proof (flat_plain (tr t)) as Hpl.
    apply Forall_forall. intros i Hi. rewrite Forall_forall in Hk, Hpl. specialize (Hk i Hi). specialize (Hpl i Hi).
    destruct i as [[l|? ? ?|? ? ?]|q0 x0]; try contradiction; (split; [cbn; lia|]); cbn; [exact I|]. cbn in Hk. unfold key in Hk. destruct (o_l2r q0); lia. }
  assert (Main : exists k p a r, resolve_levels 16 0 (P ++ cs) [] 1 = COk (P ++ [mkE k p], a, r) /\
    ((k = KResolved /\ p = 0) \/ (exists y, k = KLeaf y /\ p = -1)) /\ a ++ (match k with KLeaf y => [ALoad y] | _ => [] end) = acts /\ r = lenZ cs).
  { assert (NA : (forall l, tr t <> A l) -> exists a r, resolve_levels 16 0 (P ++ cs) [] 1 = COk (P ++ [mkE KResolved 0], a, r) /\ a = acts /\ r = lenZ cs).
    { intro NA. pose proof (flat_len (tr t) G NA) as Hlen. unfold resolve_expression in E. fold cs in E. change (Z.to_nat c_highestPrecedence) with 17%nat in E.
      assert (Hlc : (1 < length cs)%nat) by (unfold cs; rewrite map_length; exact Hlen).
      assert (E' : ('(_, a, r) <~ resolve_levels 17 0 cs [] 1 ;; if negb (lenZ cs =? 0) && negb (r =? lenZ cs) then CErr E_bad_expression else COk a) = COk acts).
      { destruct cs as [|e1 [|e2 es]]; [cbn in Hlc; lia | cbn in Hlc; lia | exact E]. }
      clear E. apply bind_ok in E'. destruct E' as ([[c a] r] & E1 & E2).
      destruct (negb (lenZ cs =? 0) && negb (r =? lenZ cs)) eqn:ER; [discriminate|]. injection E2 as ->.
      assert (r = lenZ cs) as -> by (unfold lenZ in *; lia).
      assert (HS : state (fun _ : leaf => tt) (fun _ => tt) (fun _ _ _ => tt) (fun _ _ _ => tt) (tr t) (1 + lenZ (flat (tr t))) (2 * 0) cs [] 1 (flat (tr t))).
      { exists []. split; [apply inv_init, flat_plain|]. destruct (flat_part (tr t) G) as [Pp Pf].
        repeat split; auto; [rewrite flat_text by exact Ht; exact Hl | intros _ n m []]. }
      pose proof (levels_ok (fun _ : leaf => tt) (fun _ => tt) (fun _ _ _ => tt) (fun _ _ _ => tt)
        ltac:(intros q0 Hq0 Hc; split; [reflexivity | exact (proj2 (proj1 (Forall_forall _ _) com_table q0 Hq0 Hc))]) ltac:(reflexivity)
        (tr t) _ G 17 0 cs [] 1 _ ltac:(lia) ltac:(lia) HS) as LO.
      rewrite E1 in LO. cbn [outcome] in LO.
      destruct LO as (st & _ & Iv & _); [right; intros [] []; reflexivity|].
      assert (c = [mkE KResolved 0]) as ->.
      { destruct Iv as [If Ip]. inversion If as [|e0 s0 cs0 ? R T0 Ec Ee]; subst. inversion T0; subst.
        assert (R2 : rel st e0 (SVal tt)) by (destruct (tr t) as [l| |]; [exfalso; eapply NA; reflexivity | exact R | exact R]).
        inversion R2 as [| |pp vv Hp0 Hn0]; subst. rewrite locs_cons in Ip.
        cbn [e_pos] in Ip. replace (pp =? -1) with false in Ip by lia. cbn [app locs] in Ip.
        pose proof (Permutation_length Ip) as Ipl. rewrite length_zseq in Ipl. cbn in Ipl.
        rewrite <- Ipl in Ip. cbn in Ip. apply Permutation_length_1 in Ip. subst pp. reflexivity. }
      exists acts, (lenZ cs). split; [|split; reflexivity].
      apply levels_last in E1; [|exact Hn].
      eapply (levels_pre P HP (kop (fun q => 0 <= o_prec q < 0 + Z.of_nat 16)) I I 16 0 cs [] 1 _ _ _ [] 0 Hn Hd E1).
      intros; repeat constructor. }
    destruct (tr t) as [y|q0 x0 t0|q0 l0 r0] eqn:ET.
    - exists (KLeaf y), (-1), [], 1. cbn in E. injection E as <-. split; [|split; [right; eauto | split; reflexivity]].
      apply levels_none. intros z l Hz. apply Forall_app. split; [apply Hd; exact Hz | repeat constructor].
    - destruct NA as (a & r & E1 & Ea & Er); [discriminate|]. exists KResolved, 0, a, r. rewrite app_nil_r. auto.
    - destruct NA as (a & r & E1 & Ea & Er); [discriminate|]. exists KResolved, 0, a, r. rewrite app_nil_r. auto. }
  destruct Main as (k & p & a & r & E1 & Hk & Ea & Er).
  destruct (P ++ cs) as [|e1 [|e2 es]] eqn:EP; [discriminate | discriminate|]. rewrite <- EP in *.
  assert (HL : lenZ (P ++ cs) = r + 2) by (unfold P, lenZ in *; rewrite app_length; cbn [length]; lia).
  rewrite HL, (levels_more _ _ _ _ _ _ _ _ E1). change (0 + Z.of_nat 16) with 16. unfold P; cbn [app].
  destruct (last_level x q k p a r Hp Hty Hh Hk) as (c & ->). cbn [cbind].
  rewrite Z.eqb_refl, andb_false_r. rewrite app_assoc, Ea. reflexivity.
Qed.
End Assign.
