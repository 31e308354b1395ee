(* The bound on the recursion of the operators does not matter: what ends with one bound ends alike with
   every greater one. *)
From Verif Require Import Base HashModel FloatModel OpsModel ArrayModel VmModel.

Definition below {A} (x y : res A) : Prop := forall a, x = Ok a -> y = Ok a.
Lemma below_refl {A} (x : res A) : below x x. Proof. now intros a. Qed.
Lemma below_bind {A B} (x y : res A) (f g : A -> res B) : below x y -> (forall a, below (f a) (g a)) -> below (bind x f) (bind y g).
Proof. intros H K b. destruct x as [a| |]; cbn; try discriminate. rewrite (H a eq_refl). apply K. Qed.
Lemma below_fuel {A} (y : res A) : below OutOfFuel y. Proof. discriminate. Qed.

Ltac grow := repeat first
  [ apply below_fuel
  | apply below_refl
  | match goal with H : _ |- below _ _ => apply H; lia end
  | apply below_bind; [|intros]
  | progress cbv zeta
  | match goal with |- below (match ?x with _ => _ end) (match ?x with _ => _ end) => destruct x end ].
Ltac grow_rec n IH := induction n as [|n IH]; intros k LE; intros; [apply below_fuel|]; destruct k as [|k]; [lia|]; apply le_S_n in LE.

Section Depth.
Variable pbits : value -> Z.
Variable obj_hash : mem -> value -> Z.
Variable as_string : mem -> value -> list Z.
Variable trap : bool.

Lemma deref_deep : forall n k, (n <= k)%nat -> forall l m, below (deref pbits n l m) (deref pbits k l m).
Proof. grow_rec n IH. cbn [deref]. grow. Qed.
Lemma get_hash_deep : forall n k, (n <= k)%nat -> forall l m, below (get_hash pbits obj_hash n l m) (get_hash pbits obj_hash k l m).
Proof. grow_rec n IH. pose proof deref_deep as D'. cbn [get_hash]. grow. Qed.
Lemma single_deep : forall n k, (n <= k)%nat -> forall l m, below (single_value pbits obj_hash n l m) (single_value pbits obj_hash k l m).
Proof. intros n k LE l m. pose proof deref_deep as D'. pose proof get_hash_deep. unfold single_value. grow. Qed.
Lemma to_ex_deep n k (f g : vtype -> vtype -> loc -> loc -> mem -> res mem) : (n <= k)%nat -> (forall t u a b m, below (f t u a b m) (g t u a b m)) ->
  forall e v m, below (value_to_ex pbits f n e v m) (value_to_ex pbits g k e v m).
Proof. intros LE FG e v m. pose proof deref_deep. unfold value_to_ex. grow. Qed.
Lemma assign_deep : forall n k, (n <= k)%nat -> forall t f a b m, below (wr_assign pbits n t f a b m) (wr_assign pbits k t f a b m).
Proof.
  grow_rec n IH. pose proof deref_deep. assert (V : forall e v m, below (value_to_ex pbits (wr_assign pbits n) n e v m) (value_to_ex pbits (wr_assign pbits k) k e v m)).
  { apply to_ex_deep; [lia|]. intros. apply IH. lia. }
  cbn [wr_assign]. grow.
Qed.
Lemma ex_deep : forall n k, (n <= k)%nat -> forall e v m, below (wr_valueToEx pbits n e v m) (wr_valueToEx pbits k e v m).
Proof. intros. apply to_ex_deep; [lia|]. intros. apply assign_deep. lia. Qed.
Lemma arith_deep o : forall n k, (n <= k)%nat -> forall t f a b c m, below (arith_binary pbits obj_hash trap o n t f a b c m) (arith_binary pbits obj_hash trap o k t f a b c m).
Proof. grow_rec n IH. pose proof single_deep. cbn [arith_binary]. grow.
Qed.
Lemma add_deep : forall n k, (n <= k)%nat -> forall t f a b c m, below (add_binary pbits obj_hash as_string trap n t f a b c m) (add_binary pbits obj_hash as_string trap k t f a b c m).
Proof. grow_rec n IH. pose proof single_deep. pose proof deref_deep. cbn [add_binary]. grow. Qed.
Lemma int_deep o : forall n k, (n <= k)%nat -> forall t f a b c m, below (int_binary pbits obj_hash o n t f a b c m) (int_binary pbits obj_hash o k t f a b c m).
Proof. grow_rec n IH. pose proof single_deep. pose proof deref_deep. cbn [int_binary]. grow. Qed.
Lemma compare_deep o : forall n k, (n <= k)%nat -> forall t f a b m, below (compare pbits obj_hash o n t f a b m) (compare pbits obj_hash o k t f a b m).
Proof. grow_rec n IH. pose proof single_deep. cbn [compare]. grow. Qed.
Lemma logic_deep o : forall n k, (n <= k)%nat -> forall t f a b m, below (logic_assign pbits obj_hash o n t f a b m) (logic_assign pbits obj_hash o k t f a b m).
Proof. grow_rec n IH. pose proof single_deep. pose proof deref_deep. pose proof ex_deep. cbn [logic_assign]. grow. Qed.
Lemma compound_deep cat o : forall n k, (n <= k)%nat -> forall t f a b m, below (arith_assign pbits obj_hash as_string trap cat o n t f a b m) (arith_assign pbits obj_hash as_string trap cat o k t f a b m).
Proof. grow_rec n IH. pose proof single_deep. pose proof deref_deep. pose proof ex_deep. cbn [arith_assign]. grow. Qed.
Lemma pre_deep d : forall n k, (n <= k)%nat -> forall t l m, below (unary_pre pbits obj_hash d n t l m) (unary_pre pbits obj_hash d k t l m).
Proof. grow_rec n IH. pose proof single_deep. pose proof ex_deep. cbn [unary_pre]. grow. Qed.
Lemma post_deep d : forall n k, (n <= k)%nat -> forall t l r m, below (unary_post pbits obj_hash d n t l r m) (unary_post pbits obj_hash d k t l r m).
Proof. grow_rec n IH. pose proof single_deep. pose proof ex_deep. cbn [unary_post]. grow. Qed.
Lemma not_deep : forall n k, (n <= k)%nat -> forall t l m, below (logical_not pbits obj_hash n t l m) (logical_not pbits obj_hash k t l m).
Proof. grow_rec n IH. pose proof single_deep. cbn [logical_not]. grow. Qed.
Lemma negate_deep : forall n k, (n <= k)%nat -> forall t l r m, below (negate pbits obj_hash n t l r m) (negate pbits obj_hash k t l r m).
Proof. grow_rec n IH. pose proof single_deep. cbn [negate]. grow. Qed.
Lemma bitnot_deep : forall n k, (n <= k)%nat -> forall t l m, below (bitwise_not pbits obj_hash n t l m) (bitwise_not pbits obj_hash k t l m).
Proof. grow_rec n IH. pose proof single_deep. cbn [bitwise_not]. grow. Qed.
Lemma bin_deep b : forall n k, (n <= k)%nat -> forall l r t m, below (eval_bin pbits obj_hash as_string trap b n l r t m) (eval_bin pbits obj_hash as_string trap b k l r t m).
Proof. intros. pose proof add_deep. pose proof arith_deep. pose proof int_deep. unfold eval_bin. grow. Qed.
Lemma eval_assign_deep b : forall n k, (n <= k)%nat -> forall l r m, below (eval_assign pbits obj_hash as_string trap b n l r m) (eval_assign pbits obj_hash as_string trap b k l r m).
Proof. intros. pose proof compound_deep. pose proof logic_deep. unfold eval_assign. grow. Qed.
Lemma cmp_deep c : forall n k, (n <= k)%nat -> forall l r m, below (eval_cmp pbits obj_hash c n l r m) (eval_cmp pbits obj_hash c k l r m).
Proof. intros. pose proof compare_deep. unfold eval_cmp. grow. Qed.
Lemma eval_pre_deep d : forall n k, (n <= k)%nat -> forall l m, below (eval_pre pbits obj_hash d n l m) (eval_pre pbits obj_hash d k l m).
Proof. intros. pose proof pre_deep. unfold eval_pre. grow. Qed.
Lemma eval_post_deep d : forall n k, (n <= k)%nat -> forall l m, below (eval_post pbits obj_hash d n l m) (eval_post pbits obj_hash d k l m).
Proof. intros. pose proof post_deep. unfold eval_post. grow. Qed.
Lemma asInt_deep : forall n k, (n <= k)%nat -> forall l m, below (asInt pbits n l m) (asInt pbits k l m).
Proof. intros. pose proof deref_deep. unfold asInt. grow. Qed.
Lemma as_float_deep : forall n k, (n <= k)%nat -> forall l m, below (as_float pbits n l m) (as_float pbits k l m).
Proof. intros. pose proof deref_deep. unfold as_float. grow. Qed.

Variable hash_index : loc -> loc -> loc -> mem -> res mem.
Variable new_table : loc -> mem -> mem.
Lemma index_I_E_deep : forall n k, (n <= k)%nat -> forall i v t m, below (index_I_E pbits hash_index new_table n i v t m) (index_I_E pbits hash_index new_table k i v t m).
Proof. intros. pose proof deref_deep. unfold index_I_E. grow. Qed.
Lemma index_E_I_deep : forall n k, (n <= k)%nat -> forall i v t m, below (index_E_I pbits hash_index new_table n i v t m) (index_E_I pbits hash_index new_table k i v t m).
Proof. intros. pose proof deref_deep. unfold index_E_I. grow. Qed.
Lemma index_E_E_deep : forall n k, (n <= k)%nat -> forall i v t m, below (index_E_E pbits hash_index new_table n i v t m) (index_E_E pbits hash_index new_table k i v t m).
Proof. intros. pose proof deref_deep. pose proof index_I_E_deep. unfold index_E_E. grow. Qed.
Lemma wr_index_deep : forall n k, (n <= k)%nat -> forall ti tv i v t m, below (wr_index pbits hash_index new_table n ti tv i v t m) (wr_index pbits hash_index new_table k ti tv i v t m).
Proof. grow_rec n IH. pose proof index_I_E_deep. pose proof index_E_I_deep. pose proof index_E_E_deep. cbn [wr_index]. grow. Qed.
Lemma op_index_deep : forall n k, (n <= k)%nat -> forall i v t m, below (op_index pbits hash_index new_table n i v t m) (op_index pbits hash_index new_table k i v t m).
Proof. intros. pose proof wr_index_deep. unfold op_index. grow. Qed.

Variable lib_fn : Z -> option (nat -> nat -> mem -> res (mem * bool)).
Variable native_fn : Z -> option (nat -> nat -> mem -> res mem).
Variable ext : opcode -> vm -> res outcome.
Variable code : list Z.
Variable funs : list fn.
Variable base limit : nat.
Variable protect slices : bool.
Notation exec := (exec pbits obj_hash as_string trap hash_index new_table lib_fn native_fn ext code funs base limit protect slices).
Notation step := (step pbits obj_hash as_string trap hash_index new_table lib_fn native_fn ext code funs base limit protect slices).

Lemma exec_deep n k i s : (n <= k)%nat -> below (exec n i s) (exec k i s).
Proof.
  intros LE. pose proof deref_deep. pose proof get_hash_deep. pose proof single_deep. pose proof assign_deep. pose proof bin_deep. pose proof eval_assign_deep.
  pose proof cmp_deep. pose proof eval_pre_deep. pose proof eval_post_deep. pose proof not_deep. pose proof negate_deep. pose proof bitnot_deep.
  pose proof asInt_deep. pose proof as_float_deep. pose proof op_index_deep.
  destruct i; unfold VmModel.exec, need; grow.
Qed.
Theorem step_deep n k s : (n <= k)%nat -> below (step n s) (step k s).
Proof. intros LE. unfold VmModel.step. destruct (decode code (vpc s)) as [[i q]|]; [apply exec_deep; exact LE|apply below_refl]. Qed.
End Depth.
