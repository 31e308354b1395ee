(* C45: distinct keys address distinct entries. *)
From Verif Require Import Base BaseLemmas HashModel HashProofs HashTableModel HashTableSpec HashTableProofs HashTableProofs2 HashTableProps HashKeyModel HashKeySpec.

Lemma status_lower {V} k (ops : list (kop V)) :
  (forall o, In o ops -> key_hash (kop_key o) = key_hash k -> kop_key o = k) ->
  forall s, fold_left (spec_step (key_hash k)) (map lower ops) s = fold_left (key_step k) ops s.
Proof.
  induction ops as [|o ops IH]; intros H s; [reflexivity|]. cbn [map fold_left]. rewrite IH by (intros; apply H; [now right|auto]).
  f_equal. specialize (H o (or_introl eq_refl)). unfold key_step. destruct (key_eq_dec (kop_key o) k) as [E|E].
  - destruct o; cbn in *; subst; rewrite Z.eqb_refl; reflexivity.
  - assert (N: key_hash (kop_key o) <> key_hash k) by auto. destruct o; cbn in *; rewrite (proj2 (Z.eqb_neq _ _)) by auto; reflexivity.
Qed.

(* whenever no other key of the history has the same 32-bit hash as k, k is independent of the others *)
Theorem keys_independent_partial : forall (V : Type) (zero : V) (hint : Z) (ops : list (kop V)) (t0 t : table V) (k : key),
  0 <= hint < 49157 -> Forall (fun o => key_ok (key_hash (kop_key o))) ops -> key_ok (key_hash k) ->
  (forall o, In o ops -> key_hash (kop_key o) = key_hash k -> kop_key o = k) ->
  ht_init zero hint = Some t0 -> k_run zero t0 ops = Some t ->
  match key_status ops k with
  | Absent => k_find zero t k = None
  | PresentDefault => exists v, k_find zero t k = Some v
  | Present v => k_find zero t k = Some v
  end.
Proof.
  intros V zero hint ops t0 t k Hh Ho Hk Hi E0 E. unfold key_status. rewrite <- (status_lower k ops Hi).
  apply (hash_table_refines_map V zero hint (map lower ops) t0 t Hh); auto.
  apply Forall_map. eapply Forall_impl; [|exact Ho]. intros []; auto.
Qed.

(* in particular: a table used with integer keys only, or with float keys only, is a map *)
Theorem number_keys_independent : forall (V : Type) (zero : V) (hint : Z) (ops : list (kop V)) (t0 t : table V) (k : key),
  0 <= hint < 49157 ->
  Forall (fun o => is_int (kop_key o)) ops /\ is_int k \/ Forall (fun o => is_flt (kop_key o)) ops /\ is_flt k ->
  Forall (fun o => key_hash (kop_key o) <> NULL_HASH) ops -> key_hash k <> NULL_HASH ->
  ht_init zero hint = Some t0 -> k_run zero t0 ops = Some t ->
  match key_status ops k with
  | Absent => k_find zero t k = None
  | PresentDefault => exists v, k_find zero t k = Some v
  | Present v => k_find zero t k = Some v
  end.
Proof.
  intros V zero hint ops t0 t k Hh Hs Hn Hk E0 E. rewrite Forall_forall in Hn.
  eapply keys_independent_partial; eauto.
  - apply Forall_forall. intros o Ho. split; [|now apply Hn]. destruct Hs as [[Hs _]|[Hs _]]; rewrite Forall_forall in Hs; specialize (Hs o Ho); destruct (kop_key o); cbn in *; tauto.
  - split; auto. destruct Hs as [[_ Hs]|[_ Hs]]; destruct k; cbn in *; tauto.
  - intros o Ho. destruct Hs as [[Hs1 Hs]|[Hs1 Hs]]; rewrite Forall_forall in Hs1; specialize (Hs1 o Ho); destruct (kop_key o), k; cbn in *; try tauto; intros ->; auto.
Qed.
Example number_keys_ex :
  let ops := [KSet (KInt 7) 1; KSet (KInt 4294967295) 2; KGet (KInt 9); KSet (KInt 7) 3; KRemove (KInt 4294967295)] in
  Forall (fun o => is_int (kop_key o)) ops /\ Forall (fun o => key_hash (kop_key o) <> NULL_HASH) ops /\
  match ht_init 0 0 with Some t0 => match k_run 0 t0 ops with Some t => map (k_find 0 t) [KInt 7; KInt 4294967295; KInt 9; KInt 8] | _ => [] end | _ => [] end
  = [Some 3; None; Some 0; None].
Proof. cbv zeta. split; [repeat constructor; discriminate || reflexivity|]. split; [repeat constructor; discriminate|]. vm_compute. reflexivity. Qed.

(* h[1.0] and h[1065353216] are the same entry *)
Theorem int_float_keys_collide_refuted : exists (ops : list (kop Z)) (t0 t : table Z) (k k' : key),
  k <> k' /\ ht_init 0 0 = Some t0 /\ k_run 0 t0 ops = Some t /\
  key_status ops k = Present 10 /\ k_find 0 t k = Some 20 /\ key_status ops k' = Present 20.
Proof.
  exists [KSet (KFlt 1065353216) 10; KSet (KInt 1065353216) 20].
  eexists. eexists. exists (KFlt 1065353216), (KInt 1065353216).
  split; [discriminate|]. split; [reflexivity|]. split; [vm_compute; reflexivity|]. repeat split; vm_compute; reflexivity.
Qed.
(* h["costarring"] and h["liquid"] are the same entry *)
Theorem string_keys_collide_refuted : exists (ops : list (kop Z)) (t0 t : table Z) (k k' : list Z),
  k <> k' /\ ht_init 0 0 = Some t0 /\ k_run 0 t0 ops = Some t /\
  key_status ops (KStr k) = Present 10 /\ k_find 0 t (KStr k) = Some 20.
Proof.
  exists [KSet (KStr [99;111;115;116;97;114;114;105;110;103]) 10; KSet (KStr [108;105;113;117;105;100]) 20].
  eexists. eexists. exists [99;111;115;116;97;114;114;105;110;103], [108;105;113;117;105;100].
  split; [discriminate|]. split; [reflexivity|]. split; [vm_compute; reflexivity|]. split; vm_compute; reflexivity.
Qed.
(* the two zeroes: equal numbers, different entries *)
Theorem zero_keys_differ_refuted : exists (ops : list (kop Z)) (t0 t : table Z),
  ht_init 0 0 = Some t0 /\ k_run 0 t0 ops = Some t /\ k_find 0 t (KFlt 0) = Some 10 /\ k_find 0 t (KFlt 2147483648) = Some 20.
Proof.
  exists [KSet (KFlt 0) 10; KSet (KFlt 2147483648) 20]. eexists. eexists. split; [reflexivity|]. split; [vm_compute; reflexivity|]. split; vm_compute; reflexivity.
Qed.
(* strings that differ in exactly one byte never collide *)
Theorem close_string_keys_distinct : forall (s : list Z) (i : nat) (b c : Z),
  bytes_ok s -> is_byte b -> nth_error s i = Some c -> c <> b -> key_hash (KStr (upd s i b)) <> key_hash (KStr s).
Proof.
  intros s i b c Hs Hb Hn Hc. cbn [key_hash]. unfold wr_hash. apply (fnv_fold_change s i b c); auto. vm_compute. split; discriminate || reflexivity.
Qed.
Example close_string_keys_ex : nth_error [104;105] 1 = Some 105 /\ 105 <> 111 /\ bytes_ok [104;105].
Proof. split; [reflexivity|]. split; [discriminate|]. repeat constructor; discriminate. Qed.
Print Assumptions close_string_keys_distinct.
Print Assumptions keys_independent_partial.
Print Assumptions number_keys_independent.
Print Assumptions int_float_keys_collide_refuted.
Print Assumptions string_keys_collide_refuted.
Print Assumptions zero_keys_differ_refuted.
