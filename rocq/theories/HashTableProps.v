(* C01-C05: script hash tables. *)
From Verif Require Import Base HashTableModel HashTableSpec HashTableProofs HashTableProofs2.

(* a sample history used by the non-vacuity examples: collisions and two growths *)
Definition sample_ops : list (op Z) :=
  [OpSet 0 10; OpSet 2 20; OpSet 4 30; OpSet 6 40; OpGet 9; OpSet 2 21; OpRemove 4; OpSet 11 50].
Definition sample_table : option (table Z) :=
  match ht_init 0 0 with None => None | Some t => ht_run 0 t sample_ops end.
Example sample_ops_ok : ops_ok sample_ops.
Proof. repeat constructor; cbn; discriminate || reflexivity. Qed.
Example sample_runs : option_map t_mod sample_table = Some 11.
Proof. vm_compute. reflexivity. Qed.

(* ---- C01/C02 ---- after any history of writes, reads and removals, an existence check
   designates exactly what the history says: the last written value, absence after removal *)
Theorem hash_table_refines_map :
  forall (V : Type) (zero : V) (hint : Z) (ops : list (op V)) (t0 t : table V),
  0 <= hint < 49157 -> ops_ok ops ->
  ht_init zero hint = Some t0 -> ht_run zero t0 ops = Some t ->
  forall k, key_ok k ->
    match spec_status ops k with
    | Absent => snd (ht_exists zero t k false) = None
    | PresentDefault => exists v, snd (ht_exists zero t k false) = Some v
    | Present v => snd (ht_exists zero t k false) = Some v
    end.
Proof. exact (@history_refines). Qed.
Print Assumptions hash_table_refines_map.

(* C01: reading through get (creating access) returns the last written value and the slot it
   designates is the one a later existence check sees *)
Theorem hash_table_read_back :
  forall (V : Type) (zero : V) (ops : list (op V)) (t0 t t' : table V) (i k : Z) (v : V),
  ops_ok ops -> key_ok k ->
  ht_init zero 0 = Some t0 -> ht_run zero t0 ops = Some t ->
  spec_status ops k = Present v ->
  ht_get zero t k = Some (t', i) -> val_at zero (t_vals t') i = v /\ t' = t.
Proof.
  intros V zero ops t0 t t' i k v Ho Hk E0 E Hs G.
  assert (Hr : 0 <= 0 < 49157) by (split; [apply Z.le_refl|reflexivity]).
  pose proof (history_refines zero 0 ops t0 t Hr Ho E0 E k Hk) as HA. rewrite Hs in HA.
  destruct (history_wf zero 0 ops t0 t Hr Ho E0 E) as [Hw Hp].
  apply ht_get_ok in G; [|exact Hw|exact Hp|exact (proj2 Hk)].
  destruct (g_same _ _ _ _ _ G v HA) as [HL ->]. split; [|reflexivity].
  apply lookup_char in HL as (j & Hj & Hkj & ->); [|exact Hw|exact (proj2 Hk)].
  f_equal. pose proof Hw as ((_ & _ & Hu) & _).
  apply Hu; [exact (g_idx _ _ _ _ _ G)|exact Hj| |];
  rewrite (g_key _ _ _ _ _ G); [exact (proj2 Hk)|symmetry; exact Hkj].
Qed.
Print Assumptions hash_table_read_back.

(* C02: removal changes exactly one key *)
Theorem hash_table_remove_exact :
  forall (V : Type) (zero : V) (hint : Z) (ops : list (op V)) (t0 t : table V) (k : Z),
  0 <= hint < 49157 -> ops_ok ops -> key_ok k ->
  ht_init zero hint = Some t0 -> ht_run zero t0 ops = Some t ->
  let t' := fst (ht_exists zero t k true) in
  snd (ht_exists zero t' k false) = None /\
  (forall x, key_ok x -> x <> k -> snd (ht_exists zero t' x false) = snd (ht_exists zero t x false)) /\
  (snd (ht_exists zero t k false) = None -> t' = t).
Proof.
  intros V zero hint ops t0 t k Hh Ho Hk E0 E.
  destruct (history_wf zero hint ops t0 t Hh Ho E0 E) as [Hw Hp].
  destruct (ht_remove_ok zero t k Hw Hp (proj2 Hk)) as (_ & _ & H3 & H4 & _ & _ & H7 & _).
  split; [exact H3|]. split; [|exact H7]. intros x Hx. apply H4. exact (proj2 Hx).
Qed.
Print Assumptions hash_table_remove_exact.

(* every key whose hash is the empty-slot marker breaks this: it "exists" in a fresh table *)
Theorem hash_table_reserved_key_refuted :
  exists (k : Z) (t : table Z), is_u32 k /\ ht_init 0 0 = Some t /\
    snd (ht_exists 0 t k false) <> None /\ spec_status (V:=Z) [] k = Absent.
Proof.
  exists NULL_HASH, (mkTable 2 [NULL_HASH; NULL_HASH] [0;0] 0).
  split; [split; discriminate || reflexivity|]. split; [reflexivity|]. split; [discriminate|reflexivity].
Qed.
Print Assumptions hash_table_reserved_key_refuted.

(* a written value under the reserved key is lost when the table grows *)
Theorem hash_table_reserved_key_lost_refuted :
  exists (ops : list (op Z)) (t0 t : table Z),
    ht_init 0 0 = Some t0 /\ ht_run 0 t0 ops = Some t /\
    spec_status ops NULL_HASH = Present 99 /\
    snd (ht_exists 0 t NULL_HASH false) <> Some 99 /\ ~ In NULL_HASH (map fst (ht_iterate t)).
Proof.
  exists (OpSet NULL_HASH 99 :: map (fun k => OpSet k 1) [0;2;4;6]).
  eexists. eexists. split; [reflexivity|]. split; [vm_compute; reflexivity|]. split; [reflexivity|].
  split; [vm_compute; discriminate|]. vm_compute. intuition discriminate.
Qed.
Print Assumptions hash_table_reserved_key_lost_refuted.

(* termination/safety: an adversarial set of 41 integer keys runs past the end of the prime
   table (assertion failure, or out-of-bounds read when assertions are off) *)
Definition colliding_keys : list Z :=
  flat_map (fun p => [p; 2*p; 3*p; 4*p]) [97;193;389;769;1543;3079;6151;12289;24593;49157] ++ [0].
Lemma colliding_ok : ops_ok (map (fun k => OpSet k 1) colliding_keys).
Proof.
  apply Forall_forall. intros o Ho. apply in_map_iff in Ho as (k & <- & Hk).
  assert (H : forallb (fun k => (0 <=? k) && (k <? 2 ^ 32) && negb (k =? NULL_HASH)) colliding_keys = true)
    by (vm_compute; reflexivity).
  rewrite forallb_forall in H. specialize (H k Hk). unfold key_ok, is_u32. cbn [op_key]. lia.
Qed.
Lemma colliding_none :
  ht_run 0 (mkTable 2 [NULL_HASH; NULL_HASH] [0;0] 0) (map (fun k => OpSet k 1) colliding_keys) = None.
Proof. vm_compute. reflexivity. Qed.
Theorem hash_table_always_grows_refuted :
  exists (ops : list (op Z)) (t0 : table Z),
    ops_ok ops /\ ht_init 0 0 = Some t0 /\ length ops = 41%nat /\ ht_run 0 t0 ops = None.
Proof.
  exists (map (fun k => OpSet k 1) colliding_keys), (mkTable 2 [NULL_HASH; NULL_HASH] [0;0] 0).
  split; [exact colliding_ok|]. split; [reflexivity|].
  split; [reflexivity|]. exact colliding_none.
Qed.
Print Assumptions hash_table_always_grows_refuted.

(* ---- C03 ---- without removals, a key created by a read starts as zero *)
Theorem hash_table_default_zero_partial :
  forall (V : Type) (zero : V) (hint : Z) (ops : list (op V)) (t0 t : table V),
  0 <= hint < 49157 -> ops_ok ops -> forallb (fun o => negb (is_remove o)) ops = true ->
  ht_init zero hint = Some t0 -> ht_run zero t0 ops = Some t ->
  forall k, key_ok k ->
    match spec_status ops k with
    | Absent => snd (ht_exists zero t k false) = None
    | PresentDefault => snd (ht_exists zero t k false) = Some zero
    | Present v => snd (ht_exists zero t k false) = Some v
    end.
Proof. exact (@history_default). Qed.
Print Assumptions hash_table_default_zero_partial.
Example hash_table_default_ex :
  forallb (fun o => negb (is_remove o)) [OpSet 1 5; @OpGet Z 3] = true /\
  spec_status [OpSet 1 5; @OpGet Z 3] 3 = PresentDefault.
Proof. split; reflexivity. Qed.

(* with removals it is false: the old value reappears, even under a different key *)
Theorem hash_table_default_zero_refuted :
  exists (ops : list (op Z)) (t0 t : table Z), ops_ok ops /\
    ht_init 0 0 = Some t0 /\ ht_run 0 t0 ops = Some t /\
    spec_status ops 7 = PresentDefault /\ snd (ht_exists 0 t 7 false) = Some 77.
Proof.
  exists [OpSet 5 77; OpRemove 5; OpGet 7]. eexists. eexists.
  split; [repeat constructor; cbn; discriminate || reflexivity|].
  split; [reflexivity|]. split; [vm_compute; reflexivity|]. split; [reflexivity|]. vm_compute. reflexivity.
Qed.
Print Assumptions hash_table_default_zero_refuted.

(* ---- C04 ---- the exact relation between the reported count and the number of live keys:
   every operation that grew the table lost one *)
Theorem hash_table_count_exact :
  forall (V : Type) (zero : V) (hint : Z) (ops : list (op V)) (t0 t : table V),
  0 <= hint < 49157 -> ops_ok ops ->
  ht_init zero hint = Some t0 -> ht_run zero t0 ops = Some t ->
  t_size t = u32 (hint + lenZ (ht_iterate t) - growths zero t0 ops).
Proof. exact (@history_count). Qed.
Print Assumptions hash_table_count_exact.
Theorem hash_table_count_partial :
  forall (V : Type) (zero : V) (ops : list (op V)) (t0 t : table V),
  ops_ok ops -> ht_init zero 0 = Some t0 -> ht_run zero t0 ops = Some t ->
  growths zero t0 ops = 0 -> t_size t = u32 (lenZ (ht_iterate t)).
Proof.
  intros V zero ops t0 t Ho E0 E Hg.
  rewrite (history_count zero 0 ops t0 t (conj (Z.le_refl 0) (eq_refl : 0 < 49157)) Ho E0 E).
  rewrite Hg, Z.add_0_l, Z.sub_0_r. reflexivity.
Qed.
Print Assumptions hash_table_count_partial.
Theorem hash_table_count_refuted :
  exists (ops : list (op Z)) (t0 t : table Z), ops_ok ops /\
    ht_init 0 0 = Some t0 /\ ht_run 0 t0 ops = Some t /\
    ht_iterate t = [] /\ t_size t = 4294967295.
Proof.
  exists [OpSet 0 1; OpSet 2 1; OpSet 4 1; OpRemove 0; OpRemove 2; OpRemove 4]. eexists. eexists.
  split; [repeat constructor; cbn; discriminate || reflexivity|].
  split; [reflexivity|]. split; [vm_compute; reflexivity|]. split; vm_compute; reflexivity.
Qed.
Print Assumptions hash_table_count_refuted.

(* ---- C05 ---- *)
Theorem hash_table_iteration_exact :
  forall (V : Type) (zero : V) (hint : Z) (ops : list (op V)) (t0 t : table V),
  0 <= hint < 49157 -> ops_ok ops ->
  ht_init zero hint = Some t0 -> ht_run zero t0 ops = Some t ->
  NoDup (map fst (ht_iterate t)) /\
  Forall (fun k => k <> NULL_HASH) (map fst (ht_iterate t)) /\
  (forall k, key_ok k -> (In k (map fst (ht_iterate t)) <-> spec_status ops k <> Absent)) /\
  (forall k v, key_ok k -> (In (k, v) (ht_iterate t) <-> snd (ht_exists zero t k false) = Some v)).
Proof. exact (@history_iterate). Qed.
Print Assumptions hash_table_iteration_exact.

(* the accessor used for function registries (hand-unrolled probe) is the same function on
   every reachable table *)
Theorem registry_accessor_agrees :
  forall (V : Type) (zero : V) (hint : Z) (ops : list (op V)) (t0 t : table V) (k : Z),
  0 <= hint < 49157 -> ops_ok ops -> key_ok k ->
  ht_init zero hint = Some t0 -> ht_run zero t0 ops = Some t ->
  ht_getRaw zero t k = ht_get zero t k.
Proof.
  intros V zero hint ops t0 t k Hh Ho Hk E0 E.
  destruct (history_wf zero hint ops t0 t Hh Ho E0 E) as [Hw Hp].
  apply getRaw_eq_get; [exact Hw|exact Hp|exact (proj2 Hk)].
Qed.
Print Assumptions registry_accessor_agrees.
