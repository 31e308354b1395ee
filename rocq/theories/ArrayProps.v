(* C20-C23: arrays and the list, queue, stack and array libraries. *)
From Verif Require Import Base BaseLemmas OpsModel ArrayModel ArraySpec ArrayProofs ArrayProofs2 ArrayProofs3 ArrayProofs4.
Ltac Zify.zify_post_hook ::= Z.div_mod_to_equations.

Ltac fuel3 f := destruct f as [|[|[|f]]]; try lia.
(* a concrete memory: global variable 0 holds an array with the given elements, variable 1 the number 5 *)
Definition arr_mem (l : list value) : mem :=
  mkMem (fun x => match x with LGlobal 0 => VArr 7 | LGlobal 1 => VInt 5 | LElem 7 k => nth k l (VInt 0) | _ => VInt 0 end)
        (fun i => if Nat.eq_dec i 7 then Some (OVal (length l)) else None) (fun _ _ => 0) 100.
Lemma arr_mem_is l : is_array (arr_mem l) (LGlobal 0) l.
Proof.
  split; [|split].
  - split; [exact I|]. intros id [= <-]. cbn. lia.
  - change (Some (contents (arr_mem l) 7) = Some l). f_equal. eapply contents_eq; [reflexivity|reflexivity|]. intros k K. cbn.
    apply nth_error_nth'. exact K.
  - exists 7%nat. reflexivity.
Qed.
Definition no_hash : loc -> loc -> loc -> mem -> res mem := fun _ _ _ m => Ok m.
Definition no_table : loc -> mem -> mem := fun _ m => m.
(* the values a script gets, and the final contents of x *)
Definition shown {A} (r : res (A * mem)) (x : loc) : option (A * option (list value)) :=
  match r with Ok (a, m) => Some (a, view m x) | _ => None end.
Definition shown_m (r : res mem) (x : loc) : option (list value) := match r with Ok m => view m x | _ => None end.
Definition pb0 : value -> Z := fun _ => 0.

(* ================= C20 ================= *)
(* any sequence of element reads and writes on one variable, indices below the documented limit:
   the values read and the final contents are those of a list that grows with zeroes *)
Theorem array_history pbits hash_index new_table x ops m l fuel :
  (3 <= fuel)%nat -> variable m x -> view m x = Some l -> Forall aop_ok ops -> exists m',
  run_a pbits hash_index new_table fuel x ops m = Ok (fst (array_run l ops), m') /\
  view m' x = Some (snd (array_run l ops)) /\ variable m' x.
Proof. intros F V W P. fuel3 fuel. now apply array_run_ok. Qed.
Example array_history_ex :
  shown (run_a pb0 no_hash no_table 9 (LGlobal 0) [Write 3 (VInt 8); Read 1; Read 3; Write 0 (VFlt 7); Read 0; Read 2; Read 5] (arr_mem [VInt 1; VInt 2])) (LGlobal 0)
    = Some ([VInt 2; VInt 8; VFlt 7; VInt 0; VInt 0], Some [VFlt 7; VInt 2; VInt 0; VInt 8; VInt 0; VInt 0]) /\
  shown (run_a pb0 no_hash no_table 9 (LGlobal 1) [Write 1 (VInt 8); Read 1; Read 0] (arr_mem [VInt 1; VInt 2])) (LGlobal 1) = Some ([VInt 8; VInt 0], Some [VInt 0; VInt 8]).
Proof. split; vm_compute; reflexivity. Qed.
Example array_history_hyp : variable (arr_mem [VInt 1; VInt 2]) (LGlobal 0) /\ view (arr_mem [VInt 1; VInt 2]) (LGlobal 0) = Some [VInt 1; VInt 2] /\
  Forall aop_ok [Write 3 (VInt 8); Read 1].
Proof. destruct (arr_mem_is [VInt 1; VInt 2]) as (A&B&_). repeat split; auto; try apply A. repeat constructor; lia. Qed.

(* one write, in the words of the property *)
Theorem array_write_then_read pbits hash_index new_table x m l i v fuel :
  (3 <= fuel)%nat -> variable m x -> view m x = Some l -> Z.of_nat i < 2097152 -> plain v -> exists m' l',
  st_write pbits hash_index new_table fuel x (VInt (Z.of_nat i)) v m = Ok m' /\ view m' x = Some l' /\
  length l' = Nat.max (length l) (S i) /\ nth_error l' i = Some v /\
  (forall j, j <> i -> (j < length l')%nat -> nth_error l' j = Some (nth j l (VInt 0))).
Proof.
  intros F V W B P. fuel3 fuel. destruct (write_ok pbits hash_index new_table m x l i v fuel V W B P) as (m'&E&W'&_).
  exists m', (upd (pad l (S i)) i v). split; [exact E|]. split; [exact W'|]. rewrite upd_length, pad_len.
  split; [reflexivity|]. split; [apply upd_same; rewrite pad_len; lia|]. intros j N L. rewrite upd_other by auto.
  rewrite <- (nth_pad l (S i) j). apply nth_error_nth'. rewrite pad_len; lia.
Qed.
(* a write or a read through one variable leaves every other variable alone, and every array that
   is not the one this variable holds *)
Theorem array_write_frame pbits hash_index new_table x m l i v fuel y :
  (3 <= fuel)%nat -> variable m x -> view m x = Some l -> Z.of_nat i < 2097152 -> plain v ->
  variable m y -> y <> x -> (forall id k, mv m x = VArr id -> y <> LElem id k) ->
  (forall id, mv m y = VArr id -> mv m x <> VArr id) ->
  exists m', st_write pbits hash_index new_table fuel x (VInt (Z.of_nat i)) v m = Ok m' /\
  mv m' y = mv m y /\ (match mv m y with VArr id => forall k, x <> LElem id k | _ => True end -> view m' y = view m y).
Proof.
  intros F V W B P VY NE NEL ND. fuel3 fuel. destruct (write_ok pbits hash_index new_table m x l i v fuel V W B P) as (m'&E&_&_&(XF1&XF2&_)).
  destruct (variable_scratch m y VY) as (NS&NF&NSelf&_). exists m'. split; [exact E|].
  assert (Y: mv m' y = mv m y).
  { apply XF1; auto. intros k ->. unfold obj_of in *. destruct (mv m x) eqn:EX; try (now apply (NF k)). now apply (NEL _ k eq_refl). }
  split; [exact Y|]. intros K. unfold view. rewrite Y. destruct (mv m y) eqn:EY; auto.
  assert (NID: id <> obj_of m x).
  { unfold obj_of. destruct VY as [_ VY]. specialize (VY id EY). specialize (ND id eq_refl). destruct (mv m x); try lia. congruence. }
  rewrite XF2 by auto. destruct (mo m id) as [[n| | |]|] eqn:O; auto. f_equal. unfold contents. rewrite XF2, O by auto.
  apply map_ext. intros k. apply XF1; [exact (fun h => h)| |].
  - intros Q. now apply (K k).
  - intros k' [= ->]. auto.
Qed.
Example array_write_frame_ex : exists m', st_write pb0 no_hash no_table 5 (LGlobal 0) (VInt 1) (VInt 9) (arr_mem [VInt 1; VInt 2]) = Ok m' /\ mv m' (LGlobal 1) = VInt 5.
Proof. eexists. split; vm_compute; reflexivity. Qed.

(* x[-1] on a non-empty array: the code copies the array into a smaller block *)
Theorem array_negative_index_refuted : exists m x l, is_array m x l /\ forall pbits hash_index new_table fuel, (3 <= fuel)%nat ->
  st_read pbits hash_index new_table fuel x (VInt (u32 (-1))) m = UB.
Proof.
  exists (arr_mem [VInt 1; VInt 2]), (LGlobal 0), [VInt 1; VInt 2]. split; [apply arr_mem_is|]. intros. fuel3 fuel. reflexivity.
Qed.
(* past the limit the element number is cut to 21 bits (bits 21 and 22 spoil the type): whenever
   those two are clear, x[i] = v writes x[i mod 2^21] *)
Theorem array_index_limit_refuted pbits hash_index new_table x m l i v fuel :
  (3 <= fuel)%nat -> variable m x -> view m x = Some l -> plain v ->
  8388608 <= Z.of_nat i < 134217727 -> (Z.of_nat i / 2097152) mod 4 = 0 -> exists m',
  st_write pbits hash_index new_table fuel x (VInt (Z.of_nat i)) v m = Ok m' /\
  view m' x = Some (upd (pad l (S i)) (Z.to_nat (Z.of_nat i mod 2097152)) v).
Proof.
  intros F V W P B Q. fuel3 fuel.
  destruct (write_gen pbits hash_index new_table m x l i (Z.to_nat (Z.of_nat i mod 2097152)) v fuel V W) as (m'&E&W'&_); auto; try lia.
  - unfold member, u32. rewrite (proj2 (Z.eqb_eq _ _)) by lia. do 3 f_equal. lia.
  - eauto.
Qed.
Example array_index_limit_ex : 8388608 <= Z.of_nat (Z.to_nat 8388608) < 134217727 /\ (Z.of_nat (Z.to_nat 8388608) / 2097152) mod 4 = 0 /\
  Z.to_nat (Z.of_nat (Z.to_nat 8388608) mod 2097152) = 0%nat.
Proof. rewrite !Z2Nat.id by lia. repeat split; lia. Qed.

(* s[0] = 98 on the string "a": nothing happens *)
Definition str_mem : mem :=
  mkMem (fun x => match x with LGlobal 0 => VArr 7 | _ => VInt 0 end)
        (fun i => if Nat.eq_dec i 7 then Some (OChar [97] false) else None) (fun _ _ => 0) 100.
Theorem string_element_write_refuted : exists m x, variable m x /\ mv m x = VArr 7 /\ mo m 7%nat = Some (OChar [97] false) /\
  forall pbits hash_index new_table fuel, (3 <= fuel)%nat -> exists m',
  st_write pbits hash_index new_table fuel x (VInt 0) (VInt 98) m = Ok m' /\ mv m' x = VArr 7 /\ mo m' 7%nat = Some (OChar [97] false).
Proof.
  exists str_mem, (LGlobal 0). split; [split; [exact I|intros id [= <-]; cbn; lia]|]. do 2 (split; [reflexivity|]). intros. fuel3 fuel.
  eexists. split; [lazy; reflexivity|]. split; lazy; reflexivity.
Qed.

(* ================= C21 ================= *)
Theorem queue_is_fifo pbits x ops m q fuel :
  (2 <= fuel)%nat -> is_array m x (rev q) -> Forall plain q -> Forall qop_plain ops ->
  lenZ q + Z.of_nat (pushes ops) <= 134217727 -> exists m',
  run_q pbits fuel (queue_push pbits) (queue_pop pbits) x ops m = Ok (fst (fifo q ops), m') /\ is_array m' x (rev (snd (fifo q ops))).
Proof. intros F A P PO B. destruct fuel as [|[|f]]; try lia. now apply queue_run. Qed.
Example queue_is_fifo_ex : shown (run_q pb0 6 (queue_push pb0) (queue_pop pb0) (LGlobal 0) [Push (VInt 1); Push (VInt 2); Pop; Push (VFlt 3); Pop; Push (VInt 4); Push (VInt 5)] (arr_mem [])) (LGlobal 0)
  = Some ([VInt 1; VInt 2], Some [VInt 5; VInt 4; VFlt 3]).
Proof. vm_compute. reflexivity. Qed.
Example queue_is_fifo_hyp : is_array (arr_mem [VInt 3; VInt 2]) (LGlobal 0) (rev [VInt 2; VInt 3]) /\ Forall plain [VInt 2; VInt 3] /\
  Forall qop_plain [Push (VInt 1); Pop] /\ lenZ [VInt 2; VInt 3] + Z.of_nat (pushes [Push (VInt 1); Pop]) <= 134217727.
Proof. split; [apply arr_mem_is|]. repeat split; repeat constructor; discriminate. Qed.

(* nothing lost or duplicated, and order kept: what came out and what is left, in order, is what was
   in and what was pushed (as long as no pop found the queue empty) *)
Fixpoint pushed (ops : list qop) : list value :=
  match ops with [] => [] | Push v :: t => v :: pushed t | Pop :: t => pushed t end.
Fixpoint never_empty (n : nat) (ops : list qop) : Prop :=
  match ops with
  | [] => True
  | Push _ :: t => never_empty (S n) t
  | Pop :: t => match n with O => False | S k => never_empty k t end
  end.
Lemma fifo_split ops : forall q, never_empty (length q) ops -> fst (fifo q ops) ++ snd (fifo q ops) = q ++ pushed ops.
Proof.
  induction ops as [|[v|] ops IH]; intros q N; cbn [fifo pushed].
  - now rewrite app_nil_r.
  - rewrite IH; [now rewrite <- app_assoc|]. rewrite app_length, Nat.add_1_r. exact N.
  - destruct q as [|v q]; [contradiction|]. cbn [length never_empty] in N. specialize (IH q N). destruct (fifo q ops) as [r q'].
    cbn [fst snd app] in *. now rewrite IH.
Qed.
Theorem queue_order pbits x ops m q fuel :
  (2 <= fuel)%nat -> is_array m x (rev q) -> Forall plain q -> Forall qop_plain ops ->
  lenZ q + Z.of_nat (pushes ops) <= 134217727 -> never_empty (length q) ops -> exists m' popped left_over,
  run_q pbits fuel (queue_push pbits) (queue_pop pbits) x ops m = Ok (popped, m') /\ is_array m' x (rev left_over) /\
  popped ++ left_over = q ++ pushed ops.
Proof.
  intros F A P PO B N. destruct (queue_is_fifo pbits x ops m q fuel F A P PO B) as (m'&E&A').
  exists m', (fst (fifo q ops)), (snd (fifo q ops)). split; [exact E|]. split; [exact A'|]. now apply fifo_split.
Qed.
Theorem queue_peek_is_next pbits x m q fuel :
  (3 <= fuel)%nat -> is_array m x (rev q) -> Forall plain q -> lenZ q <= 2097152 -> exists m',
  st_call1 pbits fuel (queue_peek pbits) x m = Ok (hd (VInt 0) q, m') /\ is_array m' x (rev q).
Proof.
  intros F A P B. fuel3 fuel. unfold lenZ in B.
  destruct (st_peek_back pbits m x (rev q) fuel A) as (m'&E&A'); [now apply Forall_rev|unfold lenZ; now rewrite rev_length|].
  exists m'. split; [|exact A']. unfold queue_peek. rewrite E. do 3 f_equal. destruct q; [reflexivity|]. cbn [rev hd]. apply last_last.
Qed.
Example queue_peek_ex : shown (st_call1 pb0 6 (queue_peek pb0) (LGlobal 0) (arr_mem [VInt 3; VInt 2])) (LGlobal 0) = Some (VInt 2, Some [VInt 3; VInt 2]).
Proof. vm_compute. reflexivity. Qed.
(* pushing a variable stores a reference to it: with y = 5, push( q, y ), y = 6, pop( q ) gives 6 *)
Theorem queue_push_variable_refuted : exists m q y, is_array m q [] /\ mv m y = VInt 5 /\ variable m y /\ q <> y /\
  forall pbits fuel, (3 <= fuel)%nat -> exists m1 m2,
  st_call2 fuel (queue_push pbits) q (VRef y) m = Ok m1 /\
  st_call1 pbits fuel (queue_pop pbits) q (wr m1 y (VInt 6)) = Ok (VInt 6, m2).
Proof.
  exists (arr_mem []), (LGlobal 0), (LGlobal 1). split; [apply arr_mem_is|]. split; [reflexivity|]. split; [split; [exact I|discriminate]|].
  split; [discriminate|]. intros. fuel3 fuel. eexists _, _. split; lazy; reflexivity.
Qed.

(* ================= C22 ================= *)
Theorem stack_is_lifo pbits x ops m s fuel :
  (2 <= fuel)%nat -> is_array m x s -> Forall plain s -> Forall qop_plain ops ->
  lenZ s + Z.of_nat (pushes ops) <= 134217727 -> exists m',
  run_q pbits fuel (stack_push pbits) (stack_pop pbits) x ops m = Ok (fst (lifo s ops), m') /\ is_array m' x (snd (lifo s ops)).
Proof. intros F A P PO B. destruct fuel as [|[|f]]; try lia. now apply stack_run. Qed.
Example stack_is_lifo_ex : shown (run_q pb0 6 (stack_push pb0) (stack_pop pb0) (LGlobal 0) [Push (VInt 1); Push (VInt 2); Pop; Push (VFlt 3); Pop; Pop; Pop] (arr_mem [])) (LGlobal 0)
  = Some ([VInt 2; VFlt 3; VInt 1; VInt 0], Some []).
Proof. vm_compute. reflexivity. Qed.
Theorem stack_peek_is_next pbits x m s fuel :
  (3 <= fuel)%nat -> is_array m x s -> Forall plain s -> exists m',
  st_call1 pbits fuel (stack_peek pbits) x m = Ok (hd (VInt 0) s, m') /\ is_array m' x s.
Proof. intros F A P. fuel3 fuel. now apply st_peek. Qed.
Theorem container_count_exact pbits x m l fuel :
  (2 <= fuel)%nat -> is_array m x l -> lenZ l <= 134217727 -> exists m',
  st_call1 pbits fuel (container_count pbits) x m = Ok (VInt (lenZ l), m') /\ is_array m' x l.
Proof. intros F A B. destruct fuel as [|[|f]]; try lia. now apply st_count. Qed.
(* list::push_front, push_back, pop_front, pop_back *)
Theorem list_is_deque pbits x ops m l fuel :
  (2 <= fuel)%nat -> is_array m x l -> Forall plain l -> Forall lop_plain ops ->
  lenZ l + lenZ ops <= 134217727 -> exists m',
  run_l pbits fuel x ops m = Ok (fst (deque l ops), m') /\ is_array m' x (snd (deque l ops)).
Proof. intros F A P PO B. destruct fuel as [|[|f]]; try lia. now apply list_run. Qed.
Example list_is_deque_ex : shown (run_l pb0 6 (LGlobal 0) [PushFront (VInt 1); PushBack (VInt 2); PushFront (VInt 3); PopBack; PopFront; PushBack (VInt 9)] (arr_mem [])) (LGlobal 0)
  = Some ([VInt 2; VInt 3], Some [VInt 1; VInt 9]).
Proof. vm_compute. reflexivity. Qed.

(* ================= C23 ================= *)
Theorem array_insert_splices_partial pbits x m l w c fuel :
  (2 <= fuel)%nat -> is_array m x l -> 0 <= w <= lenZ l -> 0 <= c -> lenZ l + c <= 134217727 -> exists m',
  st_call3 fuel (array_insert pbits) x (VInt w) (VInt c) m = Ok m' /\ is_array m' x (insert_list l (Z.to_nat w) (Z.to_nat c)).
Proof.
  intros F A W C B. destruct fuel as [|[|f]]; try lia. assert (0 <= lenZ l) by (unfold lenZ; lia).
  assert (S1: s32 w = w) by (apply s32_id; unfold is_s32; lia). assert (S2: s32 c = c) by (apply s32_id; unfold is_s32; lia).
  apply st_insert; auto; try (unfold is_u32; lia); lia.
Qed.
Theorem array_remove_splices pbits x m l w c fuel :
  (2 <= fuel)%nat -> is_array m x l -> lenZ l <= 134217727 -> is_u32 w -> 0 <= c <= 2147483647 -> exists m',
  st_call3 fuel (array_remove pbits) x (VInt w) (VInt c) m = Ok m' /\ is_array m' x (remove_list l (Z.to_nat w) (Z.to_nat c)).
Proof.
  intros F A B W C. destruct fuel as [|[|f]]; try lia. 
  assert (S2: s32 c = c) by (apply s32_id; unfold is_s32; lia).
  apply st_remove_ok; auto; try (unfold is_u32; lia); lia.
Qed.
(* inserting and then removing the same range gives the array back *)
Theorem array_remove_undoes_insert pbits x m l w c fuel :
  (2 <= fuel)%nat -> is_array m x l -> 0 <= w <= lenZ l -> 0 <= c -> lenZ l + c <= 134217727 -> exists m1 m2,
  st_call3 fuel (array_insert pbits) x (VInt w) (VInt c) m = Ok m1 /\
  st_call3 fuel (array_remove pbits) x (VInt w) (VInt c) m1 = Ok m2 /\ is_array m2 x l.
Proof.
  intros F A W C B. assert (0 <= lenZ l) by (unfold lenZ; lia).
  destruct (array_insert_splices_partial pbits x m l w c fuel F A W C B) as (m1&E1&A1).
  assert (L: lenZ (insert_list l (Z.to_nat w) (Z.to_nat c)) = lenZ l + c).
  { unfold lenZ in *. unfold insert_list. rewrite !app_length, repeat_length, firstn_length, skipn_length. lia. }
  destruct (array_remove_splices pbits x m1 _ w c fuel F A1 ltac:(lia) ltac:(unfold is_u32; lia) ltac:(lia)) as (m2&E2&A2).
  exists m1, m2. split; [exact E1|]. split; [exact E2|]. rewrite remove_insert in A2; [exact A2|]. unfold lenZ in *. lia.
Qed.
Example array_splice_ex :
  shown_m (st_call3 6 (array_insert pb0) (LGlobal 0) (VInt 1) (VInt 2) (arr_mem [VInt 1; VInt 2; VInt 3])) (LGlobal 0) = Some [VInt 1; VInt 0; VInt 0; VInt 2; VInt 3] /\
  shown_m (st_call3 6 (array_remove pb0) (LGlobal 0) (VInt 1) (VInt 1) (arr_mem [VInt 1; VInt 2; VInt 3])) (LGlobal 0) = Some [VInt 1; VInt 3].
Proof. split; vm_compute; reflexivity. Qed.
Theorem array_truncate_exact pbits x m l n fuel :
  (2 <= fuel)%nat -> is_array m x l -> lenZ l <= 134217727 -> is_u32 n -> exists m',
  st_truncate pbits fuel x (VInt n) m = Ok m' /\ is_array m' x (firstn (Z.to_nat n) l).
Proof. intros F A B W. destruct fuel as [|[|f]]; try lia. now apply st_truncate_ok. Qed.
Example array_truncate_ex : shown_m (st_truncate pb0 6 (LGlobal 0) (VInt 2) (arr_mem [VInt 1; VInt 2; VInt 3])) (LGlobal 0) = Some [VInt 1; VInt 2].
Proof. vm_compute. reflexivity. Qed.
(* array::insert past the end, and negative counts: memory errors *)
Theorem array_insert_past_end_refuted : exists m x l w c, is_array m x l /\ lenZ l < w /\ 0 < c /\
  forall pbits fuel, (2 <= fuel)%nat -> st_call3 fuel (array_insert pbits) x (VInt w) (VInt c) m = UB.
Proof.
  exists (arr_mem [VInt 1; VInt 2]), (LGlobal 0), [VInt 1; VInt 2], 3, 1. split; [apply arr_mem_is|]. split; [reflexivity|]. split; [lia|].
  intros. destruct fuel as [|[|f]]; try lia. reflexivity.
Qed.
Theorem array_negative_count_refuted : exists m x l w c, is_array m x l /\ 0 <= w < lenZ l /\ s32 c < 0 /\
  forall pbits fuel, (2 <= fuel)%nat ->
  st_call3 fuel (array_insert pbits) x (VInt w) (VInt c) m = UB /\ st_call3 fuel (array_remove pbits) x (VInt w) (VInt c) m = UB.
Proof.
  exists (arr_mem [VInt 1; VInt 2]), (LGlobal 0), [VInt 1; VInt 2], 1, 4294967295. split; [apply arr_mem_is|]. split; [cbn; lia|]. split; [reflexivity|].
  intros. destruct fuel as [|[|f]]; try lia. split; reflexivity.
Qed.
(* x._remove( i ) with i in range *)
Theorem remove_element_exact pbits x m l i fuel :
  (2 <= fuel)%nat -> is_array m x l -> lenZ l <= 134217727 -> (i < length l)%nat -> exists m',
  st_remove pbits fuel x (VInt (Z.of_nat i)) m = Ok m' /\ is_array m' x (remove_list l i 1).
Proof. intros F A B W. destruct fuel as [|[|f]]; try lia. now apply st_remove_elem. Qed.
Example remove_element_ex : shown_m (st_remove pb0 6 (LGlobal 0) (VInt 1) (arr_mem [VInt 1; VInt 2; VInt 3])) (LGlobal 0) = Some [VInt 1; VInt 3].
Proof. vm_compute. reflexivity. Qed.
(* out of range it deletes the last element *)
Theorem remove_element_out_of_range_refuted : exists m x l i, is_array m x l /\ (length l <= i)%nat /\
  forall pbits fuel, (2 <= fuel)%nat -> exists m', st_remove pbits fuel x (VInt (Z.of_nat i)) m = Ok m' /\ view m' x = Some (removelast l) /\ removelast l <> l.
Proof.
  exists (arr_mem [VInt 1; VInt 2]), (LGlobal 0), [VInt 1; VInt 2], 5%nat. split; [apply arr_mem_is|]. split; [cbn; lia|].
  intros. destruct fuel as [|[|f]]; try lia. eexists. split; [lazy; reflexivity|]. split; [reflexivity|discriminate].
Qed.
(* and on an empty array the size wraps to 2^32 - 1 *)
Theorem remove_element_empty_refuted : exists m x, is_array m x [] /\
  forall pbits fuel, (2 <= fuel)%nat -> exists m' n, st_remove pbits fuel x (VInt 0) m = Ok m' /\ mv m' x = VArr 7 /\ mo m' 7%nat = Some (OVal n) /\ Z.of_nat n = 4294967295.
Proof.
  exists (arr_mem []), (LGlobal 0). split; [apply arr_mem_is|]. intros. destruct fuel as [|[|f]]; try lia.
  set (n := Z.to_nat 4294967295). assert (N: Z.of_nat n = 4294967295) by (apply Z2Nat.id; lia).
  set (m1 := wr (wr (arr_mem []) (slot 0) (VRef (LGlobal 0))) (slot 1) (VInt 0)).
  assert (E: st_remove pbits (S (S f)) (LGlobal 0) (VInt 0) (arr_mem []) = Ok (wr_obj m1 7 (OVal n))).
  { unfold st_remove. fold m1. unfold op_remove. rewrite (eq_refl : mv m1 (slot 1) = VInt 0).
    rewrite (eq_refl : deref pbits (S (S f)) (slot 0) m1 = Ok (LGlobal 0, m1)). cbn [bind].
    rewrite (eq_refl : mv m1 (LGlobal 0) = VArr 7), (eq_refl : mo m1 7%nat = Some (OVal 0)).
    rewrite (eq_refl : u32 (0 + 1) <? Z.of_nat 0 = false), (eq_refl : u32 (Z.of_nat 0 - 1) = 4294967295). fold n. reflexivity. }
  rewrite E. clearbody n. exists (wr_obj m1 7 (OVal n)), n. split; [reflexivity|]. split; [reflexivity|]. split; [reflexivity|exact N].
Qed.

Print Assumptions array_history.
Print Assumptions array_write_then_read.
Print Assumptions array_write_frame.
Print Assumptions array_negative_index_refuted.
Print Assumptions array_index_limit_refuted.
Print Assumptions string_element_write_refuted.
Print Assumptions queue_is_fifo.
Print Assumptions queue_order.
Print Assumptions queue_peek_is_next.
Print Assumptions queue_push_variable_refuted.
Print Assumptions stack_is_lifo.
Print Assumptions stack_peek_is_next.
Print Assumptions container_count_exact.
Print Assumptions list_is_deque.
Print Assumptions array_insert_splices_partial.
Print Assumptions array_remove_splices.
Print Assumptions array_remove_undoes_insert.
Print Assumptions array_truncate_exact.
Print Assumptions array_insert_past_end_refuted.
Print Assumptions array_negative_count_refuted.
Print Assumptions remove_element_exact.
Print Assumptions remove_element_out_of_range_refuted.
Print Assumptions remove_element_empty_refuted.
