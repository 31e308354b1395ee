(* C63: the linked list of the debugger, and the queue of packets made of it. *)
From Verif Require Import Base.
From Verif Require Import GCModel LinkedModel LinkedSpec LinkedProofs DebugModel DebugProofs.
From Coq Require Import List.
Open Scope list_scope. Open Scope Z_scope.

(* Every sequence of requests to a new list is answered as a sequence of items with a current one answers it; no freed
   or null node is used; and the nodes that are allocated afterwards are exactly as many as there are items: nothing
   leaks. *)
Theorem c63_list {A} (qs : list (request A)) :
  exists l, perform_all qs ll_new = Ok (l, snd (expected_all qs ([], None))) /\
  exists nodes, NoDup nodes /\ length nodes = length (fst (fst (expected_all qs ([], None)))) /\ (forall a, l_mem l a <> None <-> In a nodes).
Proof.
  destruct (perform_all_repr qs ll_new [] None new_repr) as (l & ps & E & R & M). cbn [map] in *. exists l. split; [exact E|]. exists (map fst ps). split; [apply R|].
  split; [rewrite <- M, !map_length; reflexivity|]. intros a. split.
  - intros X. destruct (l_mem l a) as [n|] eqn:EM; [|contradiction]. eapply r_mem; eauto.
  - intros I. apply in_map_iff in I as ([b x] & <- & I). cbn [fst]. apply in_split in I as (u & s & ->). pose proof (r_seg _ _ _ R) as SG. apply seg_app in SG as (q & _ & SA). apply seg_next in SA as (_ & ME & _). rewrite ME. discriminate.
Qed.
(* In particular nothing is left when the list is cleared. *)
Theorem c63_clear {A} (qs : list (request A)) : exists l ans, perform_all (qs ++ [Clear]) ll_new = Ok (l, ans) /\ forall a, l_mem l a = None.
Proof.
  destruct (c63_list (qs ++ [Clear])) as (l & E & nodes & _ & LN & IN). eexists l, _. split; [exact E|]. intros a.
  assert (X : forall (rs : list (request A)) s, fst (fst (expected_all (rs ++ [Clear]) s)) = []).
  { clear. induction rs as [|r rs IH]; intros [x p]; cbn [app expected_all]; [reflexivity|]. destruct (expected r (x, p)) as [s1 q]. specialize (IH s1). destruct (expected_all (rs ++ [Clear]) s1). exact IH. }
  rewrite X in LN. destruct nodes; [|discriminate LN]. destruct (l_mem l a) eqn:EM; [|reflexivity]. exfalso. apply (proj1 (IN a)). rewrite EM. discriminate.
Qed.

(* The interface that loops back delivers the packets in the order in which they were sent, each once, and none when
   none waits. *)
Fixpoint deliver {A} (traffic : list (option A)) (q : ll A) : res (list (option A)) :=
  match traffic with
  | [] => Ok []
  | Some p :: r => deliver r (loop_send p q)
  | None :: r => match loop_receive q with
                 | Ok (q1, x) => match deliver r q1 with Ok xs => Ok (x :: xs) | UB => UB | OutOfFuel => OutOfFuel end
                 | UB => UB | OutOfFuel => OutOfFuel
                 end
  end.
Lemma deliver_repr {A} (traffic : list (option A)) : forall q ps pos, repr q ps pos -> deliver traffic q = Ok (in_order traffic (rev (map snd ps))).
Proof.
  induction traffic as [|[p|] r IH]; intros q ps pos R; cbn [deliver in_order]; [reflexivity| |].
  - unfold loop_send. destruct (perform_repr (AddHead p) q ps pos R) as (q1 & ps1 & E & R1 & M1). cbn in E. injection E as <-. rewrite (IH _ _ _ R1), M1. reflexivity.
  - unfold loop_receive. destruct (perform_repr PopTail q ps pos R) as (q1 & ps1 & E & R1 & M1). cbn [perform] in E. destruct (ll_pop_tail q) as [[q2 x]| |]; try discriminate E. injection E as <- EX. rewrite (IH _ _ _ R1), M1.
    cbn [expected] in EX, M1 |- *. cbn [fst snd] in *. rewrite EX. unfold last_item, removed. set (xs := map snd ps) in *. clearbody xs. clear - xs. destruct xs as [|y xs] using rev_ind; [reflexivity|].
    rewrite app_length, rev_app_distr. cbn [length rev app]. replace (length xs + 1 - 1)%nat with (length xs) by lia. rewrite nth_error_app2, Nat.sub_diag by lia. cbn [nth_error]. destruct (Nat.ltb_spec (length xs) (length xs + 1)); [|lia]. cbn [fst]. rewrite without_at, app_nil_r. reflexivity.
Qed.
Theorem c63_loopback_in_order {A} (traffic : list (option A)) : deliver traffic ll_new = Ok (in_order traffic []).
Proof. exact (deliver_repr traffic ll_new [] None new_repr). Qed.

(* ---------------------------------------------------------------- what does not hold *)
(* A negative index is not outside of the list: it gives the first item (simple_ll.h: operator[]). *)
Theorem c63_negative_index_refuted : exists (l : ll Z) ans p, perform_all [AddTail 1; AddTail 2] ll_new = Ok (l, ans) /\ ll_get (-1) l = Ok p /\ ll_item l p = Ok (Some 1).
Proof. eexists _, _, _. split; [vm_compute; reflexivity|]. split; vm_compute; reflexivity. Qed.
(* Removing the current item while the list is walked, as the debugger does, misses the item behind it: of two items
   that should both go, the second stays (debugger.cpp:256-262). *)
Theorem c63_remove_while_walking_refuted : exists (l : ll Z) ans l1, perform_all [AddTail 1; AddTail 2] ll_new = Ok (l, ans) /\ display (fun _ => false) l = Ok l1 /\ lists l1 [2].
Proof.
  eexists _, _, _. split; [vm_compute; reflexivity|]. split; [vm_compute; reflexivity|]. exists [(1%nat, 2)], None. split; [|reflexivity]. split; cbn.
  - split; [reflexivity|]. exists None. split; reflexivity.
  - repeat constructor. intros [].
  - reflexivity.
  - intros a [<-|[]]. lia.
  - intros a n. unfold put. destruct (Nat.eqb_spec 1 a); [auto|]. destruct (Nat.eqb_spec a 1); [auto|]. destruct a as [|[|a]]; cbn; try discriminate; auto.
  - reflexivity.
  - discriminate.
Qed.

(* ---------------------------------------------------------------- examples *)
Example c63_walk : exists l, perform_all [AddTail 10; AddTail 20; AddHead 5; First; Next; PopAt 1; Next; Count; AddTail 30; PopItem 0; PopTail; Get 0; Tail; PopHead; PopHead; Count] ll_new =
  Ok (l, [Nothing; Nothing; Nothing; Item (Some 5); Item (Some 10); Item (Some 10); Item None; Number 2; Nothing; Nothing; Item (Some 30); Item (Some 20); Item (Some 20); Item (Some 20); Item None; Number 0]).
Proof. eexists. vm_compute. reflexivity. Qed.
Example c63_packets : deliver [Some 1; Some 2; None; Some 3; None; None; None] ll_new = Ok [Some 1; Some 2; Some 3; None].
Proof. vm_compute. reflexivity. Qed.

Print Assumptions c63_list.
Print Assumptions c63_clear.
Print Assumptions c63_loopback_in_order.
Print Assumptions c63_negative_index_refuted.
Print Assumptions c63_remove_while_walking_refuted.
