(* C11-C13: garbage collection. *)
From Verif Require Import Base GCModel GCSpec GCProofs.

(* sample world: objects 0 = array [5, 1], 1 = string, 2 = unreachable array holding a
   string 3, 4 = hash table with internal block 5 whose value is array 6, 7 = permanent struct *)
Definition S (z : Z) := VScalar z.
Definition ex_heap : heap :=
  [Some (mkObj (KValue [S 5; VObj 1]) false false);
   Some (mkObj (KChar 3) false false);
   Some (mkObj (KValue [VObj 3]) false false);
   Some (mkObj (KChar 1) false false);
   Some (mkObj (KHash 5) false false);
   Some (mkObj (KInternal [(false, S 0, S 0); (true, VObj 6, S 9)]) false false);
   Some (mkObj (KValue [S 1]) false false);
   Some (mkObj (KValue [VObj 8]) false true);
   Some (mkObj (KChar 2) false false)]%nat.
Definition ex_chain : list nat := [8;7;6;5;4;3;2;1;0]%nat.
Definition ex_roots : roots := mkRoots [VObj 4] [VObj 2; VObj 0; VMember (LStack 1)] 1.
Definition ex_gc : gcstate := mkGC ex_heap ex_chain 100 50.
Lemma ex_no_marks : no_marks ex_heap.
Proof.
  intros i (o & E & M). unfold hget in E. do 9 (destruct i as [|i]; [injection E as <-; discriminate M|]).
  destruct i; discriminate E.
Qed.
Lemma ex_chain_ok : chain_ok ex_heap ex_chain.
Proof.
  split.
  - repeat constructor; cbn; intuition discriminate.
  - intros i H. cbn in H. repeat destruct H as [<-|H]; try (eexists; reflexivity). destruct H.
Qed.
Example ex_collects :
  match gc 5 ex_roots (Some 3%nat) ex_gc with Ok g => g_chain g = [8;7;6;5;4;1;0]%nat | _ => False end.
Proof. vm_compute. reflexivity. Qed.

(* ---- C12 (and the exact effect used by C11) ----
   whenever a collection completes: the survivors are exactly the objects reachable by
   ownership from the roots it looks at, in the same order, with unchanged contents and no
   mark left on them; everything else it manages is freed; the memory hint restarts at 0 *)
Theorem gc_exact :
  forall fuel r top g g',
  no_marks (g_heap g) -> chain_ok (g_heap g) (g_chain g) -> g_limit g <= g_hint g ->
  gc fuel r top g = Ok g' ->
  let live := root_reach (g_heap g) r (root_values r top) (root_perms (g_heap g) (g_chain g) top) in
  (exists keep, g_chain g' = filter keep (g_chain g)) /\
  (forall j, In j (g_chain g') <-> In j (g_chain g) /\ live j) /\
  (forall j, In j (g_chain g) -> live j -> hget (g_heap g') j = hget (g_heap g) j) /\
  (forall j, In j (g_chain g) -> ~ live j -> hget (g_heap g') j = None) /\
  (forall j o, ~ In j (g_chain g) -> hget (g_heap g) j = Some o ->
     (live j -> hget (g_heap g') j = Some (mkObj (o_kind o) true (o_perm o))) /\
     (~ live j -> hget (g_heap g') j = Some o)) /\
  g_hint g' = 0 /\ g_limit g' = g_limit g.
Proof. exact gc_exact_lem. Qed.
Print Assumptions gc_exact.

(* a context that owns all its objects can be collected again: marks are gone *)
Theorem gc_leaves_no_marks :
  forall fuel r top g g',
  no_marks (g_heap g) -> chain_ok (g_heap g) (g_chain g) -> g_limit g <= g_hint g ->
  (forall j o, hget (g_heap g) j = Some o -> In j (g_chain g)) ->
  gc fuel r top g = Ok g' ->
  no_marks (g_heap g') /\ chain_ok (g_heap g') (g_chain g') /\
  (forall j o, hget (g_heap g') j = Some o -> In j (g_chain g')).
Proof.
  intros fuel r top g g' HN HC HL HA E.
  destruct (gc_exact fuel r top g g' HN HC HL E) as ((keep & K) & A & B & C & _ & _).
  assert (HD : forall j o, hget (g_heap g') j = Some o -> In j (g_chain g') /\ hget (g_heap g) j = Some o).
  { intros j o Ej.
    destruct (in_dec Nat.eq_dec j (g_chain g')) as [Hj|Hj].
    - split; [exact Hj|]. apply A in Hj as [H1 H2]. rewrite <- (B j H1 H2). exact Ej.
    - exfalso. destruct (in_dec Nat.eq_dec j (g_chain g)) as [H1|H1].
      + rewrite (C j H1) in Ej; [discriminate|]. intros H2. apply Hj, A. auto.
      + destruct (gc_exact fuel r top g g' HN HC HL E) as (_ & _ & _ & _ & F & _).
        destruct (hget (g_heap g) j) as [o0|] eqn:E0; [apply H1; eapply HA; exact E0|].
        pose proof (gc_frees_only fuel r top g g' HC HL E j E0) as X. congruence. }
  split; [|split].
  - intros j (o & Ej & M). destruct (HD j o Ej) as [_ E0]. apply (HN j). exists o. auto.
  - split.
    + rewrite K. apply NoDup_filter, HC.
    + intros j Hj. pose proof Hj as Hj'. apply A in Hj' as [H1 H2]. destruct (proj2 HC j H1) as (o & Eo).
      exists o. rewrite (B j H1 H2). exact Eo.
  - intros j o Ej. apply (HD j o Ej).
Qed.
Print Assumptions gc_leaves_no_marks.

(* ---- C11 ---- full statement: every object the program can still access survives with its
   contents.  Holds when the values in play are tame (no pending hash-table element, no
   reference into a heap object) and every object belongs to the context's own chain. *)
Theorem gc_safety_partial :
  forall fuel r top g g' v j,
  no_marks (g_heap g) -> chain_ok (g_heap g) (g_chain g) -> g_limit g <= g_hint g ->
  all_tame (g_heap g) r top ->
  (forall j o, hget (g_heap g) j = Some o -> In j (g_chain g)) ->
  gc fuel r (Some top) g = Ok g' ->
  In v (scanned r top ++ r_globals r) -> access (g_heap g) r v j ->
  hget (g_heap g') j = hget (g_heap g) j.
Proof.
  intros fuel r top g g' v j HN HC HL HT HA E Hv Ha.
  destruct (gc_exact fuel r (Some top) g g' HN HC HL E) as (_ & _ & B & _ & F & _).
  assert (L : root_reach (g_heap g) r (root_values r (Some top)) (root_perms (g_heap g) (g_chain g) (Some top)) j).
  { eapply access_live; [exact HT|exact Ha|apply (proj1 HT), Hv|]. intros k Hk. left. exists v. auto. }
  destruct (in_dec Nat.eq_dec j (g_chain g)) as [Hj|Hj]; [apply B; assumption|].
  destruct (hget (g_heap g) j) as [o|] eqn:Eo; [exfalso; eapply Hj, HA; exact Eo|].
  apply (gc_frees_only fuel r (Some top) g g' HC HL E j Eo).
Qed.
Print Assumptions gc_safety_partial.
Example gc_safety_ex :
  all_tame ex_heap ex_roots 3 /\ access ex_heap ex_roots (VMember (LStack 1)) 1.
Proof.
  split.
  - split.
    + intros v H. cbn in H. repeat destruct H as [<-|H]; cbn; try tauto.
      * intros o sl E K. injection E as <-. discriminate K.
      * split; [exists (VObj 0); split; reflexivity|]. intros n X. injection X as <-. lia.
      * intros o sl E K. injection E as <-. discriminate K.
    + intros i o v E H. unfold hget in E.
      do 9 (destruct i as [|i]; [injection E as <-; cbn in H; repeat destruct H as [<-|H]; cbn; try tauto;
        intros o sl E K; injection E as <-; discriminate K|]).
      destruct i; discriminate E.
  - eapply ac_mem; [reflexivity|]. eapply ac_obj_in; [eapply ai_elem; [reflexivity|reflexivity|]|constructor].
    right. left. reflexivity.
Qed.

(* false in general: an element fetched from a hash table that nothing else refers to
   ([f()["k"]]) is left pointing to freed memory *)
Theorem gc_safety_hash_member_refuted :
  exists r top g g' v j, no_marks (g_heap g) /\ chain_ok (g_heap g) (g_chain g) /\ g_limit g <= g_hint g /\
    (forall j o, hget (g_heap g) j = Some o -> In j (g_chain g)) /\
    gc 9 r (Some top) g = Ok g' /\ In v (scanned r top ++ r_globals r) /\
    access (g_heap g) r v j /\ hget (g_heap g) j <> None /\ hget (g_heap g') j = None.
Proof.
  exists (mkRoots [] [VHashMember 1] 0), 1%nat,
    (mkGC [Some (mkObj (KHash 1) false false);
           Some (mkObj (KInternal [(true, VObj 2, S 7); (false, S 0, S 0)]) false false);
           Some (mkObj (KValue [S 1; S 2]) false false)] [2;1;0]%nat 10 10).
  eexists. exists (VHashMember 1), 2%nat. cbn [g_heap g_chain g_limit g_hint].
  split; [|split; [|split; [|split; [|split; [vm_compute; reflexivity|split; [left; reflexivity|split; [|split; [discriminate|reflexivity]]]]]]]].
  - intros i (o & E & M). unfold hget in E. do 3 (destruct i as [|i]; [injection E as <-; discriminate M|]). destruct i; discriminate E.
  - split; [repeat constructor; cbn; intuition discriminate|].
    intros i H. cbn in H. repeat destruct H as [<-|H]; try (eexists; reflexivity). destruct H.
  - lia.
  - intros i o E. unfold hget in E. do 3 (destruct i as [|i]; [cbn; tauto|]). destruct i; discriminate E.
  - eapply ac_hmem_in; [eapply ai_slot; [reflexivity|reflexivity|left; reflexivity]|constructor].
Qed.
Print Assumptions gc_safety_hash_member_refuted.

(* false in general: a foreach variable still referring to a slot of the table's previous
   block (the table grew inside the loop) *)
Theorem gc_safety_slot_ref_refuted :
  exists r top g g' v j, no_marks (g_heap g) /\ chain_ok (g_heap g) (g_chain g) /\ g_limit g <= g_hint g /\
    (forall j o, hget (g_heap g) j = Some o -> In j (g_chain g)) /\
    gc 9 r (Some top) g = Ok g' /\ In v (scanned r top ++ r_globals r) /\
    access (g_heap g) r v j /\ hget (g_heap g) j <> None /\ hget (g_heap g') j = None.
Proof.
  (* object 0: table, 1: its current block, 2: the block it had before growing *)
  exists (mkRoots [VRef (LObj 2 0); VObj 0] [] 0), 0%nat,
    (mkGC [Some (mkObj (KHash 1) false false);
           Some (mkObj (KInternal [(true, S 4, S 7); (false, S 0, S 0)]) false false);
           Some (mkObj (KInternal [(true, VRef (LObj 1 0), VRef (LObj 1 1))]) false false)] [0;1;2]%nat 10 10).
  eexists. exists (VRef (LObj 2 0)), 2%nat. cbn [g_heap g_chain g_limit g_hint].
  split; [|split; [|split; [|split; [|split; [vm_compute; reflexivity|split; [left; reflexivity|split; [constructor|split; [discriminate|reflexivity]]]]]]]].
  - intros i (o & E & M). unfold hget in E. do 3 (destruct i as [|i]; [injection E as <-; discriminate M|]). destruct i; discriminate E.
  - split; [repeat constructor; cbn; intuition discriminate|].
    intros i H. cbn in H. repeat destruct H as [<-|H]; try (eexists; reflexivity). destruct H.
  - lia.
  - intros i o E. unfold hget in E. do 3 (destruct i as [|i]; [cbn; tauto|]). destruct i; discriminate E.
Qed.
Print Assumptions gc_safety_slot_ref_refuted.

(* false in general: an object referenced only from a caller's frame below stackOffset (an
   array an imported unit returned to the importing unit) is freed by the next collection of
   the imported unit *)
Theorem gc_safety_caller_frame_refuted :
  exists r top g g' j, no_marks (g_heap g) /\ chain_ok (g_heap g) (g_chain g) /\
    gc 9 r (Some top) g = Ok g' /\ In (VObj j) (r_stack r) /\
    hget (g_heap g) j <> None /\ hget (g_heap g') j = None.
Proof.
  exists (mkRoots [] [VObj 0; S 1] 1), 2%nat,
    (mkGC [Some (mkObj (KValue [S 1; S 2]) false false)] [0]%nat 10 10).
  eexists. exists 0%nat. cbn [g_heap g_chain].
  split; [|split; [|split; [vm_compute; reflexivity|split; [left; reflexivity|split; [discriminate|reflexivity]]]]].
  - intros i (o & E & M). unfold hget in E. destruct i as [|i]; [injection E as <-; discriminate M|]. destruct i; discriminate E.
  - split; [repeat constructor; cbn; intuition discriminate|].
    intros i H. cbn in H. repeat destruct H as [<-|H]; try (eexists; reflexivity). destruct H.
Qed.
Print Assumptions gc_safety_caller_frame_refuted.

(* false in general: an array stored into a host-owned table (not on the context's chain) is
   kept by the first collection but freed by the second, because the table stays marked *)
Theorem gc_safety_host_container_refuted :
  exists r top g g1 g2 j, no_marks (g_heap g) /\ chain_ok (g_heap g) (g_chain g) /\
    reach_v (g_heap g) r (VObj 0) j /\ In (VObj 0) (r_globals r) /\
    gc 9 r (Some top) g = Ok g1 /\ hget (g_heap g1) j = hget (g_heap g) j /\
    gc 9 r (Some top) (mkGC (g_heap g1) (g_chain g1) 10 (g_limit g1)) = Ok g2 /\
    hget (g_heap g) j <> None /\ hget (g_heap g2) j = None.
Proof.
  exists (mkRoots [VObj 0] [] 0), 0%nat,
    (mkGC [Some (mkObj (KHash 1) false false);
           Some (mkObj (KInternal [(true, VObj 2, S 7); (false, S 0, S 0)]) false false);
           Some (mkObj (KValue [S 1; S 2]) false false)] [2]%nat 10 10).
  eexists. eexists. exists 2%nat. cbn [g_heap g_chain].
  split; [|split; [|split; [|split; [left; reflexivity|split; [vm_compute; reflexivity|split; [reflexivity|split; [vm_compute; reflexivity|split; [discriminate|reflexivity]]]]]]]].
  - intros i (o & E & M). unfold hget in E. do 3 (destruct i as [|i]; [injection E as <-; discriminate M|]). destruct i; discriminate E.
  - split; [repeat constructor; cbn; intuition discriminate|].
    intros i H. cbn in H. repeat destruct H as [<-|H]; try (eexists; reflexivity). destruct H.
  - constructor. eapply ro_slot; [reflexivity|reflexivity|reflexivity|reflexivity|left; reflexivity|].
    constructor. constructor.
Qed.
Print Assumptions gc_safety_host_container_refuted.

(* false in general: an element of host memory pending on the stack makes the collector treat
   the variable holding the host pointer as an object (undefined behaviour) *)
Theorem gc_safety_raw_member_refuted :
  exists r top g, no_marks (g_heap g) /\ chain_ok (g_heap g) (g_chain g) /\ g_limit g <= g_hint g /\
    forall fuel, (1 < fuel)%nat -> gc fuel r (Some top) g = UB.
Proof.
  exists (mkRoots [VRaw] [VMember (LGlobal 0)] 0), 1%nat, (mkGC [] [] 10 10). cbn [g_heap g_chain g_limit g_hint].
  split; [intros i (o & E & _); unfold hget in E; destruct i; discriminate E|].
  split; [split; [constructor|intros i []]|]. split; [lia|].
  intros fuel Hf. destruct fuel as [|fuel]; [lia|]. reflexivity.
Qed.
Print Assumptions gc_safety_raw_member_refuted.

(* ---- C13 ---- a collection completes, for every recursion budget that is large enough, if
   and only if everything hanging from the roots is finite (no cycle of arrays or tables) and
   every pending array element refers to a variable that still holds a container *)
Theorem gc_terminates_iff_finite_partial :
  forall r top g,
  no_marks (g_heap g) -> chain_ok (g_heap g) (g_chain g) -> g_limit g <= g_hint g ->
  ((exists n0, forall n, (n0 <= n)%nat -> exists g', gc n r top g = Ok g') <->
   ((forall v, In v (root_values r top) -> fin_v (g_heap g) r v) /\
    (forall i, In i (root_perms (g_heap g) (g_chain g) top) -> fin_o (g_heap g) r i))).
Proof. intros r top g H1 H2 H3. exact (proj1 (gc_terminates_lem r top g H1 H2 H3)). Qed.
Print Assumptions gc_terminates_iff_finite_partial.
Example gc_terminates_ex : exists n0, forall n, (n0 <= n)%nat -> exists g', gc n ex_roots (Some 3%nat) ex_gc = Ok g'.
Proof.
  apply gc_terminates_iff_finite_partial; [exact ex_no_marks|exact ex_chain_ok|cbn; lia|].
  apply (proj2 (gc_terminates_lem ex_roots (Some 3%nat) ex_gc ex_no_marks ex_chain_ok ltac:(cbn; lia))).
  exists 5%nat. eexists. vm_compute. reflexivity.
Qed.

(* false in general: [a[0] = a] makes the collector recurse for ever *)
Theorem gc_terminates_refuted :
  exists r top g, no_marks (g_heap g) /\ chain_ok (g_heap g) (g_chain g) /\ g_limit g <= g_hint g /\
    forall fuel, gc fuel r (Some top) g = OutOfFuel.
Proof.
  exists (mkRoots [VObj 0] [] 0), 0%nat, (mkGC [Some (mkObj (KValue [VObj 0]) false false)] [0]%nat 10 10).
  cbn [g_heap g_chain g_limit g_hint].
  split; [|split; [|split; [lia|]]].
  - intros i (o & E & M). unfold hget in E. destruct i as [|i]; [injection E as <-; discriminate M|]. destruct i; discriminate E.
  - split; [repeat constructor; cbn; intuition discriminate|].
    intros i H. cbn in H. repeat destruct H as [<-|H]; try (eexists; reflexivity). destruct H.
  - intros fuel.
    assert (H : mark (mkRoots [VObj 0] [] 0) fuel [Some (mkObj (KValue [VObj 0]) false false)] (VObj 0) = OutOfFuel).
    { induction fuel as [|n IH]; [reflexivity|]. cbn [mark hget nth_error o_marked]. unfold markBase.
      cbn [hget nth_error o_kind mark_list]. rewrite IH. reflexivity. }
    unfold gc. cbn [g_hint g_limit g_heap g_chain]. cbn [Z.ltb Z.compare Pos.compare Pos.compare_cont mark_perms hget nth_error o_perm andb].
    unfold scanned. cbn [r_globals r_stack r_offset skipn firstn Nat.sub mark_list]. rewrite H. reflexivity.
Qed.
Print Assumptions gc_terminates_refuted.

(* ---- destroying a context: everything on its chain is freed, provided the state's
   collection limit does not exceed 65535 *)
Theorem destroy_frees_all_partial :
  forall fuel r g, no_marks (g_heap g) -> chain_ok (g_heap g) (g_chain g) -> g_limit g <= 65535 ->
  exists g', destroy_collect fuel r g = Ok g' /\ g_chain g' = [] /\
    forall j, In j (g_chain g) -> hget (g_heap g') j = None.
Proof.
  intros fuel r g HN HC HL. unfold destroy_collect.
  set (g0 := mkGC (g_heap g) (g_chain g) 65535 (g_limit g)).
  set (r0 := mkRoots [] (r_stack r) (r_offset r)).
  assert (HE : exists g', gc fuel r0 None g0 = Ok g').
  { unfold gc. cbn [g_hint g_limit g0]. destruct (Z.ltb_spec 65535 (g_limit g)) as [X|_]; [exfalso; lia|].
    cbn [r_globals r0 mark_list g_heap g_chain g0]. destruct (sweep_ok (g_chain g) (g_heap g) (proj1 HC) (proj2 HC)) as ([h3 c] & E3).
    rewrite E3. eauto. }
  destruct HE as (g' & E). exists g'. split; [exact E|].
  destruct (gc_exact fuel r0 None g0 g' HN HC HL E) as ((keep & K) & A & _ & C & _).
  assert (HNR : forall j, ~ root_reach (g_heap g0) r0 (root_values r0 None) (root_perms (g_heap g0) (g_chain g0) None) j).
  { intros j [(v & [] & _)|(i & [] & _)]. }
  split.
  - destruct (g_chain g') as [|j t] eqn:Ej; [reflexivity|]. exfalso. apply (HNR j). apply A. left. reflexivity.
  - intros j Hj. apply C; [exact Hj|apply HNR].
Qed.
Print Assumptions destroy_frees_all_partial.
Theorem destroy_frees_all_refuted :
  exists r g, no_marks (g_heap g) /\ chain_ok (g_heap g) (g_chain g) /\ g_chain g <> [] /\
    forall fuel, exists g', destroy_collect fuel r g = Ok g' /\ g_chain g' = g_chain g.
Proof.
  exists (mkRoots [] [] 0), (mkGC [Some (mkObj (KChar 3) false false)] [0]%nat 10 100000). cbn [g_heap g_chain].
  split; [|split; [|split; [discriminate|]]].
  - intros i (o & E & M). unfold hget in E. destruct i as [|i]; [injection E as <-; discriminate M|]. destruct i; discriminate E.
  - split; [repeat constructor; cbn; intuition discriminate|].
    intros i H. cbn in H. repeat destruct H as [<-|H]; try (eexists; reflexivity). destruct H.
  - intros fuel. eexists. split; reflexivity.
Qed.
Print Assumptions destroy_frees_all_refuted.
