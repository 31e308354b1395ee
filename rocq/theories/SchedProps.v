(* C28: the scheduler. *)
From Verif Require Import Base SchedModel SchedSpec SchedProofs.

(* one tick is one round over the tasks: each resumed once in list order, survivors kept in order,
   the last failure recorded, ids untouched *)
Theorem tick_is_one_round : forall (W S Prog : Type) resume start (s : sched W S) (n : Z) fuel,
  quiet W S Prog resume -> NoDup (map (tk_id S) (s_tasks W S s)) -> (length (s_tasks W S s) < fuel)%nat ->
  tick W S Prog resume start fuel n s =
  let '(w', keep, errs) := round W S Prog resume n (s_w W S s) (s_tasks W S s) in
  let last_err := latest errs (s_err W S s, s_errId W S s) in
  TOk W S (mkSched W S w' keep (fst last_err) (snd last_err) (s_ids W S s)).
Proof. intros. now apply tick_ok. Qed.

(* stated with a log of the resumed contexts kept in the world: the log grows by exactly the suspended
   tasks, in order *)
Definition logged {W S Prog} (resume : Z -> W -> S -> W * list (act Prog) * outcome S) (n : Z) (w : W * list S) (st : S) : (W * list S) * list (act Prog) * outcome S :=
  let '(w1, a, o) := resume n (fst w) st in ((w1, snd w ++ [st]), a, o).
Fixpoint suspended {S} (ts : list (task S)) : list S :=
  match ts with [] => [] | t :: r => match tk_st S t with Some st => st :: suspended r | None => suspended r end end.
Lemma round_logged {W S Prog} (resume : Z -> W -> S -> W * list (act Prog) * outcome S) n : forall ts w l,
  snd (fst (fst (round (W * list S) S Prog (logged resume) n (w, l) ts))) = l ++ suspended ts.
Proof.
  induction ts as [|t ts IH]; intros w l; cbn [round suspended].
  - cbn. now rewrite app_nil_r.
  - destruct (tk_st S t) as [st|]; [|apply IH]. unfold logged. cbn [fst snd]. fold (@logged W S Prog resume). destruct (resume n w st) as [[w1 a] o].
    specialize (IH w1 (l ++ [st])). destruct (round (W * list S) S Prog (logged resume) n (w1, l ++ [st]) ts) as [[w2 keep] errs]. cbn [fst snd] in IH.
    destruct o; cbn [fst snd]; rewrite IH, <- app_assoc; reflexivity.
Qed.
Theorem every_task_resumed_once : forall (W S Prog : Type) resume start (s : sched (W * list S) S) (n : Z) fuel,
  quiet W S Prog resume -> NoDup (map (tk_id S) (s_tasks _ S s)) -> (length (s_tasks _ S s) < fuel)%nat ->
  exists s', tick (W * list S) S Prog (logged resume) start fuel n s = TOk _ S s' /\
  snd (s_w _ S s') = snd (s_w _ S s) ++ suspended (s_tasks _ S s).
Proof.
  intros W S Prog resume start s n fuel Q N F.
  assert (Q': quiet (W * list S) S Prog (logged resume)).
  { intros n' w st. unfold logged. specialize (Q n' (fst w) st). destruct (resume n' (fst w) st) as [[w1 a] o]. exact Q. }
  pose proof (tick_ok (W * list S) S Prog (logged resume) start n s fuel Q' N F) as E.
  pose proof (round_logged resume n (s_tasks _ S s) (fst (s_w _ S s)) (snd (s_w _ S s))) as L. rewrite <- surjective_pairing in L.
  destruct (round (W * list S) S Prog (logged resume) n (s_w _ S s) (s_tasks _ S s)) as [[w' keep] errs]. cbn [fst snd] in L.
  eexists. split; [exact E|]. exact L.
Qed.

(* any sequence of host calls on a fresh scheduler: every id returned is 0, -1 or larger than all before
   (so never reused), and the task list holds distinct ids, newest first *)
Theorem task_ids_never_reused : forall (W S Prog : Type) resume start (w : W) (calls : list (host Prog)) out s,
  quiet W S Prog resume ->
  run_host W S Prog resume start calls (fresh W S w) = Some (out, s) ->
  increasing 0 out /\ descending (s_ids W S s) (map (tk_id S) (s_tasks W S s)) /\ NoDup (map (tk_id S) (s_tasks W S s)).
Proof.
  intros W S Prog resume start w calls out s Q E.
  destruct (run_host_ids W S Prog resume start Q calls (fresh W S w) out s) as (A&B&_); auto; [cbn; lia|exact I|].
  split; [exact A|]. split; [exact B|]. eapply descending_nodup; eauto.
Qed.

(* an example world: a task counts down; at 0 it ends, below 0 it fails with error 9 *)
Definition demo_resume (n : Z) (w : list Z) (st : Z) : list Z * list (act Z) * outcome Z :=
  (w ++ [st], [], if st =? 0 then Ended Z 0 else if st <? 0 then Ended Z 9 else Suspended Z (st - 1)).
Definition demo_start (n : Z) (w : list Z) (p : Z) : list Z * outcome Z := (w, if p =? 100 then Ended Z 0 else Suspended Z p).
Example scheduler_ex : quiet (list Z) Z Z demo_resume /\
  match run_host (list Z) Z Z demo_resume demo_start [HAdd Z 5 2; HAdd Z 5 0; HAdd Z 5 100; HAdd Z 5 (-1); HTick Z 5; HAdd Z 5 1; HTick Z 5; HTick Z 5; HTick Z 5] (fresh _ Z []) with
  | Some (out, s) => (out, s_w _ _ s, map (tk_id Z) (s_tasks _ _ s), s_err _ _ s, s_errId _ _ s)
  | None => ([], [], [], 0, 0)
  end = ([1; 2; 0; 3; 4], [-1; 0; 2; 1; 1; 0; 0], [], 9, 3).
Proof. split; [intros n w st; reflexivity|vm_compute; reflexivity]. Qed.

(* a task that starts another one from a native function and ends in the same slice: if it is the
   first of the list, the new task is dropped with it *)
Definition spawn_resume (n : Z) (w : unit) (st : Z) : unit * list (act Z) * outcome Z :=
  if st =? 7 then (w, [AAdd Z 1], Ended Z 0) else (w, [], Suspended Z st).
Definition spawn_start (n : Z) (w : unit) (p : Z) : unit * outcome Z := (w, Suspended Z p).
Theorem spawned_task_lost_refuted : exists s s' : sched unit Z,
  s_tasks _ _ s = [mkTask Z 1 (Some 7)] /\ tick unit Z Z spawn_resume spawn_start 5 10 s = TOk _ _ s' /\
  s_ids _ _ s' = 2 /\ s_tasks _ _ s' = [].
Proof. exists (mkSched unit Z tt [mkTask Z 1 (Some 7)] 0 0 1). eexists. split; [reflexivity|]. split; [vm_compute; reflexivity|]. split; reflexivity. Qed.
(* removeTask: true exactly when the id was scheduled, and then that task alone goes *)
Theorem remove_task_exact : forall (W S : Type) (s : sched W S) id,
  NoDup (map (tk_id S) (s_tasks W S s)) ->
  (fst (removeTask W S id s) = true <-> In id (map (tk_id S) (s_tasks W S s))) /\
  s_tasks W S (snd (removeTask W S id s)) = filter (fun t => negb (tk_id S t =? id)) (s_tasks W S s) /\
  s_w W S (snd (removeTask W S id s)) = s_w W S s.
Proof.
  intros W S s id N. cbn [removeTask fst snd s_tasks s_w]. split; [|split; [|reflexivity]].
  - rewrite existsb_exists, in_map_iff. split; intros (t&A&B); exists t; [apply Z.eqb_eq in B; auto|split; auto; now apply Z.eqb_eq].
  - induction (s_tasks W S s) as [|t l IH]; [reflexivity|]. cbn [remove_id filter map] in *. inversion N; subst.
    destruct (Z.eqb_spec (tk_id S t) id) as [E|E]; cbn [negb]; [|rewrite IH; auto].
    symmetry. clear IH. rewrite <- E in *. assert (G: forall u, In u l -> negb (tk_id S u =? tk_id S t) = true).
    { intros u Hu. apply negb_true_iff, Z.eqb_neq. intros Q. apply H1. rewrite <- Q. now apply in_map. }
    clear -G. induction l as [|u l IH]; [reflexivity|]. cbn [filter]. rewrite (G u (or_introl eq_refl)). f_equal. apply IH. intros v Hv. apply G. now right.
Qed.
Example remove_task_ex : fst (removeTask unit Z 2 (mkSched unit Z tt [mkTask Z 3 (Some 7); mkTask Z 2 (Some 8); mkTask Z 1 (Some 3)] 0 0 3)) = true /\
  s_tasks unit Z (snd (removeTask unit Z 2 (mkSched unit Z tt [mkTask Z 3 (Some 7); mkTask Z 2 (Some 8); mkTask Z 1 (Some 3)] 0 0 3))) = [mkTask Z 3 (Some 7); mkTask Z 1 (Some 3)].
Proof. split; reflexivity. Qed.
(* a task that removes itself, or that removes the task before it and then ends, makes tick use a
   freed node *)
Definition kill_resume (n : Z) (w : unit) (st : Z) : unit * list (act Z) * outcome Z :=
  if st =? 7 then (w, [ARemove Z 2], Suspended Z st) else if st =? 8 then (w, [ARemove Z 2], Ended Z 0) else (w, [], Suspended Z st).
Theorem remove_during_tick_refuted : forall start,
  tick unit Z Z kill_resume start 5 10 (mkSched unit Z tt [mkTask Z 2 (Some 7); mkTask Z 1 (Some 3)] 0 0 2) = TUB _ _ /\
  tick unit Z Z kill_resume start 5 10 (mkSched unit Z tt [mkTask Z 2 (Some 3); mkTask Z 1 (Some 8)] 0 0 2) = TUB _ _.
Proof. intros start. split; reflexivity. Qed.
Print Assumptions remove_task_exact.
Print Assumptions tick_is_one_round.
Print Assumptions every_task_resumed_once.
Print Assumptions task_ids_never_reused.
Print Assumptions spawned_task_lost_refuted.
Print Assumptions remove_during_tick_refuted.
