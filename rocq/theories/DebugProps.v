(* C64: breakpoints and stepping. *)
From Verif Require Import Base.
From Verif Require Import GCModel LinkedModel LinkedSpec LinkedProofs DebugModel DebugSpec DebugProofs.
From Coq Require Import List.
Open Scope list_scope. Open Scope Z_scope.

(* a server that has just been asked to run, and everything that happens after: where it stops *)
Definition watch (l : list event) : res (server * list bool) :=
  match first_run fresh_server with Ok d => react_all l d | UB => UB | OutOfFuel => OutOfFuel end.
Lemma watch_spec l : Forall in_range l -> nested l ->
  exists d, watch l = Ok (d, snd (counts_all l [] (0, 0, -1))) /\ numbers_of d = fst (counts_all l [] (0, 0, -1)) /\ at_ d l.
Proof. intros F N. destruct first_spec as (d & E & A & NU). unfold watch. rewrite E, <- NU. exact (react_all_spec l d [] A F N). Qed.
Lemma nth_after {A} (u : list A) x s : nth_error (u ++ x :: s) (length u) = Some x.
Proof. rewrite nth_error_app2, Nat.sub_diag by lia. reflexivity. Qed.
Lemma stop_at a e b bs n1 : snd (counts_all (a ++ e :: b) [] (0, 0, -1)) = bs -> fst (counts_all a [] (0, 0, -1)) = n1 ->
  nth_error bs (length a) = Some (snd (counts e (match e with Line z => armed a z | _ => false end) n1)).
Proof.
  intros <- <-. rewrite counts_all_app. pose proof (counts_all_len a [] (0, 0, -1)) as L. destruct (counts_all a [] (0, 0, -1)) as [n1 x]. cbn [snd fst app counts_all] in *. destruct (counts e _ n1) as [n2 y]. destruct (counts_all b _ n2) as [n3 z]. cbn [snd fst]. rewrite <- L. apply nth_after.
Qed.

(* Whatever the program does and the user asks for, the server does not crash, and it knows how many functions are
   active. *)
Theorem c64_call_depth l : Forall in_range l -> nested l ->
  exists d bs es, watch l = Ok (d, bs) /\ length bs = length l /\ lists (d_stack d) es /\ Z.of_nat (length es) = 1 + level l.
Proof. intros F N. destruct (watch_spec l F N) as (d & E & _ & [_ (es & L & LN & _)]). exists d, (snd (counts_all l [] (0, 0, -1))), es. rewrite counts_all_len. auto. Qed.

(* At a line it knows which line the program is at, and in a function that was just entered which function that is. *)
Theorem c64_current_line before n : Forall in_range (before ++ [Line n]) -> nested (before ++ [Line n]) ->
  exists d bs e, watch (before ++ [Line n]) = Ok (d, bs) /\ ll_item (d_stack d) (l_tail (d_stack d)) = Ok (Some e) /\ e_line e = n.
Proof.
  intros F N. destruct (watch_spec _ F N) as (d & E & _ & [_ (es & L & LN & IN)]). destruct (IN _ _ eq_refl) as (es' & x & -> & EL). eexists d, _, x. split; [exact E|]. split; [|exact EL].
  destruct (lists_end _ _ L) as (ps & y & t & pos & R & EX & TL & M); [intros X; now destruct es'|]. apply app_inj_tail in EX as [_ <-]. rewrite TL. cbn [ll_item]. now rewrite M.
Qed.
Theorem c64_current_function before u : Forall in_range (before ++ [Enter u]) -> nested (before ++ [Enter u]) ->
  exists d bs e, watch (before ++ [Enter u]) = Ok (d, bs) /\ ll_item (d_stack d) (l_tail (d_stack d)) = Ok (Some e) /\ e_unit e = u.
Proof.
  intros F N. destruct (watch_spec _ F N) as (d & E & _ & [_ (es & L & LN & IN)]). destruct (IN _ _ eq_refl) as (es' & x & -> & EL). eexists d, _, x. split; [exact E|]. split; [|exact EL].
  destruct (lists_end _ _ L) as (ps & y & t & pos & R & EX & TL & M); [intros X; now destruct es'|]. apply app_inj_tail in EX as [_ <-]. rewrite TL. cbn [ll_item]. now rewrite M.
Qed.

(* A line at which the last request set a breakpoint stops the program, whatever happened before and comes after. *)
Theorem c64_breakpoint_stops before n after : Forall in_range (before ++ Line n :: after) -> nested (before ++ Line n :: after) -> armed before n = true ->
  exists d bs, watch (before ++ Line n :: after) = Ok (d, bs) /\ nth_error bs (length before) = Some true.
Proof.
  intros F N A. destruct (watch_spec _ F N) as (d & E & _). eexists d, _. split; [exact E|]. rewrite (stop_at before (Line n) after _ _ eq_refl eq_refl). rewrite A.
  destruct (fst (counts_all before [] (0, 0, -1))) as [[? ?] ?]. reflexivity.
Qed.
(* If nobody steps or runs to a line, nothing else stops it. *)
Definition no_stepping (e : event) : Prop := match e with StepOver | StepInto => False | RunTo n => n = 0 | _ => True end.
Lemma no_stepping_counts : forall l before, Forall no_stepping l -> Forall in_range l -> fst (counts_all l before (0, 0, -1)) = (0, 0, -1) /\
  forall i, nth_error (snd (counts_all l before (0, 0, -1))) i = Some true -> exists n, nth_error l i = Some (Line n) /\ armed (before ++ firstn i l) n = true.
Proof.
  induction l as [|e l IH]; intros before S R; cbn [counts_all]; [split; [reflexivity|intros [|i] X; discriminate X]|]. inversion S as [|? ? S1 S2]; inversion R as [|? ? R1 R2]; subst.
  assert (C : counts e (match e with Line z => armed before z | _ => false end) (0, 0, -1) = (0, 0, -1, match e with Line z => armed before z | _ => false end)).
  { destruct e; cbn [counts no_stepping in_range] in *; try contradiction; try reflexivity; [|now subst]. destruct (armed before n); [reflexivity|]. cbn. destruct (Z.eqb_spec n 0); [lia|reflexivity]. }
  rewrite C. destruct (IH (before ++ [e]) S2 R2) as [I1 I2]. destruct (counts_all l (before ++ [e]) (0, 0, -1)) as [n2 bs]. cbn [fst snd] in *. split; [exact I1|]. intros [|i] X; cbn [nth_error firstn] in *.
  - injection X as X. destruct e; try discriminate X. exists n. rewrite app_nil_r. auto.
  - destruct (I2 i X) as (n & Y & Z). exists n. rewrite <- app_assoc in Z. auto.
Qed.
Theorem c64_nothing_else_stops l i : Forall in_range l -> nested l -> Forall no_stepping l ->
  exists d bs, watch l = Ok (d, bs) /\ (nth_error bs i = Some true <-> exists n, nth_error l i = Some (Line n) /\ armed (firstn i l) n = true).
Proof.
  intros F N S. destruct (watch_spec _ F N) as (d & E & _). eexists d, _. split; [exact E|]. split.
  - intros X. exact (proj2 (no_stepping_counts l [] S F) i X).
  - intros (n & X & A). apply nth_error_split in X as (u & s & -> & LU). rewrite <- LU in *. rewrite firstn_app, firstn_all, Nat.sub_diag in A. cbn in A. rewrite app_nil_r in A.
    rewrite (stop_at u (Line n) s _ _ eq_refl eq_refl), A. destruct (fst (counts_all u [] (0, 0, -1))) as [[? ?] ?]. reflexivity.
Qed.

(* Stepping into stops at the very next line that is reached, in whatever function it is. *)
Lemma no_line_counts : forall l before st k dp, (forall e, In e l -> program_only e /\ forall n, e <> Line n) -> dp < 0 -> fst (counts_all l before (st, k, dp)) = (st, k, dp).
Proof.
  induction l as [|e l IH]; intros before st k dp P L; cbn [counts_all]; [reflexivity|]. destruct (P e (or_introl eq_refl)) as [P1 P2].
  assert (C : counts e (match e with Line z => armed before z | _ => false end) (st, k, dp) = (st, k, dp, false)).
  { destruct e; cbn [program_only] in P1; try contradiction; [now contradiction (P2 n)| |]; cbn; now destruct (Z.leb_spec 0 dp); [lia|]. }
  rewrite C. specialize (IH (before ++ [e]) st k dp (fun x I => P x (or_intror I)) L). destruct (counts_all l _ _). exact IH.
Qed.
Theorem c64_step_into before mid n after : let all := before ++ StepInto :: mid ++ Line n :: after in
  Forall in_range all -> nested all -> (forall e, In e mid -> program_only e /\ forall m, e <> Line m) ->
  exists d bs, watch all = Ok (d, bs) /\ nth_error bs (length before + S (length mid)) = Some true.
Proof.
  intros all F N P. destruct (watch_spec _ F N) as (d & E & _). eexists d, _. split; [exact E|]. unfold all. replace (before ++ StepInto :: mid ++ Line n :: after) with ((before ++ StepInto :: mid) ++ Line n :: after) by (now rewrite <- app_assoc).
  replace (length before + S (length mid))%nat with (length (before ++ StepInto :: mid)) by (now rewrite app_length). rewrite (stop_at (before ++ StepInto :: mid) (Line n) after _ _ eq_refl eq_refl). f_equal.
  assert (C : fst (counts_all (before ++ StepInto :: mid) [] (0, 0, -1)) = (0, 1, -1)).
  { rewrite counts_all_app. destruct (counts_all before [] (0, 0, -1)) as [[[st k] dp] x]. cbn [counts_all counts app]. pose proof (no_line_counts mid (before ++ [StepInto]) 0 1 (-1) P ltac:(lia)) as C. destruct (counts_all mid _ _). exact C. }
  rewrite C. cbn. now destruct (armed _ n).
Qed.

(* Stepping over stops at the next line of the function it was asked in, or of one it returns to: not in the functions
   that are called on the way, unless there is a breakpoint. *)
Lemma over_counts : forall mid before k, 0 <= k -> Forall in_range mid -> (forall a b, mid = a ++ b -> 0 <= k + level a) ->
  (forall a n b, mid = a ++ Line n :: b -> 0 < k + level a /\ armed (before ++ a) n = false) -> (forall e, In e mid -> program_only e) ->
  counts_all mid before (0, 1, k) = (0, 1, k + level mid, map (fun _ => false) mid).
Proof.
  induction mid as [|e mid IH]; intros before k K R N L P; cbn [counts_all map]; [now rewrite Z.add_0_r|]. inversion R as [|? ? R1 R2]; subst.
  assert (LV : forall a, level (e :: a) = level [e] + level a).
  { intros a. unfold level. cbn [fold_left]. assert (G : forall l x, fold_left (fun k e => match e with Enter _ => k + 1 | Leave => k - 1 | _ => k end) l x = x + fold_left (fun k e => match e with Enter _ => k + 1 | Leave => k - 1 | _ => k end) l 0).
    { clear. induction l as [|e l IH]; intros x; cbn [fold_left]; [lia|]. rewrite IH. symmetry. rewrite IH. destruct e; lia. }
    now rewrite G. }
  pose proof (N [e] mid eq_refl) as N1.
  assert (C : counts e (match e with Line z => armed before z | _ => false end) (0, 1, k) = (0, 1, k + level [e], false)).
  { pose proof (P e (or_introl eq_refl)) as P1. destruct e; cbn [program_only in_range] in *; try contradiction; unfold level; cbn [fold_left counts].
    - destruct (L [] n mid eq_refl) as [L1 L2]. rewrite app_nil_r in L2. rewrite L2. cbn in L1. rewrite Z.add_0_r in *. destruct (Z.leb_spec k 0); [lia|]. cbn [andb]. destruct (Z.eqb_spec n 0); [lia|]. reflexivity.
    - destruct (Z.leb_spec 0 k); [|lia]. repeat f_equal; lia.
    - destruct (Z.leb_spec 0 k); [|lia]. repeat f_equal; lia. }
  rewrite C. rewrite (IH (before ++ [e]) (k + level [e])); [|lia|exact R2| | |].
  - rewrite (LV mid). f_equal. f_equal. lia.
  - intros a b ->. pose proof (N (e :: a) b eq_refl) as X. rewrite LV in X. lia.
  - intros a n b ->. destruct (L (e :: a) n b eq_refl) as [X Y]. rewrite LV in X. rewrite <- app_assoc. split; [lia|exact Y].
  - intros x I. apply P. now right.
Qed.
Theorem c64_step_over before mid n after : let all := before ++ StepOver :: mid ++ Line n :: after in
  Forall in_range all -> nested all ->
  (* mid: only calls that return, and lines inside of them that have no breakpoint *)
  (forall e, In e mid -> program_only e) -> (forall a b, mid = a ++ b -> 0 <= level a) ->
  (forall a m b, mid = a ++ Line m :: b -> 0 < level a /\ armed (before ++ StepOver :: a) m = false) ->
  exists d bs, watch all = Ok (d, bs) /\
    (forall i, (i < S (length mid))%nat -> nth_error bs (length before + i) = Some false) /\
    nth_error bs (length before + S (length mid)) = Some ((level mid =? 0) || armed before n).
Proof.
  intros all F N P NM LM. destruct (watch_spec _ F N) as (d & E & _). eexists d, _. split; [exact E|].
  assert (FM : Forall in_range mid). { unfold all in F. apply Forall_app in F as [_ F]. inversion F as [|? ? _ F2]; subst. now apply Forall_app in F2 as [F2 _]. }
  assert (RN : 0 < n). { unfold all in F. apply Forall_app in F as [_ F]. inversion F as [|? ? _ F2]; subst. apply Forall_app in F2 as [_ F2]. inversion F2 as [|? ? F3 _]; subst. cbn in F3. lia. }
  pose proof (over_counts mid (before ++ [StepOver]) 0 ltac:(lia) FM) as C. cbn [Z.add] in C. specialize (C NM). rewrite <- ?app_assoc in C.
  assert (C1 : counts_all mid (before ++ [StepOver]) (0, 1, 0) = (0, 1, level mid, map (fun _ => false) mid)).
  { apply C; [|exact P]. intros a m b X. rewrite <- app_assoc. exact (LM a m b X). }
  assert (AR : armed (before ++ StepOver :: mid) n = armed before n).
  { unfold armed. rewrite fold_left_app. cbn [fold_left]. generalize (fold_left (fun a e => match e with SetBreak z => if z =? n then true else a | ClearBreak z => if z =? n then false else a | _ => a end) before false).
    clear - P. induction mid as [|e mid IH]; intros b; cbn [fold_left]; [reflexivity|]. rewrite IH by (intros x I; apply P; now right). specialize (P e (or_introl eq_refl)). destruct e; try contradiction; reflexivity. }
  split.
  - intros i LI. unfold all. rewrite counts_all_app. pose proof (counts_all_len before [] (0, 0, -1)) as L. destruct (counts_all before [] (0, 0, -1)) as [[[st k] dp] x]. cbn [snd] in L. cbn [counts_all counts app]. rewrite counts_all_app. rewrite C1. destruct (counts_all (Line n :: after) _ _) as [n3 z]. cbn [snd].
    rewrite nth_error_app2 by lia. replace (length before + i - length x)%nat with i by lia. destruct i as [|i]; [reflexivity|]. cbn [nth_error]. rewrite nth_error_app1 by (rewrite map_length; lia).
    destruct (nth_error mid i) eqn:EM; [now rewrite (map_nth_error _ _ _ EM)|apply nth_error_None in EM; lia].
  - unfold all. replace (before ++ StepOver :: mid ++ Line n :: after) with ((before ++ StepOver :: mid) ++ Line n :: after) by (now rewrite <- app_assoc).
    replace (length before + S (length mid))%nat with (length (before ++ StepOver :: mid)) by (now rewrite app_length). rewrite (stop_at (before ++ StepOver :: mid) (Line n) after _ _ eq_refl eq_refl). f_equal.
    assert (C2 : fst (counts_all (before ++ StepOver :: mid) [] (0, 0, -1)) = (0, 1, level mid)).
    { rewrite counts_all_app. destruct (counts_all before [] (0, 0, -1)) as [[[st k] dp] x]. cbn [counts_all counts app]. rewrite C1. reflexivity. }
    rewrite C2, AR. cbn [counts]. destruct (armed before n); [now rewrite orb_true_r|]. rewrite orb_false_r. pose proof (NM mid [] ltac:(now rewrite app_nil_r)) as LV. change (1 =? 0) with false. change (1 =? 1) with true. cbn [negb andb].
    destruct (Z.leb_spec (level mid) 0); destruct (Z.eqb_spec (level mid) 0); try lia; cbn [andb snd]; [reflexivity|]. destruct (Z.eqb_spec n 0); [lia|reflexivity].
Qed.

(* Running to a line stops there, if it did not stop before. *)
Lemma run_to_counts : forall mid before st k dp, (forall e, In e mid -> program_only e) -> (forall i, nth_error (snd (counts_all mid before (st, k, dp))) i <> Some true) -> fst (fst (fst (counts_all mid before (st, k, dp)))) = st.
Proof.
  induction mid as [|e mid IH]; intros before st k dp P NS; cbn [counts_all]; [reflexivity|]. cbn [counts_all] in NS. pose proof (P e (or_introl eq_refl)) as P1.
  destruct (counts e (match e with Line z => armed before z | _ => false end) (st, k, dp)) as [[[st1 k1] dp1] b] eqn:C.
  pose proof (IH (before ++ [e]) st1 k1 dp1 (fun x I => P x (or_intror I))) as X. destruct (counts_all mid (before ++ [e]) (st1, k1, dp1)) as [n2 bs]. cbn [fst snd] in *.
  assert (B : b = false) by (specialize (NS O); cbn in NS; destruct b; congruence). rewrite X by (intros i; exact (NS (S i))). subst b. clear - C P1.
  destruct e; cbn [program_only] in P1; try contradiction; cbn [counts] in C; [|congruence|congruence]. destruct (armed before n); [discriminate C|]. destruct ((dp <=? 0) && negb (k =? 0)); [destruct (k =? 1); [discriminate C|]|]; destruct (n =? st); congruence.
Qed.
Theorem c64_run_to_line before mid n after : let all := before ++ RunTo n :: mid ++ Line n :: after in
  Forall in_range all -> nested all -> (forall e, In e mid -> program_only e) ->
  exists d bs, watch all = Ok (d, bs) /\
    ((forall i, (length before < i < length before + S (length mid))%nat -> nth_error bs i <> Some true) -> nth_error bs (length before + S (length mid)) = Some true).
Proof.
  intros all F N P. destruct (watch_spec _ F N) as (d & E & _). eexists d, _. split; [exact E|]. unfold all. intros NS.
  assert (C : fst (fst (fst (counts_all (before ++ RunTo n :: mid) [] (0, 0, -1)))) = n).
  { rewrite counts_all_app in *. pose proof (counts_all_len before [] (0, 0, -1)) as L. destruct (counts_all before [] (0, 0, -1)) as [[[st k] dp] x]. cbn [counts_all counts app snd] in *. rewrite counts_all_app in NS. pose proof (run_to_counts mid (before ++ [RunTo n]) n k dp P) as X. pose proof (counts_all_len mid (before ++ [RunTo n]) (n, k, dp)) as LM.
    destruct (counts_all mid (before ++ [RunTo n]) (n, k, dp)) as [n2 bs]. destruct (counts_all (Line n :: after) _ n2) as [n3 z]. cbn [fst snd] in *. apply X. intros i. destruct (Nat.lt_ge_cases i (length mid)) as [LI|LI]; [|now rewrite (proj2 (nth_error_None bs i)) by lia].
    specialize (NS (length before + S i)%nat ltac:(lia)). rewrite nth_error_app2 in NS by lia. replace (length before + S i - length x)%nat with (S i) in NS by lia. cbn [nth_error] in NS. now rewrite nth_error_app1 in NS by lia. }
  clear NS. replace (before ++ RunTo n :: mid ++ Line n :: after) with ((before ++ RunTo n :: mid) ++ Line n :: after) by (now rewrite <- app_assoc).
  replace (length before + S (length mid))%nat with (length (before ++ RunTo n :: mid)) by (now rewrite app_length). rewrite (stop_at (before ++ RunTo n :: mid) (Line n) after _ _ eq_refl eq_refl). f_equal.
  destruct (fst (counts_all (before ++ RunTo n :: mid) [] (0, 0, -1))) as [[st k] dp]. cbn [fst] in C. subst st. cbn [counts]. destruct (armed _ n); [reflexivity|]. rewrite Z.eqb_refl. destruct (_ && _); [|reflexivity]. now destruct (k =? 1).
Qed.

(* ---------------------------------------------------------------- what does not hold *)
(* A step that a breakpoint interrupts is not forgotten: the user asks to run on, and the program stops at a line at
   which there is no breakpoint (server_interface_private.cpp:152-173, 254-280). *)
Theorem c64_run_after_step_refuted :
  ~ (forall before mid n d bs, Forall in_range (before ++ RunTo 0 :: mid ++ [Line n]) -> nested (before ++ RunTo 0 :: mid ++ [Line n]) -> (forall e, In e mid -> program_only e) -> armed before n = false ->
       watch (before ++ RunTo 0 :: mid ++ [Line n]) = Ok (d, bs) -> nth_error bs (length before + S (length mid)) = Some false).
Proof.
  intros H. assert (E : exists d, watch ([SetBreak 5; Line 1; StepOver; Enter 1; Line 5] ++ RunTo 0 :: [Leave] ++ [Line 2]) = Ok (d, [false; false; false; false; true; false; false; true])) by (eexists; vm_compute; reflexivity).
  destruct E as (d & E). specialize (H [SetBreak 5; Line 1; StepOver; Enter 1; Line 5] [Leave] 2 d [false; false; false; false; true; false; false; true]). enough (X : nth_error [false; false; false; false; true; false; false; true] (length [SetBreak 5; Line 1; StepOver; Enter 1; Line 5] + S (length [Leave])) = Some false) by discriminate X.
  apply H; [repeat constructor; cbn; lia| |intros e [<-|[]]; exact I|reflexivity|exact E].
  intros a b X. do 9 (destruct a as [|? a]; [vm_compute; discriminate|cbn in X; try discriminate X; injection X as <- X]). 
Qed.
(* The call stack that is shown is not the one of the program: a return takes away the entry of the outermost function
   instead of that of the innermost (server_interface_private.cpp:194-209). Function 1 was called and has returned:
   the program is in its global code, unit 0, and the stack says it is in unit 1. *)
Theorem c64_call_stack_refuted : exists d bs, watch [Enter 1; Leave] = Ok (d, bs) /\ exists e, ll_item (d_stack d) (l_tail (d_stack d)) = Ok (Some e) /\ e_unit e = 1.
Proof. eexists _, _. split; [vm_compute; reflexivity|]. eexists. split; vm_compute; reflexivity. Qed.

(* The command of the debugger that removes a breakpoint reads the node of the breakpoint after it was freed
   (debugger.cpp:394-401): every sequence of such commands is defined only as long as it never removes one. *)
Lemma toggle_all_spec : forall bps l f, breaks_are l f ->
  ((NoDup bps /\ forall b, In b bps -> f b = false) -> exists l1, toggle_all bps l = Ok (l1, map (fun b => (true, b)) bps)) /\
  (~ (NoDup bps /\ forall b, In b bps -> f b = false) -> toggle_all bps l = UB).
Proof.
  induction bps as [|b bps IH]; intros l f B; cbn [toggle_all map].
  - split; [eauto|]. intros X. contradiction X. split; [constructor|intros b []].
  - pose proof (toggle_spec b l f B) as T. destruct (f b) eqn:F.
    + rewrite T. split; [|reflexivity]. intros (_ & X). rewrite (X b (or_introl eq_refl)) in F. discriminate.
    + destruct T as (l1 & E & B1). rewrite E. destruct (IH l1 _ B1) as (I1 & I2). split.
      * intros (ND & X). inversion ND as [|? ? NI ND']; subst. destruct I1 as (l2 & E2); [split; [exact ND'|]|rewrite E2; eauto]. intros c IC. destruct (Z.eqb_spec b c) as [->|N]; [contradiction|]. apply X. now right.
      * intros X. rewrite I2; [reflexivity|]. intros (ND & Y). apply X. split.
        -- constructor; [|exact ND]. intros I. specialize (Y b I). rewrite Z.eqb_refl in Y. discriminate.
        -- intros c [<-|I]; [exact F|]. specialize (Y c I). destruct (b =? c); [discriminate|exact Y].
Qed.
Theorem c64_remove_reads_freed_refuted bps :
  (NoDup bps -> exists l, toggle_all bps ll_new = Ok (l, map (fun b => (true, b)) bps)) /\ (~ NoDup bps -> toggle_all bps ll_new = UB).
Proof.
  assert (B : breaks_are ll_new (fun _ => false)) by (exists []; split; [apply new_lists|]; split; [constructor|]; intros z; split; [intros []|discriminate]).
  destruct (toggle_all_spec bps ll_new _ B) as (T1 & T2). split; [intros ND; apply T1; auto|]. intros ND. apply T2. intros (X & _). contradiction.
Qed.

(* ---------------------------------------------------------------- examples *)
Example c64_set_and_remove : toggle_all [5; 9; 5] ll_new = UB /\ exists l, toggle_all [5; 9] ll_new = Ok (l, [(true, 5); (true, 9)]).
Proof. split; [vm_compute; reflexivity|]. eexists. vm_compute. reflexivity. Qed.
(* A breakpoint in a function at line 5, set twice and cleared once at another line; it stops at both calls *)
Example c64_session : exists d, watch [SetBreak 5; SetBreak 9; SetBreak 5; Line 1; Enter 1; Line 4; Line 5; Leave; ClearBreak 9; Line 9; Enter 1; Line 5; ClearBreak 5; Line 5] =
  Ok (d, [false; false; false; false; false; false; true; false; false; false; false; true; false; false]).
Proof. eexists. vm_compute. reflexivity. Qed.
Example c64_over : exists d, watch [Line 1; StepOver; Enter 1; Line 4; Enter 2; Line 7; Leave; Line 5; Leave; Line 2] = Ok (d, [false; false; false; false; false; false; false; false; false; true]).
Proof. eexists. vm_compute. reflexivity. Qed.
(* the hypotheses of the step-over theorem are met by this history *)
Example c64_over_meets : let mid := [Enter 1; Line 4; Leave] in
  Forall in_range ([Line 1] ++ StepOver :: mid ++ [Line 2]) /\ (forall a b, mid = a ++ b -> 0 <= level a) /\ (forall a m b, mid = a ++ Line m :: b -> 0 < level a /\ armed ([Line 1] ++ StepOver :: a) m = false) /\ level mid = 0.
Proof.
  cbv zeta. split; [repeat constructor; cbn; lia|]. split.
  - intros a b X. do 4 (destruct a as [|? a]; [vm_compute; discriminate|cbn in X; try discriminate X; injection X as <- X]).
  - split; [|reflexivity]. intros a m b X. destruct a as [|? a]; [discriminate X|]. injection X as <- X. destruct a as [|? a]; [injection X as <- <-; split; [vm_compute; reflexivity|reflexivity]|]. injection X as <- X. destruct a as [|? a]; [discriminate X|]. injection X as <- X. destruct a; discriminate X.
Qed.
Example c64_run_to : exists d, watch [Line 1; RunTo 7; Enter 1; Line 4; Line 7; Line 7] = Ok (d, [false; false; false; false; true; false]).
Proof. eexists. vm_compute. reflexivity. Qed.
Example c64_into : exists d, watch [Line 1; StepInto; Enter 1; Line 4] = Ok (d, [false; false; false; true]).
Proof. eexists. vm_compute. reflexivity. Qed.

Print Assumptions c64_call_depth.
Print Assumptions c64_current_line.
Print Assumptions c64_current_function.
Print Assumptions c64_breakpoint_stops.
Print Assumptions c64_nothing_else_stops.
Print Assumptions c64_step_into.
Print Assumptions c64_step_over.
Print Assumptions c64_run_to_line.
Print Assumptions c64_run_after_step_refuted.
Print Assumptions c64_call_stack_refuted.
Print Assumptions c64_remove_reads_freed_refuted.
