(* Proofs for DebugModel. *)
From Verif Require Import Base.
From Verif Require Import GCModel LinkedModel LinkedSpec LinkedProofs DebugModel DebugSpec.
From Coq Require Import List.
Open Scope list_scope. Open Scope Z_scope.

(* what an event does to the server: whether the program stops *)
Definition react (e : event) (d : server) : res (server * bool) :=
  let breaks := fun r : res (ll Z) => match r with Ok b => Ok (with_breaks b d, false) | UB => UB | OutOfFuel => OutOfFuel end in
  match e with
  | Line n => codeword (0x4000 + n) d
  | Enter u => codeword u d
  | Leave => codeword 0x8000 d
  | SetBreak n => breaks (set_breakpoint n (d_breaks d))
  | ClearBreak n => breaks (clear_breakpoint n (d_breaks d))
  | StepOver => Ok (step_over 0 d, false)
  | StepInto => Ok (step_into 0 d, false)
  | RunTo n => Ok (mkServer (d_breaks d) (d_stack d) n (d_steps d) (d_depth d) (d_halted d), false)
  end.
Fixpoint react_all (l : list event) (d : server) : res (server * list bool) :=
  match l with
  | [] => Ok (d, [])
  | e :: l => match react e d with
              | Ok (d1, b) => match react_all l d1 with Ok (d2, bs) => Ok (d2, b :: bs) | UB => UB | OutOfFuel => OutOfFuel end
              | UB => UB | OutOfFuel => OutOfFuel
              end
  end.

Definition lists {A} (l : ll A) (xs : list A) : Prop := exists ps pos, repr l ps pos /\ map snd ps = xs.
Lemma find_spec v ps : forall fuel l p, repr l ps (Some p) -> (length ps - p < fuel)%nat -> (p < length ps)%nat ->
  exists l1 q, find_break fuel v l (nth_error (map fst ps) p) = Ok (l1, q) /\ (exists pos1, repr l1 ps pos1) /\
    match q with
    | Some a => exists i, nth_error (map fst ps) i = Some a /\ nth_error (map snd ps) i = Some v
    | None => forall i, (p <= i)%nat -> nth_error (map snd ps) i <> Some v
    end.
Proof.
  induction fuel as [|fuel IH]; intros l p R LF L; [lia|]. cbn [find_break]. destruct (nth_error ps p) as [[a x]|] eqn:E; [|apply nth_error_None in E; lia].
  pose proof (map_nth_error fst _ _ E) as E1. pose proof (map_nth_error snd _ _ E) as E2. cbn [fst snd] in *. pose proof (item_repr _ _ _ p R) as IT. rewrite E1, E2 in IT. rewrite E1. cbn [ll_item] in IT.
  destruct (l_mem l a) as [n|] eqn:M; [|discriminate IT]. injection IT as IT. rewrite IT. destruct (Z.eqb_spec x v) as [->|N].
  - exists l, (Some a). split; [reflexivity|]. split; [eauto|]. exists p. auto.
  - destruct (next_repr _ _ _ R) as (l1 & EX & R1). rewrite EX. unfold following in R1. destruct (Nat.ltb_spec (S p) (length ps)) as [B|B].
    + destruct (IH l1 (S p) R1) as (l2 & q & F & RR & S); [lia|exact B|]. exists l2, q. split; [exact F|]. split; [exact RR|]. destruct q as [b|]; [exact S|]. intros i LI. destruct (Nat.eq_dec i p) as [->|NI]; [rewrite E2; congruence|apply S; lia].
    + rewrite (proj2 (nth_error_None _ _)) by (rewrite map_length; exact B). destruct fuel; [lia|]. exists l1, None. split; [reflexivity|]. split; [eauto|]. intros i LI. destruct (Nat.eq_dec i p) as [->|NI]; [rewrite E2; congruence|].
      rewrite (proj2 (nth_error_None _ _)) by (rewrite map_length; lia). discriminate.
Qed.
Lemma search_spec v l ps pos : repr l ps pos ->
  exists l1 q, search_break v l = Ok (l1, q) /\ (exists pos1, repr l1 ps pos1) /\
    match q with
    | Some a => exists i, nth_error (map fst ps) i = Some a /\ nth_error (map snd ps) i = Some v
    | None => ~ In v (map snd ps)
    end.
Proof.
  intros R. pose proof (repr_small _ _ _ R) as SM. unfold search_break. destruct (first_repr _ _ _ R) as (l1 & E & R1). rewrite E. destruct ps as [|c ps].
  - cbn. exists l1, None. eauto.
  - destruct (find_spec v (c :: ps) (S (l_fresh l)) l1 0 R1) as (l2 & q & F & RR & S); [lia|cbn; lia|]. exists l2, q. split; [exact F|]. split; [exact RR|]. destruct q; [exact S|].
    intros I. apply In_nth_error in I as (i & I). apply (S i); [lia|exact I].
Qed.
(* the breakpoints *)
Definition breaks_are (l : ll Z) (f : Z -> bool) : Prop := exists xs, lists l xs /\ NoDup xs /\ forall z, In z xs <-> f z = true.
Lemma without_at {A} (u : list A) x s : without (length u) (u ++ x :: s) = u ++ s.
Proof.
  unfold without. rewrite firstn_app, skipn_app. replace (length u - length u)%nat with O by lia. replace (S (length u) - length u)%nat with 1%nat by lia.
  rewrite firstn_all, (skipn_all2 u) by lia. cbn. now rewrite app_nil_r.
Qed.
Lemma clear_spec v l f : breaks_are l f -> exists l1, clear_breakpoint v l = Ok l1 /\ breaks_are l1 (fun z => if v =? z then false else f z).
Proof.
  intros (xs & (ps & pos & R & <-) & ND & IN). unfold clear_breakpoint. destruct (search_spec v l ps pos R) as (l1 & q & E & (pos1 & R1) & S). rewrite E. destruct q as [a|].
  - destruct S as (i & S1 & S2). rewrite <- S1. destruct (pop_item_repr _ _ _ i R1) as (l2 & ps2 & E2 & R2 & M2). exists l2. split; [exact E2|].
    apply nth_error_split in S2 as (u & s & S2 & LU). unfold removed in M2. rewrite S2 in *. rewrite app_length in M2. cbn [length] in M2. destruct (Nat.ltb_spec i (length u + S (length s))) as [_|X]; [|lia]. cbn [fst] in M2. rewrite <- LU, without_at in M2.
    exists (u ++ s). split; [exists ps2; eauto|]. split; [now apply NoDup_remove_1 in ND|]. intros z. apply NoDup_remove_2 in ND. specialize (IN z). rewrite in_app_iff in *. cbn [In] in IN. destruct (Z.eqb_spec v z) as [->|N].
    + split; [intros X; contradiction|discriminate].
    + rewrite <- IN. intuition congruence.
  - exists l1. split; [reflexivity|]. exists (map snd ps). split; [exists ps; eauto|]. split; [exact ND|]. intros z. rewrite IN. destruct (Z.eqb_spec v z) as [->|N]; [|reflexivity]. split; [intros X; apply IN in X; contradiction|discriminate].
Qed.
Lemma set_spec v l f : breaks_are l f -> exists l1, set_breakpoint v l = Ok l1 /\ breaks_are l1 (fun z => if v =? z then true else f z).
Proof.
  intros B. unfold set_breakpoint. destruct (clear_spec v l f B) as (l1 & E & (xs & (ps & pos & R & <-) & ND & IN)). rewrite E. destruct (add_tail_repr _ _ _ v R) as (l2 & a & E2 & R2). exists l2. split; [exact E2|].
  exists (map snd ps ++ [v]). split; [exists (ps ++ [(a, v)]), pos; split; [exact R2|now rewrite map_app]|].
  assert (NV : ~ In v (map snd ps)) by (rewrite IN, Z.eqb_refl; discriminate).
  split; [rewrite <- (rev_involutive (map snd ps ++ [v])); apply NoDup_rev; rewrite rev_app_distr; cbn; constructor; [rewrite <- in_rev; exact NV|now apply NoDup_rev]|].
  intros z. rewrite in_app_iff, IN. cbn [In]. destruct (Z.eqb_spec v z) as [->|N]; [tauto|]. split; [intros [X|[X|[]]]; [exact X|congruence]|now left].
Qed.
Lemma search_breaks v l f : breaks_are l f -> exists l1 q, search_break v l = Ok (l1, q) /\ breaks_are l1 f /\ (match q with Some _ => true | None => false end) = f v.
Proof.
  intros (xs & (ps & pos & R & <-) & ND & IN). destruct (search_spec v l ps pos R) as (l1 & q & E & (pos1 & R1) & S). exists l1, q. split; [exact E|]. split; [exists (map snd ps); split; [exists ps; eauto|auto]|].
  destruct q as [a|]; [destruct S as (i & _ & S); symmetry; apply IN; eapply nth_error_In; eauto|]. destruct (f v) eqn:F; [|reflexivity]. apply IN in F. contradiction.
Qed.
(* the call stack *)
Lemma lists_end {A} (l : ll A) xs : lists l xs -> xs <> [] -> exists ps x t pos, repr l (ps ++ [(t, x)]) pos /\ xs = map snd ps ++ [x] /\ l_tail l = Some t /\ l_mem l t = Some (mkNode x None).
Proof.
  intros (ps & pos & R & <-) NE. assert (NP : ps <> []) by (intros ->; now apply NE). destruct (exists_last NP) as (r & [t x] & ->). exists r, x, t, pos. split; [exact R|]. split; [now rewrite map_app|].
  split; [now rewrite (r_tail _ _ _ R), final_app|]. pose proof (r_seg _ _ _ R) as SG. apply seg_app in SG as (q & _ & SA). now apply seg_next in SA as (_ & M & _).
Qed.
Definition lined (line : Z) (e : entry) : entry := mkEntry line (e_from e) (e_unit e).
Lemma set_line_spec line l xs x : lists l (xs ++ [x]) -> exists l1, set_line line l = Ok l1 /\ lists l1 (xs ++ [lined line x]).
Proof.
  intros L. destruct (lists_end _ _ L) as (ps & y & t & pos & R & E & TL & M); [intros X; now destruct xs|]. apply app_inj_tail in E as [-> <-]. unfold set_line. rewrite TL, M. cbn [n_item n_next]. eexists. split; [reflexivity|].
  exists (ps ++ [(t, lined line x)]), pos. split; [|now rewrite map_app].
  assert (MF : map fst (ps ++ [(t, lined line x)]) = map fst (ps ++ [(t, x)])) by (now rewrite !map_app).
  assert (NR : ~ In t (map fst ps)). { pose proof (r_dup _ _ _ R) as ND. rewrite map_app in ND. cbn in ND. apply NoDup_remove_2 in ND. now rewrite app_nil_r in ND. }
  pose proof (r_seg _ _ _ R) as SG. apply seg_app in SG as (q & SP & SA). apply seg_next in SA as (-> & _ & _).
  split; cbn [l_mem l_fresh l_head l_tail l_iter].
  - apply seg_app. exists (Some t). split; [now apply seg_put|]. cbn [seg]. split; [reflexivity|]. exists None. split; [apply put_same|reflexivity].
  - rewrite MF. apply R.
  - now rewrite final_app.
  - rewrite MF. apply R.
  - rewrite MF. intros a n MM. destruct (Nat.eq_dec a t) as [->|N]; [rewrite map_app; apply in_or_app; right; now left|]. rewrite put_other in MM by exact N. eapply r_mem; eauto.
  - rewrite (r_iter _ _ _ R). unfold addr. now rewrite MF.
  - rewrite app_length. intros p P. pose proof (r_pos _ _ _ R p P) as X. rewrite app_length in X. exact X.
Qed.
Lemma add_tail_lists {A} (l : ll A) xs x : lists l xs -> exists l1, ll_add_tail x l = Ok l1 /\ lists l1 (xs ++ [x]).
Proof. intros (ps & pos & R & <-). destruct (add_tail_repr _ _ _ x R) as (l1 & a & E & R1). exists l1. split; [exact E|]. exists (ps ++ [(a, x)]), pos. split; [exact R1|now rewrite map_app]. Qed.
Lemma pop_head_lists {A} (l : ll A) x xs : lists l (x :: xs) -> exists l1, ll_pop_head l = Ok (l1, Some x) /\ lists l1 xs.
Proof. intros (ps & pos & R & E). destruct ps as [|[a y] ps]; [discriminate E|]. injection E as -> <-. destruct (pop_head_repr _ _ _ _ _ R) as (l1 & E1 & R1). exists l1. split; [exact E1|]. exists ps. eauto. Qed.
Lemma new_lists {A} : lists (@ll_new A) [].
Proof. exists [], None. split; [apply new_repr|reflexivity]. Qed.

(* the codewords *)
Lemma land_table : forallb (fun n => (Z.land (0x4000 + n) 0xC000 =? 0x4000) && (Z.land (0x4000 + n) 0x3FFF =? n) && (Z.land n 0xC000 =? 0) && (Z.land n 0x3FFF =? n)) (map Z.of_nat (seq 0 (Z.to_nat 16384))) = true.
Proof. vm_compute. reflexivity. Qed.
Lemma land_word n : 0 <= n < 16384 -> Z.land (0x4000 + n) 0xC000 = 0x4000 /\ Z.land (0x4000 + n) 0x3FFF = n /\ Z.land n 0xC000 = 0 /\ Z.land n 0x3FFF = n.
Proof.
  intros R. pose proof (proj1 (forallb_forall _ _) land_table n) as X. cbv beta in X. assert (I : In n (map Z.of_nat (seq 0 (Z.to_nat 16384)))).
  { apply in_map_iff. exists (Z.to_nat n). split; [lia|]. apply in_seq. lia. }
  specialize (X I). repeat (apply andb_prop in X as [X ?]). repeat split; lia.
Qed.

(* ---------------------------------------------------------------- a server and what it is at *)
(* the program has entered one function less than the stack has entries *)
Definition innermost (es : list entry) (before : list event) : Prop := forall b e, before = b ++ [e] ->
  match e with
  | Line n => exists es' x, es = es' ++ [x] /\ e_line x = n
  | Enter u => exists es' x, es = es' ++ [x] /\ e_unit x = u
  | _ => True
  end.
Record at_ (d : server) (before : list event) : Prop := {
  a_breaks : breaks_are (d_breaks d) (armed before);
  a_stack : exists es, lists (d_stack d) es /\ Z.of_nat (length es) = 1 + level before /\ innermost es before }.
Lemma armed_snoc l e n : armed (l ++ [e]) n = match e with SetBreak z => if z =? n then true else armed l n | ClearBreak z => if z =? n then false else armed l n | _ => armed l n end.
Proof. unfold armed. rewrite fold_left_app. reflexivity. Qed.
Lemma level_snoc l e : level (l ++ [e]) = match e with Enter _ => level l + 1 | Leave => level l - 1 | _ => level l end.
Proof. unfold level. rewrite fold_left_app. reflexivity. Qed.
Lemma breaks_ext l f g : (forall z, f z = g z) -> breaks_are l f -> breaks_are l g.
Proof. intros E (xs & L & ND & IN). exists xs. split; [exact L|]. split; [exact ND|]. intros z. now rewrite <- E. Qed.
(* the numbers of the server after an event, and whether it stops *)
Definition numbers := (Z * Z * Z)%type.         (* stop line, steps, depth *)
Definition numbers_of (d : server) : numbers := (d_stop_line d, d_steps d, d_depth d).
Definition counts (e : event) (armed_here : bool) (n : numbers) : numbers * bool :=
  let '(stop, steps, depth) := n in
  match e with
  | Line l =>
    if armed_here then (n, true)
    else if (depth <=? 0) && negb (steps =? 0) then
      (if steps =? 1 then (0, 0, -1, true) else if l =? stop then (0, steps - 1, depth, true) else (stop, steps - 1, depth, false))
    else if l =? stop then (0, steps, depth, true) else (n, false)
  | Enter _ => (stop, steps, if 0 <=? depth then depth + 1 else depth, false)
  | Leave => (stop, steps, if 0 <=? depth then depth - 1 else depth, false)
  | StepOver => (0, 1, 0, false)
  | StepInto => (0, 1, -1, false)
  | RunTo l => (l, steps, depth, false)
  | SetBreak _ | ClearBreak _ => (n, false)
  end.
Lemma react_spec e d before : at_ d before -> in_range e -> 0 <= level before -> 0 <= level (before ++ [e]) ->
  exists d1, react e d = Ok (d1, snd (counts e (match e with Line l => armed before l | _ => false end) (numbers_of d))) /\
    numbers_of d1 = fst (counts e (match e with Line l => armed before l | _ => false end) (numbers_of d)) /\ at_ d1 (before ++ [e]).
Proof.
  intros [AB (es & LS & LN & _)] IR LB LV. rewrite level_snoc in LV. destruct e; cbn [react counts numbers_of]; cbn [in_range] in IR; cbv iota in LV.
  - destruct (land_word n ltac:(lia)) as (W1 & W2 & _). unfold codeword. rewrite W1, W2. change (16384 =? 16384) with true. cbv iota. unfold on_line.
    assert (NE : es <> []) by (intros ->; cbn [length] in LN; lia). destruct (exists_last NE) as (es' & x & ->). destruct (set_line_spec n _ _ _ LS) as (st & E1 & L1). rewrite E1. cbn [with_stack d_breaks].
    destruct (search_breaks n _ _ AB) as (b & q & E2 & B2 & Q). rewrite E2. cbn [with_breaks with_stack d_breaks d_stack d_stop_line d_steps d_depth d_halted].
    assert (FIN : forall d1, d_breaks d1 = b -> d_stack d1 = st -> at_ d1 (before ++ [Line n])).
    { intros d1 D1 D2. split; [rewrite D1; apply (breaks_ext _ (armed before)); [intros z; now rewrite armed_snoc|exact B2]|]. rewrite D2. exists (es' ++ [lined n x]). split; [exact L1|]. split; [rewrite level_snoc, <- LN, !app_length; reflexivity|]. intros b' e' X. apply app_inj_tail in X as [_ <-]. exists es', (lined n x). auto. }
    destruct q as [a|]; rewrite <- Q; cbn [fst snd].
    + eexists. split; [reflexivity|]. split; [reflexivity|]. now apply FIN.
    + destruct ((d_depth d <=? 0) && negb (d_steps d =? 0)) eqn:C; cbn [andb d_steps d_stop_line d_breaks d_stack d_depth d_halted].
      * replace (d_steps d - 1 =? 0) with (d_steps d =? 1) by lia. destruct (d_steps d =? 1) eqn:S1; cbn [fst snd].
        -- eexists. split; [reflexivity|]. split; [unfold numbers_of; cbn; repeat f_equal; lia|]. now apply FIN.
        -- destruct (n =? d_stop_line d); cbn [fst snd]; (eexists; split; [reflexivity|]; split; [reflexivity|]; now apply FIN).
      * cbn [with_breaks with_stack d_breaks d_stack d_stop_line d_steps d_depth d_halted]. destruct (n =? d_stop_line d); cbn [fst snd]; (eexists; split; [reflexivity|]; split; [reflexivity|]; now apply FIN).
  - destruct (land_word u ltac:(lia)) as (_ & _ & W1 & W2). unfold codeword. rewrite W1, W2. change (0 =? 16384) with false. change (0 =? 0) with true. cbv iota. unfold on_call.
    destruct (Z.eqb_spec u 0x0F00); [lia|]. destruct (Z.eqb_spec u 0x0E00); [lia|]. cbn [deeper d_stack].
    destruct (lists_end _ _ LS) as (ps & x & t & pos & R & -> & TL & M); [intros ->; cbn [length] in LN; lia|]. rewrite TL. cbn [ll_item]. rewrite M. cbn [n_item]. rewrite Z.mod_small by lia. destruct (Z.eqb_spec u 0); [lia|].
    destruct (add_tail_lists _ _ (mkEntry (-1) (e_unit x) u) LS) as (st & E & L1). rewrite E. eexists. split; [reflexivity|]. split; [reflexivity|].
    split; cbn [with_stack deeper d_breaks d_stack]; [apply (breaks_ext _ (armed before)); [intros z; now rewrite armed_snoc|exact AB]|]. eexists. split; [exact L1|]. split; [rewrite level_snoc, app_length; cbn [length]; lia|]. intros b' e' X. apply app_inj_tail in X as [_ <-]. eauto.
  - unfold codeword. change (Z.land 32768 0xC000) with 32768. change (32768 =? 16384) with false. change (32768 =? 0) with false. change (32768 =? 32768) with true. cbv iota. unfold on_return.
    destruct es as [|x es]; [cbn [length] in LN; lia|]. destruct (pop_head_lists _ _ _ LS) as (st & E & L1). rewrite E. eexists. split; [reflexivity|]. split; [reflexivity|].
    split; cbn [with_stack shallower d_breaks d_stack]; [apply (breaks_ext _ (armed before)); [intros z; now rewrite armed_snoc|exact AB]|]. exists es. split; [exact L1|]. rewrite level_snoc. cbn [length] in LN. split; [lia|]. intros b' e' X. apply app_inj_tail in X as [_ <-]. exact I.
  - destruct (set_spec n _ _ AB) as (b & E & B1). rewrite E. eexists. split; [reflexivity|]. split; [reflexivity|]. split; cbn [with_breaks d_breaks d_stack].
    + eapply breaks_ext; [|exact B1]. intros z. now rewrite armed_snoc.
    + exists es. rewrite level_snoc. split; [exact LS|]. split; [exact LN|]. intros b' e' X. apply app_inj_tail in X as [_ <-]. exact I.
  - destruct (clear_spec n _ _ AB) as (b & E & B1). rewrite E. eexists. split; [reflexivity|]. split; [reflexivity|]. split; cbn [with_breaks d_breaks d_stack].
    + eapply breaks_ext; [|exact B1]. intros z. now rewrite armed_snoc.
    + exists es. rewrite level_snoc. split; [exact LS|]. split; [exact LN|]. intros b' e' X. apply app_inj_tail in X as [_ <-]. exact I.
  - eexists. split; [reflexivity|]. split; [reflexivity|]. split; [apply (breaks_ext _ (armed before)); [intros z; now rewrite armed_snoc|exact AB]|]. exists es. rewrite level_snoc. split; [exact LS|]. split; [exact LN|]. intros b' e' X. apply app_inj_tail in X as [_ <-]. exact I.
  - eexists. split; [reflexivity|]. split; [reflexivity|]. split; [apply (breaks_ext _ (armed before)); [intros z; now rewrite armed_snoc|exact AB]|]. exists es. rewrite level_snoc. split; [exact LS|]. split; [exact LN|]. intros b' e' X. apply app_inj_tail in X as [_ <-]. exact I.
  - eexists. split; [reflexivity|]. split; [reflexivity|]. split; [apply (breaks_ext _ (armed before)); [intros z; now rewrite armed_snoc|exact AB]|]. exists es. rewrite level_snoc. split; [exact LS|]. split; [exact LN|]. intros b' e' X. apply app_inj_tail in X as [_ <-]. exact I.
Qed.

(* what whole histories do to the numbers *)
Fixpoint counts_all (l before : list event) (n : numbers) : numbers * list bool :=
  match l with
  | [] => (n, [])
  | e :: l => let '(n1, b) := counts e (match e with Line z => armed before z | _ => false end) n in
              let '(n2, bs) := counts_all l (before ++ [e]) n1 in (n2, b :: bs)
  end.
Lemma nested_head l e r : nested (l ++ e :: r) -> 0 <= level (l ++ [e]).
Proof. intros N. apply (N _ r). now rewrite <- app_assoc. Qed.
Lemma react_all_spec : forall l d before, at_ d before -> Forall in_range l -> nested (before ++ l) ->
  exists d1, react_all l d = Ok (d1, snd (counts_all l before (numbers_of d))) /\ numbers_of d1 = fst (counts_all l before (numbers_of d)) /\ at_ d1 (before ++ l).
Proof.
  induction l as [|e l IH]; intros d before A F N; cbn [react_all counts_all].
  - exists d. rewrite app_nil_r. auto.
  - inversion F as [|? ? F1 F2]; subst. destruct (react_spec e d before A F1 (N _ _ eq_refl) (nested_head _ _ _ N)) as (d1 & E & NU & A1). rewrite E. destruct (counts e _ (numbers_of d)) as [n1 b] eqn:EC. cbn [fst snd] in *.
    destruct (IH d1 (before ++ [e]) A1 F2) as (d2 & E2 & NU2 & A2); [now rewrite <- app_assoc|]. rewrite E2. rewrite NU in *. destruct (counts_all l (before ++ [e]) n1) as [n2 bs]. cbn [fst snd] in *. exists d2. rewrite <- app_assoc in A2. auto.
Qed.
Lemma counts_all_app : forall a b before n, counts_all (a ++ b) before n = (let '(n1, x) := counts_all a before n in let '(n2, y) := counts_all b (before ++ a) n1 in (n2, x ++ y)).
Proof.
  induction a as [|e a IH]; intros b before n; cbn [app counts_all].
  - rewrite app_nil_r. destruct (counts_all b before n). reflexivity.
  - destruct (counts e _ n) as [n1 x]. rewrite IH. destruct (counts_all a (before ++ [e]) n1) as [n2 y]. rewrite <- app_assoc. cbn [app]. destruct (counts_all b (before ++ e :: a) n2). reflexivity.
Qed.
Lemma counts_all_len : forall a before n, length (snd (counts_all a before n)) = length a.
Proof.
  induction a as [|e a IH]; intros before n; cbn [counts_all]; [reflexivity|]. destruct (counts e _ n) as [n1 x]. specialize (IH (before ++ [e]) n1). destruct (counts_all a (before ++ [e]) n1). cbn in *. congruence.
Qed.
(* the server before a program runs, and when its first run is asked for *)
Definition fresh_server : server := mkServer ll_new ll_new 0 0 (-1) true.
Lemma first_spec : exists d, first_run fresh_server = Ok d /\ at_ d [] /\ numbers_of d = (0, 0, -1).
Proof.
  unfold first_run, fresh_server. cbn [d_stack d_breaks d_stop_line d_steps d_depth]. destruct (add_tail_lists ll_new [] (mkEntry 0 0 0) new_lists) as (st & E & L).
  eexists. split; [vm_compute; reflexivity|]. split; [|reflexivity]. split.
  - exists []. split; [apply new_lists|]. split; [constructor|]. intros z. split; [intros []|discriminate].
  - vm_compute in E. injection E as <-. exists [mkEntry 0 0 0]. split; [exact L|]. split; [reflexivity|]. intros [|? ?] e0 X; discriminate X.
Qed.

(* the command of the debugger *)
Lemma toggle_spec v l f : breaks_are l f ->
  if f v then toggle v l = UB else exists l1, toggle v l = Ok (l1, (true, v)) /\ breaks_are l1 (fun z => if v =? z then true else f z).
Proof.
  intros (xs & (ps & pos & R & <-) & ND & IN). unfold toggle. destruct (search_spec v l ps pos R) as (l1 & q & E & (pos1 & R1) & S). rewrite E. destruct q as [a|].
  - destruct S as (i & S1 & S2). assert (F : f v = true) by (apply IN; eapply nth_error_In; eauto). rewrite F. destruct (pop_item_freed _ _ _ i R1) as (l2 & ps2 & E2 & R2 & _ & NI). rewrite S1 in E2. rewrite E2.
    destruct (l_mem l2 a) as [n|] eqn:M; [|reflexivity]. exfalso. apply (NI a S1). eapply r_mem; eauto.
  - destruct (f v) eqn:F; [apply IN in F; contradiction|]. eexists. split; [reflexivity|]. destruct (add_head_repr _ _ _ v R1) as (a & R2). exists (v :: map snd ps). split; [eexists _, _; split; [exact R2|reflexivity]|].
    split; [constructor; [rewrite IN; congruence|exact ND]|]. intros z. cbn [In]. rewrite IN. destruct (Z.eqb_spec v z) as [->|N]; [tauto|]. split; [intros [X|X]; [congruence|exact X]|now right].
Qed.
