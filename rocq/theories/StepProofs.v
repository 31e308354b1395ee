(* The emitter's operations as steps of a block under construction. *)
From Verif Require Import Base BaseLemmas OpsModel VmModel EmitModel CcModel JumpSpec JumpProofs JumpProps LinkSpec CtlSpec LayProofs AppendProofs.
Require Import Permutation.

Definition off_of (b : bcode) (t : nat) : option Z := option_map j_off (nth_error (b_jumps b) t).
(* labels stay where they are, except one *)
Definition keeps (d : option nat) (b b1 : bcode) : Prop :=
  forall t, Some t <> d -> (t < length (b_jumps b))%nat -> off_of b1 t = off_of b t.
Record stepd (d : option nat) (b b1 : bcode) : Prop := {
  sd_ext : ext b b1;
  sd_inv : inv b1;
  sd_keeps : keeps d b b1
}.
Lemma stepd_refl d b : inv b -> stepd d b b.
Proof. intros I. constructor; [apply ext_refl|exact I|]. intros t _ _. reflexivity. Qed.
Lemma stepd_trans d a b c : stepd d a b -> stepd d b c -> stepd d a c.
Proof.
  intros [X1 X2 X3] [Y1 Y2 Y3]. constructor; [eapply ext_trans; eauto|exact Y2|].
  intros t N L. rewrite Y3, X3; auto. pose proof (ex_len _ _ X1). lia.
Qed.
Lemma stepd_weaken d b b1 : stepd None b b1 -> stepd d b b1.
Proof. intros [X1 X2 X3]. constructor; auto. intros t _ L. apply X3; [discriminate|exact L]. Qed.
(* targets made since are nobody else's business *)
Lemma stepd_new t b b1 : stepd (Some t) b b1 -> (length (b_jumps b) <= t)%nat -> stepd None b b1.
Proof. intros [X1 X2 X3] L. constructor; auto. intros t' _ L'. apply X3; [injection 1; lia|exact L']. Qed.

(* the labels L of the image agree with those of the block, from label [lo] on *)
Definition lok (B : Z) (L : nat -> Z) (lo : nat) (b : bcode) : Prop :=
  forall t j, (lo <= t)%nat -> nth_error (b_jumps b) t = Some j -> L t = B + j_off j.
Lemma lok_off B L lo b t z : lok B L lo b -> (lo <= t)%nat -> off_of b t = Some z -> L t = B + z.
Proof.
  intros K G E. unfold off_of in E. destruct (nth_error (b_jumps b) t) as [j|] eqn:N; [|discriminate]. injection E as <-. eauto.
Qed.
Lemma lok_back B L lo lo' d b b1 : lok B L lo b1 -> keeps d b b1 -> (lo <= lo')%nat ->
  (forall t, d = Some t -> (t < lo')%nat) -> lok B L lo' b.
Proof.
  intros K KP G D t j T N. assert (E : off_of b1 t = Some (j_off j)).
  { rewrite KP; [unfold off_of; now rewrite N| |].
    - intros E. specialize (D t (eq_sym E)). lia.
    - apply nth_error_Some. rewrite N. discriminate. }
  eapply lok_off; eauto. lia.
Qed.

(* ---- positions only ---- *)
Lemma step_target b : inv b -> stepd None b (fst (add_target b)) /\ off_of (fst (add_target b)) (length (b_jumps b)) = Some 0.
Proof.
  intros I. destruct (ext_target b I) as [X Y]. split.
  - constructor; auto. intros t _ L. unfold off_of, add_target. cbn [fst set_jumps b_jumps]. now rewrite nth_error_app1.
  - unfold off_of, add_target. cbn [fst set_jumps b_jumps]. rewrite nth_error_app2, Nat.sub_diag by lia. reflexivity.
Qed.
Lemma step_set t b b' : inv b -> set_target t b = COk b' ->
  stepd (Some t) b b' /\ off_of b' t = Some (size b) /\ b_all b' = b_all b /\ b_ops b' = b_ops b /\
  length (b_jumps b') = length (b_jumps b) /\ (t < length (b_jumps b))%nat.
Proof.
  intros I E. destruct (ext_set_target t b b' I E) as [X Y]. apply set_target_eq in E as (j & N & ->).
  assert (T : (t < length (b_jumps b))%nat) by (apply nth_error_Some; rewrite N; discriminate).
  split; [|split; [|split; [reflexivity|split; [reflexivity|split; [|exact T]]]]].
  - constructor; auto. intros t' D L. unfold off_of. cbn [set_jumps b_jumps]. rewrite upd_other; [reflexivity|].
    intros ->. now apply D.
  - unfold off_of. cbn [set_jumps b_jumps]. now rewrite upd_same.
  - cbn [set_jumps b_jumps]. apply upd_length.
Qed.
(* every jump of the block goes to its label *)
Definition resolved (b : bcode) : Prop := forall t j ref k t0 n,
  nth_error (b_jumps b) t = Some j -> In ref (j_refs j) -> jump_at (b_all b) (ref - 1) = Some (k, t0, n) -> t0 = j_off j.
Lemma step_resolve b b' : inv b -> resolve_jumps b = COk b' ->
  stepd None b b' /\ resolved b' /\ b_ops b' = b_ops b /\ size b' = size b /\ b_jumps b' = b_jumps b.
Proof.
  intros I E. destruct (ext_resolve b b' I E) as (X & Y & J & O & S & R).
  split; [|split; [exact R|auto]]. constructor; auto. intros t _ _. unfold off_of. now rewrite J.
Qed.

(* ---- code ---- *)
Lemma sites_shift n l : sites (map (shift_refs n) l) = map (fun s => (fst s, snd s + n)) (sites l).
Proof.
  unfold sites. induction l as [|(h & rs) l IH]; [reflexivity|]. cbn [map flat_map]. rewrite IH, map_app. f_equal.
  unfold shift_refs. cbn [fst snd]. rewrite !map_map. reflexivity.
Qed.
Lemma intervals_merge b e : Permutation (intervals (merge_spaces b e)) (intervals b ++ map (shift_by (size b)) (intervals e)).
Proof.
  unfold intervals, call_sites, object_sites, merge_spaces. cbn [b_fns b_objs b_gotos].
  assert (SA : forall x y, sites (x ++ y) = sites x ++ sites y) by (intros; unfold sites; apply flat_map_app).
  rewrite !SA, !sites_shift, !map_app, !map_map. unfold shift_by. cbn [fst snd].
  set (f1 := map _ (sites (b_fns b))). set (f2 := map _ (sites (b_fns e))). set (o1 := map _ (sites (b_objs b))).
  set (o2 := map _ (sites (b_objs e))). set (g1 := map _ (b_gotos b)). set (g2 := map _ (b_gotos e)).
  rewrite <- !app_assoc. apply Permutation_app_head.
  transitivity (f2 ++ o1 ++ (o2 ++ g1) ++ g2); [now rewrite !app_assoc|].
  transitivity (f2 ++ o1 ++ (g1 ++ o2) ++ g2).
  - do 2 apply Permutation_app_head. apply Permutation_app_tail. apply Permutation_app_comm.
  - rewrite <- app_assoc. rewrite (app_assoc o1 g1). rewrite (app_assoc o1 g1 (f2 ++ _)).
    apply Permutation_app_swap_app.
Qed.
Lemma patched_merge b e i : patched (merge_spaces b e) i <-> patched b i \/ patched e (i - size b).
Proof. apply patched_perm, intervals_merge. Qed.
Lemma refers_merge b e fn h r : refers (merge_spaces b e) fn h r <-> refers b fn h r \/ refers e fn h (r - size b).
Proof.
  unfold refers, merge_spaces. cbn [b_fns b_objs].
  assert (A : forall fb fe, (exists rs, In (h, rs) (fb ++ map (shift_refs (size b)) fe) /\ In r rs) <->
    (exists rs, In (h, rs) fb /\ In r rs) \/ (exists rs, In (h, rs) fe /\ In (r - size b) rs)).
  { intros fb fe. split.
    - intros (rs & I & R). apply in_app_or in I as [I|I]; [left; exists rs; auto|].
      apply in_map_iff in I as ((h0 & rs0) & E & I). injection E as <- <-. cbn in *. apply in_map_iff in R as (r0 & <- & R).
      right. exists rs0. split; [exact I|]. now replace (r0 + size b - size b) with r0 by lia.
    - intros [(rs & I & R)|(rs & I & R)].
      + exists rs. split; [apply in_or_app; auto|auto].
      + exists (map (fun x => x + size b) rs). split.
        * apply in_or_app. right. apply in_map_iff. exists (h, rs). auto.
        * apply in_map_iff. exists (r - size b). split; [lia|exact R]. }
  destruct fn; apply A.
Qed.
Lemma refers_frame b b1 fn h r : b1 = set_code b (b_all b1) (b_ops b1) -> (refers b1 fn h r <-> refers b fn h r).
Proof. intros E. rewrite E. reflexivity. Qed.
Lemma patched_frame b b1 i : b1 = set_code b (b_all b1) (b_ops b1) -> (patched b1 i <-> patched b i).
Proof. intros E. rewrite E. reflexivity. Qed.
Lemma merge_jumps b e : plain e -> b_jumps (merge_spaces b e) = b_jumps b.
Proof. intros [J G]. unfold merge_spaces. cbn [b_jumps]. rewrite J. cbn. apply app_nil_r. Qed.

(* b1 is b with the code P of e behind it *)
Record appended (b : bcode) (e : bcode) (P : list Z) (b1 : bcode) : Prop := {
  ap_all : b_all b1 = b_all b ++ P;
  ap_jumps : b_jumps b1 = b_jumps b;
  ap_sites : Permutation (intervals b1) (intervals b ++ map (shift_by (size b)) (intervals e));
  ap_gotos : b_gotos b1 = b_gotos b;
  ap_refers : forall fn h r, refers b1 fn h r <-> refers b fn h r \/ refers e fn h (r - size b);
  ap_inside : sites_within e P
}.
Lemma ap_patch b e P b1 : appended b e P b1 -> forall i, patched b1 i <-> patched b i \/ patched e (i - size b).
Proof. intros A i. apply patched_perm, (ap_sites _ _ _ _ A). Qed.
Lemma ap_within b e P b1 : appended b e P b1 -> patched_within e (lenZ P).
Proof. intros A. exact (sites_patched _ _ (ap_inside _ _ _ _ A)). Qed.
Lemma ap_size b e P b1 : appended b e P b1 -> size b1 = size b + lenZ P.
Proof. intros A. unfold size. rewrite (ap_all _ _ _ _ A), lenZ_app. reflexivity. Qed.
Lemma step_code b e P b1 : inv b -> appended b e P b1 -> stepd None b b1.
Proof.
  intros I A. destruct (grow b b1 e P) as [X Y]; auto.
  - apply (ap_all _ _ _ _ A).
  - apply (ap_sites _ _ _ _ A).
  - apply (ap_inside _ _ _ _ A).
  - apply (ap_refers _ _ _ _ A).
  - apply (ap_gotos _ _ _ _ A).
  - left. apply (ap_jumps _ _ _ _ A).
  - constructor; auto. intros t _ _. unfold off_of. now rewrite (ap_jumps _ _ _ _ A).
Qed.
Lemma jumpy_old b b1 i : inv b -> b_jumps b1 = b_jumps b -> (exists P, b_all b1 = b_all b ++ P) -> jumpy b1 i -> i < size b.
Proof.
  intros I J (P & E) (t & ref & k & t0 & n & S & H & Q). assert (S' : at_site b t ref) by (unfold at_site in *; now rewrite <- J).
  rewrite E in H. destruct (wl_jump _ _ _ _ _ _ _ (inv_wl _ I) S' H) as [_ N]. lia.
Qed.
Lemma ap_site_byte b e P b1 : appended b e P b1 -> forall fn h r, refers e fn h r ->
  forall k, 0 <= k -> site_byte (b_all b1) fn h (size b + r) k = site_byte P fn h r k.
Proof.
  intros A fn h r R k K. apply site_byte_eq; [exact K|]. intros x -> X. rewrite (ap_all _ _ _ _ A), <- Z.add_assoc.
  apply nthZ_app2. pose proof (sites_refers _ _ _ _ (ap_inside _ _ _ _ A) R). lia.
Qed.
Lemma placed_code C B L b e P b1 : inv b -> appended b e P b1 -> realises C B L b1 -> placed C (B + size b) P e.
Proof.
  intros I A (R & _ & RF). split; cycle 1.
  { intros fn h r X. replace (B + size b + r) with (B + (size b + r)) by lia. pose proof (ap_site_byte _ _ _ _ A fn h r X) as SB.
    rewrite <- !SB by lia. apply RF, (ap_refers _ _ _ _ A). right.
    now replace (size b + r - size b) with r by lia. }
  intros i Q NP. replace (B + size b + i) with (B + (size b + i)) by lia.
  assert (SZ := ap_size _ _ _ _ A). pose proof (lenZ_nonneg (b_all b)). rewrite R.
  - rewrite (ap_all _ _ _ _ A). apply nthZ_app2. lia.
  - unfold size in *. lia.
  - intros J. apply (jumpy_old b) in J; auto; [lia|apply (ap_jumps _ _ _ _ A)|exists P; apply (ap_all _ _ _ _ A)].
  - intros H1. apply (ap_patch _ _ _ _ A) in H1 as [H1|H1].
    + apply (inv_patch _ I) in H1. lia.
    + apply NP. now replace (size b + i - size b) with i in H1 by lia.
Qed.
Lemma merge_gotos b e : plain e -> b_gotos (merge_spaces b e) = b_gotos b.
Proof. intros [J G]. unfold merge_spaces. cbn [b_gotos]. rewrite G. cbn. apply app_nil_r. Qed.
Lemma appended_bytecode b e b1 P : plain e -> sites_within e P -> append_bytecode b e = COk b1 ->
  b_all b1 = b_all b ++ P -> appended b e P b1.
Proof.
  intros PL W E A. pose proof (append_frame _ _ _ E) as F. constructor; auto.
  - rewrite F. cbn [set_code b_jumps]. now apply merge_jumps.
  - rewrite F. exact (intervals_merge b e).
  - rewrite F. cbn [set_code b_gotos]. now apply merge_gotos.
  - intros fn h r. rewrite (refers_frame _ _ _ _ _ F). apply refers_merge.
Qed.
Lemma appended_push b e b0 o b1 P : plain e -> sites_within e P -> append_bytecode b e = COk b0 ->
  push_opcode o b0 = COk b1 -> b_all b1 = b_all b ++ P -> appended b e P b1.
Proof.
  intros PL W E E1 A. pose proof (append_frame _ _ _ E) as F. pose proof (push_frame _ _ _ E1) as F1. constructor; auto.
  - rewrite F1, F. cbn [set_code b_jumps]. now apply merge_jumps.
  - rewrite F1, F. exact (intervals_merge b e).
  - rewrite F1, F. cbn [set_code b_gotos]. now apply merge_gotos.
  - intros fn h r. rewrite (refers_frame _ _ _ _ _ F1), (refers_frame _ _ _ _ _ F). apply refers_merge.
Qed.
Lemma empty_patched i : ~ patched empty_bc i.
Proof. intros P. inversion P. Qed.
Lemma empty_sites n : sites_within empty_bc n.
Proof. repeat split; constructor. Qed.
Lemma empty_refers fn h r : ~ refers empty_bc fn h r.
Proof. intros (rs & H & _). destruct fn; destruct H. Qed.
Lemma appended_data b P b1 : b1 = set_code b (b_all b ++ P) (b_ops b1) -> appended b empty_bc P b1.
Proof.
  intros E. constructor.
  - rewrite E. reflexivity.
  - rewrite E. reflexivity.
  - rewrite E. cbn [map intervals empty_bc b_fns b_objs b_gotos call_sites object_sites sites flat_map app].
    rewrite app_nil_r. reflexivity.
  - rewrite E. reflexivity.
  - intros fn h r. rewrite E. split; [auto|]. intros [H|H]; [exact H|destruct (empty_refers _ _ _ H)].
  - apply empty_sites.
Qed.
Lemma placed_nthZ C p P : placed C p P empty_bc -> forall i, 0 <= i < lenZ P -> nthZ C (p + i) = nthZ P i.
Proof. intros [H _] i I. apply H; [exact I|apply empty_patched]. Qed.

(* ---- jumps ---- *)
Definition jumps (C : list Z) (p t : Z) : Prop := decode C p = Some (IJump t, p + 3).
Lemma jump_at_jumps C p t n : jump_at C p = Some (JInstr (IJump 0), t, n) -> n = p + 3 -> jumps C p t.
Proof.
  intros J ->. unfold jump_at in J. destruct (decode C p) as [[i n]|] eqn:D; [|discriminate].
  destruct (target_of i) as [t'|] eqn:T.
  - injection J as J1 J2 J3. destruct i; try discriminate J1. cbn in T. injection T as ->. subst. exact D.
  - unfold foreach_at in J. repeat match type of J with match ?x with _ => _ end = _ => destruct x; try discriminate J end.
Qed.
Lemma add_ref_eq t off b b' : add_ref t off b = COk b' ->
  b_all b' = b_all b /\ b_ops b' = b_ops b /\ b_fns b' = b_fns b /\ b_objs b' = b_objs b /\ b_gotos b' = b_gotos b /\
  site_ext (b_jumps b) (b_jumps b') t off /\ (forall t', off_of b' t' = off_of b t').
Proof.
  unfold add_ref. destruct (nth_error (b_jumps b) t) as [j|] eqn:N; [|discriminate]. intros E. injection E as <-.
  repeat (split; [reflexivity|]). split.
  - exists j. split; [exact N|reflexivity].
  - intros t'. unfold off_of. cbn [set_jumps b_jumps]. destruct (Nat.eq_dec t' t) as [->|D].
    + rewrite upd_same, N; [reflexivity|]. apply nth_error_Some. rewrite N. discriminate.
    + rewrite upd_other by congruence. reflexivity.
Qed.
Lemma push_rel b : push_opcode O_RelativeJump b = COk (set_code b (b_all b ++ [byte_of O_RelativeJump]) (O_RelativeJump :: b_ops b)).
Proof. unfold push_opcode, fuse. destruct (b_ops b); reflexivity. Qed.
Lemma intervals_same b b' : b_fns b' = b_fns b -> b_objs b' = b_objs b -> b_gotos b' = b_gotos b -> intervals b' = intervals b.
Proof. intros E1 E2 E3. unfold intervals, call_sites, object_sites. now rewrite E1, E2, E3. Qed.

Lemma refers_same b b' fn h r : b_fns b' = b_fns b -> b_objs b' = b_objs b -> (refers b' fn h r <-> refers b fn h r).
Proof. intros E1 E2. unfold refers. now rewrite E1, E2. Qed.

Lemma nthZ_in {A} (l : list A) i : 0 <= i < lenZ l -> exists x, nthZ l i = Some x.
Proof.
  unfold nthZ, lenZ. intros I. destruct (i <? 0) eqn:E; [lia|]. destruct (nth_error l (Z.to_nat i)) eqn:N; [eauto|].
  apply nth_error_None in N. lia.
Qed.
Lemma nth_error_firstn_lt {A} (l : list A) n k : (n < k)%nat -> nth_error (firstn k l) n = nth_error l n.
Proof.
  revert n k. induction l as [|a l IH]; intros n [|k] H; try lia; [now destruct n|]. destruct n; [reflexivity|]. apply IH. lia.
Qed.
(* the general jump: code Q, a jump instruction at its end whose displacement is the last two bytes *)
Lemma step_site b e Q t k b1 b2 : inv b -> plain e -> sites_within e (firstn (Z.to_nat (k - 1)) Q) -> 0 < k ->
  (exists kd t0, jump_at (Q ++ [9; 9]) (k - 1) = Some (kd, t0, lenZ Q + 2)) ->
  appended b e Q b1 -> add_ref t (size b + k) b1 = COk b2 ->
  let b' := push_data [9; 9] b2 in
  stepd None b b' /\ size b' = size b + lenZ Q + 2 /\ b_ops b' = b_ops b1 /\ length (b_jumps b') = length (b_jumps b) /\
  (forall C B L, realises C B L b' ->
     placed C (B + size b) (firstn (Z.to_nat (k - 1)) Q) e /\
     exists kd t0, jump_at (Q ++ [9; 9]) (k - 1) = Some (kd, t0, lenZ Q + 2) /\
       jump_at C (B + size b + (k - 1)) = Some (kd, L t, B + size b')).
Proof.
  intros I PL WS K (kd & t0 & J) A AR b'. pose proof (sites_patched _ _ WS) as W.
  assert (LF : lenZ (firstn (Z.to_nat (k - 1)) Q) = k - 1).
  { pose proof (jump_at_range _ _ _ _ _ J). unfold lenZ in *. rewrite firstn_length. lia. }
  rewrite LF in W.
  apply add_ref_eq in AR as (E1 & E2 & E3 & E4 & E5 & SE & OF).
  assert (EA : b_all b' = b_all b ++ (Q ++ [9; 9])).
  { unfold b', push_data. cbn [set_code b_all]. now rewrite E1, (ap_all _ _ _ _ A), app_assoc. }
  assert (SZ : size b' = size b + lenZ Q + 2) by (unfold size; rewrite EA, !lenZ_app; change (lenZ [9; 9]) with 2; lia).
  assert (IB : Permutation (intervals b') (intervals b ++ map (shift_by (size b)) (intervals e))).
  { rewrite <- (ap_sites _ _ _ _ A). rewrite (intervals_same b1 b'); [reflexivity|..]; unfold b', push_data; cbn [set_code b_fns b_objs b_gotos]; auto. }
  assert (PB : forall i, patched b' i <-> patched b i \/ patched e (i - size b)) by (intros i; now apply patched_perm).
  assert (RB : forall fn h r, refers b' fn h r <-> refers b fn h r \/ refers e fn h (r - size b)).
  { intros fn h r. rewrite <- (ap_refers _ _ _ _ A). apply refers_same; unfold b', push_data; cbn [set_code b_fns b_objs]; auto. }
  assert (SE' : site_ext (b_jumps b) (b_jumps b') t (size b + k)).
  { unfold b', push_data. cbn [set_code b_jumps]. now rewrite <- (ap_jumps _ _ _ _ A). }
  pose proof (jump_at_range _ _ _ _ _ J) as [_ NR].
  assert (JB : jump_at (b_all b') (size b + k - 1) = Some (kd, size b + t0, size b')).
  { replace (size b + k - 1) with (size b + (k - 1)) by lia. replace (size b') with (size b + (lenZ Q + 2)) by lia.
    apply (jump_at_shift (Q ++ [9; 9])); [exact J|]. intros x X. rewrite EA. apply nthZ_app2. lia. }
  assert (G : ext b b' /\ inv b').
  { apply (grow b b' e (Q ++ [9; 9])); auto.
    - eapply sites_more; [exact WS|rewrite LF, lenZ_app; change (lenZ [9; 9]) with 2; lia|].
      intros i Q1. rewrite LF in Q1. rewrite nthZ_app1 by lia. unfold nthZ. destruct (i <? 0) eqn:EE; [reflexivity|].
      rewrite nth_error_firstn_lt by lia. reflexivity.
    - unfold b', push_data. cbn [set_code b_gotos]. rewrite E5. apply (ap_gotos _ _ _ _ A).
    - right. exists t, (size b + k), kd, (size b + t0). split; [exact SE'|]. split; [lia|]. split; [exact JB|].
      intros i P. apply PB in P as [P|P]; [apply (inv_patch _ I) in P; lia|apply W in P; lia]. }
  destruct G as [X Y]. split; [|split; [exact SZ|split; [|split]]].
  - constructor; auto. intros t' _ _. unfold b', off_of, push_data. cbn [set_code b_jumps]. fold (off_of b2 t'). rewrite OF. unfold off_of. now rewrite (ap_jumps _ _ _ _ A).
  - unfold b', push_data. cbn [set_code b_ops]. exact E2.
  - destruct SE' as (j & _ & ->). apply upd_length.
  - intros C B L (R1 & R2 & R3). pose proof (lenZ_nonneg (b_all b)). split.
    + split; cycle 1.
      { intros fn h r RE. replace (B + size b + r) with (B + (size b + r)) by lia.
        assert (SB : forall x, 0 <= x -> site_byte (firstn (Z.to_nat (k - 1)) Q) fn h r x = site_byte (b_all b') fn h (size b + r) x).
        { intros x X0. apply site_byte_eq; [exact X0|]. intros y -> Y0. pose proof (sites_refers _ _ _ _ WS RE) as SR. rewrite LF in SR.
          rewrite EA, <- Z.add_assoc. change (size b) with (lenZ (b_all b)). rewrite nthZ_app2 by lia. rewrite nthZ_app1 by lia.
          unfold nthZ. destruct (r + y <? 0) eqn:EE; [reflexivity|]. rewrite nth_error_firstn_lt by lia. reflexivity. }
        rewrite !SB by lia. apply R3, RB. right.
        now replace (size b + r - size b) with r by lia. }
      intros i Q1 NP. rewrite LF in Q1. replace (B + size b + i) with (B + (size b + i)) by lia. rewrite R1.
      * rewrite EA. change (size b) with (lenZ (b_all b)). rewrite nthZ_app2 by lia. rewrite nthZ_app1 by lia. unfold nthZ. destruct (i <? 0) eqn:E; [reflexivity|].
        rewrite nth_error_firstn_lt by lia. reflexivity.
      * unfold size in *. lia.
      * intros (t1 & r1 & k1 & t2 & n1 & S1 & J1 & Q2).
        destruct (at_site_ext_inv _ _ _ _ _ _ SE' S1) as [S2|[-> ->]]; [|lia].
        rewrite EA in J1. destruct (wl_jump _ _ _ _ _ _ _ (inv_wl _ I) S2 J1) as [_ N1]. lia.
      * intros P. apply PB in P as [P|P]; [apply (inv_patch _ I) in P; lia|]. apply NP.
        now replace (size b + i - size b) with i in P by lia.
    + exists kd, t0. split; [exact J|].
      pose proof (R2 t (size b + k) kd (size b + t0) (size b') (at_site_ext_new _ _ _ _ SE') JB) as R.
      now replace (B + (size b + k - 1)) with (B + size b + (k - 1)) in R by lia.
Qed.
Lemma step_jump t b b' : inv b -> add_source O_RelativeJump t b = COk b' ->
  stepd None b b' /\ size b' = size b + 3 /\ b_ops b' = O_RelativeJump :: b_ops b /\ length (b_jumps b') = length (b_jumps b) /\
  (t < length (b_jumps b))%nat /\
  (forall C B L, realises C B L b' -> jumps C (B + size b) (L t)).
Proof.
  intros I E. unfold add_source in E. rewrite push_rel in E. cbn [cbind set_code b_ops source_back] in E.
  set (b1 := set_code b (b_all b ++ [byte_of O_RelativeJump]) (O_RelativeJump :: b_ops b)) in *.
  assert (SZ : size b1 - 0 = size b + 1) by (unfold size; cbn [b1 set_code b_all]; rewrite lenZ_app; change (lenZ [byte_of O_RelativeJump]) with 1; lia).
  rewrite SZ in E. destruct (add_ref t (size b + 1) b1) as [b2|e|] eqn:AR; try discriminate E. cbn [cbind] in E. injection E as <-.
  assert (A : appended b empty_bc [byte_of O_RelativeJump] b1) by (apply appended_data; reflexivity).
  destruct (step_site b empty_bc [byte_of O_RelativeJump] t 1 b1 b2) as (S1 & S2 & S3 & S4 & S5); auto.
  - split; reflexivity.
  - apply empty_sites.
  - lia.
  - do 2 eexists. vm_compute. reflexivity.
  - change (lenZ [byte_of O_RelativeJump]) with 1 in *. split; [exact S1|]. split; [lia|]. split; [exact S3|]. split; [exact S4|]. split.
    + apply add_ref_eq in AR as (_ & _ & _ & _ & _ & (j & N & _) & _). apply nth_error_Some. cbn [b1 set_code b_jumps] in N. rewrite N. discriminate.
    + intros C B L R. destruct (S5 C B L R) as (_ & kd & t0 & J & JC). vm_compute in J. injection J as <- <-.
      eapply jump_at_jumps; [|reflexivity]. rewrite S2 in JC. replace (B + size b + (1 - 1)) with (B + size b) in JC by lia.
      replace (B + (size b + 1 + 2)) with (B + size b + 3) in JC by lia. exact JC.
Qed.
(* a condition and its branch *)
Lemma step_cond b c b1 bx t b2 : inv b -> ctx_ok (b_ops b) -> (exists Q k, branches c Q k) ->
  append_bytecode b c = COk b1 ->
  (bx = b1 /\ (t < length (b_jumps b))%nat \/ bx = fst (add_target b1) /\ t = length (b_jumps b)) ->
  add_source O_BZ t bx = COk b2 ->
  stepd None b b2 /\ size b < size b2 /\ ctx_ok (b_ops b2) /\ ends_plain b2 /\
  length (b_jumps b2) = length (b_jumps bx) /\
  (forall C B L, realises C B L b2 -> cond_at C c (B + size b) (B + size b2) (L t)).
Proof.
  intros I CX (Q & k & BR) E0 BX E. pose proof BR as (PL & W & K & JJ & H).
  destruct (H b CX) as (b1' & o & rest & E1 & EA & EO & IN & NR & SB). rewrite E0 in E1. cbn [cbind] in E1.
  pose proof (lenZ_nonneg Q) as LQ.
  (* the block with the new target already there *)
  assert (JX : exists by_, b_jumps bx = b_jumps by_ /\ stepd None b by_ /\ b_all by_ = b_all b /\ (intervals by_ = intervals b /\ b_gotos by_ = b_gotos b) /\
               (forall fn h r, refers by_ fn h r <-> refers b fn h r) /\
               exists b3, push_opcode O_BZ bx = COk b3 /\ b_all b3 = b_all b1' /\ b_ops b3 = b_ops b1' /\ b_jumps b3 = b_jumps bx /\
               (intervals b3 = intervals b1' /\ b_gotos b3 = b_gotos b1') /\ (forall fn h r, refers b3 fn h r <-> refers b1' fn h r)).
  { pose proof (append_frame _ _ _ E0) as F. assert (JB : b_jumps b1 = b_jumps b) by (rewrite F; cbn [set_code b_jumps]; now apply merge_jumps).
    pose proof (push_frame _ _ _ E1) as F1. destruct BX as [[-> T]|[-> T]].
    - exists b. split; [exact JB|]. split; [now apply stepd_refl|]. split; [reflexivity|]. split; [split; reflexivity|]. split; [reflexivity|].
      exists b1'. split; [exact E1|]. split; [reflexivity|]. split; [reflexivity|]. split; [|split; [split; reflexivity|reflexivity]].
      rewrite F1. cbn [set_code b_jumps]. now rewrite JB.
    - exists (fst (add_target b)).
      split; [unfold add_target; cbn [fst set_jumps b_jumps]; now rewrite JB|]. split; [apply (step_target b I)|].
      split; [reflexivity|]. split; [split; reflexivity|]. split; [reflexivity|]. unfold add_target. cbn [fst].
      exists (set_jumps b1' (b_jumps b1 ++ [mkJ 0 [] 0])). split; [now apply push_set_jumps|]. repeat (split; [reflexivity|]). split; [split; reflexivity|reflexivity]. }
  destruct JX as (by_ & JX & SY & AY & (PY & GY) & RY & b3 & E3 & A3 & O3 & J3 & (P3 & G3) & R3).
  unfold add_source in E. rewrite E3 in E. cbn [cbind] in E. rewrite O3, EO in E.
  destruct (add_ref t (size b3 - source_back o) b3) as [b4|e|] eqn:AR; try discriminate E. cbn [cbind] in E. injection E as <-.
  assert (SY0 : size by_ = size b) by (unfold size; now rewrite AY).
  assert (S3 : size b3 - source_back o = size by_ + k).
  { rewrite SY0. unfold size. rewrite A3, EA, lenZ_app. lia. }
  rewrite S3 in AR.
  assert (AP : appended by_ c Q b3).
  { assert (WQ : sites_within c Q).
    { destruct JJ as (kd & t0 & J). pose proof (jump_at_range _ _ _ _ _ J). eapply sites_more; [exact W| |].
      - unfold lenZ. rewrite firstn_length. lia.
      - intros i II. unfold lenZ in II. rewrite firstn_length in II. unfold nthZ. destruct (i <? 0); [reflexivity|].
        rewrite nth_error_firstn_lt by lia. reflexivity. }
    pose proof (appended_push b c b1 O_BZ b1' Q PL WQ E0 E1 EA) as AA. constructor.
    - now rewrite A3, EA, AY.
    - now rewrite J3.
    - rewrite P3, PY, SY0. apply (ap_sites _ _ _ _ AA).
    - rewrite G3, GY. apply (ap_gotos _ _ _ _ AA).
    - intros fn h r. rewrite R3, RY, SY0. apply (ap_refers _ _ _ _ AA).
    - exact WQ. }
  destruct (step_site by_ c Q t k b3 b4) as (S1 & S2 & S4 & S5 & S6); auto.
  { exact (sd_inv _ _ _ SY). }
  split; [eapply stepd_trans; eauto|]. split; [lia|]. split; [rewrite S4, O3, EO; exact IN|].
  split; [unfold ends_plain, last_op_is in *; rewrite S4, O3; exact NR|]. split; [rewrite S5; now rewrite JX|].
  intros C B L R. destruct (S6 C B L R) as (R1 & kd & t0 & J & JC). rewrite SY0 in *.
  exists Q, k, kd, t0. split; [exact BR|]. split; [lia|]. split; [exact R1|]. split; [exact J|]. exact JC.
Qed.
