(* Code under construction and the finished image: what the emitter's steps leave alone. *)
From Verif Require Import Base BaseLemmas OpsModel VmModel EmitModel CcModel JumpSpec JumpProofs JumpProps LinkSpec CtlSpec.
Require Import Permutation.

(* ---- jumps do not depend on where the code is ---- *)
Definition shift_agree (c c' : list Z) (B p q : Z) : Prop := forall x, p <= x < q -> nthZ c' (B + x) = nthZ c x.
Lemma b0_shift short f code code' B p i n :
  b0 short f code p = Some (i, n) -> shift_agree code code' B p n ->
  n = p + 2 /\ exists t, i = f t /\ b0 short f code' (B + p) = Some (f (B + t), B + n).
Proof.
  intros D A. pose proof (b0_inv _ _ _ _ _ _ D) as [-> _]. split; [reflexivity|]. unfold b0, rd16, rdu16, rd8 in *.
  replace (B + p + 1) with (B + (p + 1)) by lia. rewrite (A p), (A (p + 1)) by lia.
  destruct short.
  - destruct (nthZ code p) as [x|]; [|discriminate]. injection D as <-. exists (p + VmModel.s8 x). split; [reflexivity|].
    do 2 f_equal; [f_equal|]; lia.
  - destruct (nthZ code p) as [x|]; [|discriminate]. destruct (nthZ code (p + 1)) as [y|]; [|discriminate].
    cbn [option_map] in *. remember (x + 256 * y) as v eqn:V. injection D as <-. exists (p + VmModel.s16 v). split; [reflexivity|].
    do 2 f_equal; [f_equal|]; lia.
Qed.
Lemma vb1_shift short f code code' B p i n :
  vb1 short f code p = Some (i, n) -> shift_agree code code' B p n ->
  exists x t, i = f x t /\ vb1 short f code' (B + p) = Some (f x (B + t), B + n).
Proof.
  intros D A. pose proof (vb1_inv _ _ _ _ _ _ D) as (x & X & -> & _). unfold vb1, rd8 in *.
  rewrite (A p) by lia. rewrite X in *.
  destruct (b0_shift _ _ _ code' B _ _ _ D) as (_ & t & -> & E); [intros q Q; apply A; lia|].
  replace (B + p + 1) with (B + (p + 1)) by lia. rewrite E. eauto.
Qed.
Lemma vb2_shift short f code code' B p i n :
  vb2 short f code p = Some (i, n) -> shift_agree code code' B p n ->
  exists x y t, i = f x y t /\ vb2 short f code' (B + p) = Some (f x y (B + t), B + n).
Proof.
  intros D A. pose proof (vb2_inv _ _ _ _ _ _ D) as (x & y & X & Y & -> & _). unfold vb2, rd8 in *.
  replace (B + p + 1) with (B + (p + 1)) by lia. rewrite (A p), (A (p + 1)) by lia. rewrite X, Y in *.
  destruct (b0_shift _ _ _ code' B _ _ _ D) as (_ & t & -> & E); [intros q Q; apply A; lia|].
  replace (B + p + 2) with (B + (p + 2)) by lia. rewrite E. eauto.
Qed.
Lemma decode_op_shift o code code' B p i n t :
  decode_op o code p = Some (i, n) -> target_of i = Some t -> shift_agree code code' B p n ->
  decode_op o code' (B + p) = Some (retarget (B + t) i, B + n).
Proof.
  intros D T A.
  destruct o; cbn [decode_op] in D |- *;
  try (destruct (b0_shift _ _ _ _ _ _ _ _ D A) as (_ & t1 & -> & ->); cbn [target_of] in T; injection T as ->; reflexivity);
  try (destruct (vb1_shift _ _ _ _ _ _ _ _ D A) as (x & t1 & -> & ->); cbn [target_of] in T; injection T as ->; reflexivity);
  try (destruct (vb2_shift _ _ _ _ _ _ _ _ D A) as (x & y & t1 & -> & ->); cbn [target_of] in T; injection T as ->; reflexivity);
  exfalso;
  unfold n0, v1, v1q, v2, lInt8, lInt16, lInt32, lFloat, lU8, lS16, lString, call, lib in D;
  repeat match type of D with
         | match ?x with _ => _ end = _ => destruct x
         | (if ?x then _ else _) = _ => destruct x
         end; try discriminate D; inversion D; subst; cbn in T; discriminate T.
Qed.
Lemma jump_at_shift code code' B pc k t n :
  jump_at code pc = Some (k, t, n) -> shift_agree code code' B pc n -> jump_at code' (B + pc) = Some (k, B + t, B + n).
Proof.
  intros J A. pose proof (jump_at_range _ _ _ _ _ J) as [P N].
  unfold jump_at in *. destruct (decode code pc) as [[i n0]|] eqn:D; [|discriminate].
  unfold decode, rd8 in *. rewrite (A pc) by lia. destruct (nthZ code pc) as [b|] eqn:B0; [|discriminate].
  destruct (opcode_of b) as [o|] eqn:O; [|discriminate].
  destruct (target_of i) as [t'|] eqn:T.
  - injection J as <- <- <-. replace (B + pc + 1) with (B + (pc + 1)) by lia.
    rewrite (decode_op_shift _ _ code' B _ _ _ _ D T); [|intros q Q; apply A; lia].
    destruct i; try discriminate T; reflexivity.
  - unfold foreach_at in *. rewrite (A pc) by lia. rewrite B0, O in *. destruct (foreach_operands o) as [k'|] eqn:F; [|discriminate].
    rewrite (foreach_decode _ _ _ _ F) in D. rewrite (foreach_decode _ _ code' _ F). injection D as <- <-. apply foreach_k in F.
    destruct (rd16 code (pc + 1 + k')) as [d|] eqn:R; [|discriminate]. injection J as <- <- <-.
    assert (R' : rd16 code' (B + pc + 1 + k') = Some d).
    { unfold rd16, rdu16, rd8 in *. replace (B + pc + 1 + k' + 1) with (B + (pc + 1 + k' + 1)) by lia.
      replace (B + pc + 1 + k') with (B + (pc + 1 + k')) by lia. rewrite !A by lia. exact R. }
    cbn [target_of]. rewrite R'.
    rewrite (map_ext_in (fun i => nthZ code' (B + pc + Z.of_nat i)) (fun i => nthZ code (pc + Z.of_nat i))).
    + f_equal. f_equal; [f_equal|]; lia.
    + intros x X. apply in_seq in X. replace (B + pc + Z.of_nat x) with (B + (pc + Z.of_nat x)) by lia. apply A. lia.
Qed.

(* ---- list access ---- *)
Lemma lenZ_nonneg {A} (l : list A) : 0 <= lenZ l.
Proof. unfold lenZ. lia. Qed.
Lemma lenZ_app {A} (a b : list A) : lenZ (a ++ b) = lenZ a + lenZ b.
Proof. unfold lenZ. rewrite app_length. lia. Qed.
Lemma nthZ_app1 {A} (a b : list A) i : i < lenZ a -> nthZ (a ++ b) i = nthZ a i.
Proof.
  unfold nthZ, lenZ. intros H. destruct (i <? 0) eqn:E; [reflexivity|]. rewrite nth_error_app1; [reflexivity|lia].
Qed.
Lemma nthZ_app2 {A} (a b : list A) i : 0 <= i -> nthZ (a ++ b) (lenZ a + i) = nthZ b i.
Proof.
  unfold nthZ, lenZ. intros H. destruct (i <? 0) eqn:E; [lia|].
  destruct (Z.of_nat (length a) + i <? 0) eqn:E2; [lia|]. rewrite nth_error_app2 by lia. f_equal. lia.
Qed.

(* ---- sites of a block ---- *)
Definition at_site (b : bcode) (t : nat) (ref : Z) : Prop :=
  exists j, nth_error (b_jumps b) t = Some j /\ In ref (j_refs j).
Lemma in_refs b s : In s (references b) <-> exists j, In j (b_jumps b) /\ fst s = j_off j /\ In (snd s) (j_refs j).
Proof.
  unfold references. rewrite in_flat_map. split.
  - intros (j & I & H). apply in_map_iff in H as (r & <- & R). exists j. auto.
  - intros (j & I & E & R). exists j. split; [exact I|]. apply in_map_iff. exists (snd s). split; [|exact R].
    destruct s; cbn in *; congruence.
Qed.
Lemma at_site_refs b t ref : at_site b t ref -> exists s, In s (references b) /\ snd s = ref.
Proof.
  intros (j & N & I). exists (j_off j, ref). split; [|reflexivity]. apply in_refs. exists j.
  split; [now apply nth_error_In in N|]. auto.
Qed.
Lemma refs_at_site b s : In s (references b) -> exists t, at_site b t (snd s).
Proof.
  intros I. apply in_refs in I as (j & Ij & _ & R). apply In_nth_error in Ij as (t & T). exists t, j. auto.
Qed.
(* position q lies in a jump instruction *)
Definition jumpy (b : bcode) (q : Z) : Prop :=
  exists t ref k t0 n, at_site b t ref /\ jump_at (b_all b) (ref - 1) = Some (k, t0, n) /\ ref - 1 <= q < n.
Lemma jumpy_in_site b q : jumpy b q <-> in_site (b_all b) (references b) q.
Proof.
  split.
  - intros (t & ref & k & t0 & n & S & J & R). destruct (at_site_refs _ _ _ S) as (s & I & <-). exists s, k, t0, n. auto.
  - intros (s & k & t0 & n & I & J & R). destruct (refs_at_site _ _ I) as (t & S). exists t, (snd s), k, t0, n. auto.
Qed.

(* ---- the places the linker completes ---- *)
Lemma in_sites l h r : In (h, r) (sites l) <-> exists rs, In (h, rs) l /\ In r rs.
Proof.
  unfold sites. rewrite in_flat_map. split.
  - intros ((h1 & rs) & I & H). apply in_map_iff in H as (r1 & E & R). cbn [fst snd] in *. injection E as <- <-. eauto.
  - intros (rs & I & R). exists (h, rs). split; [exact I|]. apply in_map_iff. exists r. auto.
Qed.
Lemma call_refers b h r : In (h, r) (call_sites b) <-> refers b true h r.
Proof. unfold call_sites, refers. apply in_sites. Qed.
Lemma object_refers b h r : In (h, r) (object_sites b) <-> refers b false h r.
Proof. unfold object_sites, refers. apply in_sites. Qed.
Lemma refers_interval b fn h r : refers b fn h r -> In (r, if fn then call_len h else 2) (intervals b).
Proof.
  intros R. unfold intervals. destruct fn.
  - apply call_refers in R. apply in_or_app. left. apply in_map_iff. exists (h, r). auto.
  - apply object_refers in R. apply in_or_app. right. apply in_or_app. left. apply in_map_iff. exists (h, r). auto.
Qed.
Lemma refers_patched b h r k : refers b true h r -> 0 <= k < call_len h -> patched b (r + k).
Proof.
  intros R K. apply Exists_exists. exists (r, call_len h). split; [exact (refers_interval b true h r R)|].
  unfold inside. cbn [fst snd]. lia.
Qed.
Lemma interval_refers b x : b_gotos b = [] -> In x (intervals b) -> exists fn h, refers b fn h (fst x) /\ snd x = (if fn then call_len h else 2).
Proof.
  intros G I. unfold intervals in I. rewrite G in I. cbn [map] in I. rewrite app_nil_r in I.
  apply in_app_or in I as [I|I]; apply in_map_iff in I as ((h & r) & <- & I); cbn [fst snd].
  - exists true, h. split; [now apply call_refers|reflexivity].
  - exists false, h. split; [now apply object_refers|reflexivity].
Qed.
Definition patched_within (b : bcode) (n : Z) : Prop := forall i, patched b i -> 0 <= i < n.
Lemma sites_patched b l : sites_within b l -> patched_within b (lenZ l).
Proof.
  intros (W & _) i P. apply Exists_exists in P as (x & I & Q). rewrite Forall_forall in W. specialize (W x I). unfold inside in Q. lia.
Qed.
Lemma sites_refers b l h r : sites_within b l -> refers b true h r -> 0 <= r /\ r + call_len h <= lenZ l.
Proof.
  intros (W & _) R. apply refers_interval in R. rewrite Forall_forall in W. specialize (W _ R). cbn [fst snd] in W. lia.
Qed.
Lemma interval_pos b x : In x (intervals b) -> 0 < snd x.
Proof.
  unfold intervals. intros I. apply in_app_or in I as [I|I]; [|apply in_app_or in I as [I|I]]; apply in_map_iff in I as (y & <- & _); cbn [snd]; try lia.
  unfold call_len. destruct (fst y =? _); lia.
Qed.
Lemma sites_more b l m : sites_within b l -> lenZ l <= lenZ m -> (forall i, 0 <= i < lenZ l -> nthZ m i = nthZ l i) -> sites_within b m.
Proof.
  intros (W & D & N) L H. split; [|auto]. rewrite Forall_forall in *. intros x I. specialize (W x I). pose proof (interval_pos _ _ I).
  split; [lia|]. split; [lia|]. rewrite H by lia. apply W.
Qed.
Lemma fop_map {A B} (f : A -> B) (R : B -> B -> Prop) l :
  ForallOrdPairs R (map f l) <-> ForallOrdPairs (fun a b => R (f a) (f b)) l.
Proof.
  induction l as [|a l IH]; [split; constructor|]. cbn [map]. split; intros H; apply fop_inv in H as [H0 H1].
  - constructor; [|now apply IH]. rewrite Forall_forall in *. intros x I. apply H0. now apply in_map.
  - constructor; [|now apply IH]. rewrite Forall_forall in *. intros x I. apply in_map_iff in I as (y & <- & I). now apply H0.
Qed.
Definition shift_by (n : Z) (x : Z * Z) : Z * Z := (fst x + n, snd x).
Lemma disjoint_sym x y : disjoint x y -> disjoint y x.
Proof. unfold disjoint. tauto. Qed.
Lemma fop_perm {A} (R : A -> A -> Prop) l l' : (forall x y, R x y -> R y x) -> Permutation l l' -> ForallOrdPairs R l -> ForallOrdPairs R l'.
Proof.
  intros S P. induction P; intros F.
  - exact F.
  - apply fop_inv in F as [F0 F]. constructor; [|auto]. rewrite Forall_forall in *. intros y I. apply F0.
    eapply Permutation_in; [apply Permutation_sym; exact P|exact I].
  - apply fop_inv in F as [F0 F]. apply fop_inv in F as [F1 F]. apply Forall_cons_iff in F0 as [F2 F0].
    constructor; [|constructor; auto]. constructor; auto.
  - auto.
Qed.
Lemma fop_app {A} (R : A -> A -> Prop) l1 l2 : ForallOrdPairs R l1 -> ForallOrdPairs R l2 ->
  (forall x y, In x l1 -> In y l2 -> R x y) -> ForallOrdPairs R (l1 ++ l2).
Proof.
  induction l1 as [|a l1 IH]; cbn; intros F1 F2 H; [exact F2|]. apply fop_inv in F1 as [F0 F1]. constructor; [|apply IH; auto].
  apply Forall_app. split; [exact F0|]. apply Forall_forall. intros y I. apply H; auto.
Qed.
Lemma fits_refers b : names_fit b <-> forall h r, refers b true h r -> 0 <= h < 4294967296.
Proof.
  unfold names_fit. rewrite Forall_forall. split.
  - intros F h r R. apply call_refers in R. exact (F _ R).
  - intros F (h & r) I. apply call_refers in I. exact (F h r I).
Qed.
Lemma sites_join b b' e l m : sites_within b l -> sites_within e m ->
  Permutation (intervals b') (intervals b ++ map (shift_by (lenZ l)) (intervals e)) ->
  (forall fn h r, refers b' fn h r <-> refers b fn h r \/ refers e fn h (r - lenZ l)) -> sites_within b' (l ++ m).
Proof.
  intros (W1 & D1 & N1) (W2 & D2 & N2) P RF. rewrite Forall_forall in W1, W2.
  pose proof (lenZ_nonneg l) as N0. pose proof (lenZ_nonneg m) as M0.
  assert (IN : forall x, In x (intervals b') -> In x (intervals b) \/ exists y, In y (intervals e) /\ x = shift_by (lenZ l) y).
  { intros x I. apply (Permutation_in _ P) in I. apply in_app_or in I as [I|I]; [auto|]. apply in_map_iff in I as (y & <- & I). eauto. }
  split; [|split].
  - apply Forall_forall. intros x I. rewrite lenZ_app. destruct (IN x I) as [H|(y & H & ->)].
    + specialize (W1 x H). pose proof (interval_pos _ _ H). rewrite nthZ_app1 by lia. split; [lia|]. split; [lia|apply W1].
    + specialize (W2 y H). unfold shift_by. cbn [fst snd]. rewrite (Z.add_comm (fst y)), nthZ_app2 by lia. split; [lia|]. split; [lia|apply W2].
  - eapply fop_perm; [exact disjoint_sym|apply Permutation_sym; exact P|]. apply fop_app; [exact D1| |].
    + apply (proj2 (fop_map (shift_by (lenZ l)) disjoint _)). clear - D2. induction D2; constructor; auto. eapply Forall_impl; [|exact H].
      intros x. unfold disjoint, shift_by. cbn [fst snd]. lia.
    + intros x y I J. apply in_map_iff in J as (z & <- & J). specialize (W1 x I). specialize (W2 z J).
      unfold disjoint, shift_by. cbn [fst snd]. lia.
  - apply fits_refers. intros h r R. apply RF in R as [R|R]; [eapply fits_refers in N1|eapply fits_refers in N2]; eauto.
Qed.
Lemma patched_perm b b' e n i : Permutation (intervals b') (intervals b ++ map (shift_by n) (intervals e)) ->
  (patched b' i <-> patched b i \/ patched e (i - n)).
Proof.
  intros P. unfold patched. rewrite !Exists_exists. split.
  - intros (x & I & Q). apply (Permutation_in _ P) in I. apply in_app_or in I as [I|I]; [eauto|].
    apply in_map_iff in I as (y & <- & I). right. exists y. split; [exact I|]. unfold inside, shift_by in *. cbn [fst snd] in *. lia.
  - intros [(x & I & Q)|(x & I & Q)].
    + exists x. split; [|exact Q]. apply (Permutation_in _ (Permutation_sym P)), in_or_app. auto.
    + exists (shift_by n x). split; [apply (Permutation_in _ (Permutation_sym P)), in_or_app; right; now apply in_map|].
      unfold inside, shift_by in *. cbn [fst snd]. lia.
Qed.
Lemma site_byte_eq l l' fn h r r' k : 0 <= k ->
  (forall k, fn = true -> 0 <= k < call_len h -> nthZ l (r + k) = nthZ l' (r' + k)) -> site_byte l fn h r k = site_byte l' fn h r' k.
Proof.
  intros K H. unfold site_byte. destruct fn; [|reflexivity]. cbn [andb]. destruct (Z.ltb_spec k (call_len h)); [|reflexivity]. apply H; auto.
Qed.

(* the image agrees with the block where neither jumps nor the linker are involved, and its jumps go
   where L says *)
Definition realises (C : image) (B : Z) (L : nat -> Z) (b : bcode) : Prop :=
  (forall i, 0 <= i < size b -> ~ jumpy b i -> ~ patched b i -> nthZ C (B + i) = nthZ (b_all b) i) /\
  (forall t ref k t0 n, at_site b t ref -> jump_at (b_all b) (ref - 1) = Some (k, t0, n) ->
     jump_at C (B + (ref - 1)) = Some (k, L t, B + n)) /\
  (forall fn h r, refers b fn h r -> linked C fn h (B + r) (site_byte (b_all b) fn h r 1) (site_byte (b_all b) fn h r 5)).

Record ext (b b' : bcode) : Prop := {
  ex_size : size b <= size b';
  ex_sites : forall t ref, at_site b t ref -> at_site b' t ref;
  ex_same : forall i, 0 <= i < size b -> ~ jumpy b i -> nthZ (b_all b') i = nthZ (b_all b) i;
  ex_jump : forall t ref k t0 n, at_site b t ref -> jump_at (b_all b) (ref - 1) = Some (k, t0, n) ->
            exists t1, jump_at (b_all b') (ref - 1) = Some (k, t1, n);
  ex_new : forall i, i < size b -> jumpy b' i -> jumpy b i;
  ex_patch : forall i, i < size b -> patched b' i -> patched b i;
  ex_bytes : forall i, patched b i -> nthZ (b_all b') i = nthZ (b_all b) i;
  ex_still : forall i, patched b i -> patched b' i;
  ex_refers : forall fn h r, refers b fn h r -> refers b' fn h r;
  ex_len : (length (b_jumps b) <= length (b_jumps b'))%nat
}.
Lemma ext_refl b : ext b b.
Proof. constructor; eauto; lia. Qed.
Lemma ext_trans a b c : ext a b -> ext b c -> ext a c.
Proof.
  intros X Y. constructor.
  - pose proof (ex_size _ _ X). pose proof (ex_size _ _ Y). lia.
  - intros t ref S. apply (ex_sites _ _ Y), (ex_sites _ _ X), S.
  - intros i I N. rewrite (ex_same _ _ Y), (ex_same _ _ X); auto; [pose proof (ex_size _ _ X); lia|].
    intros J. apply N. apply (ex_new _ _ X); [lia|exact J].
  - intros t ref k t0 n S J. destruct (ex_jump _ _ X _ _ _ _ _ S J) as (t1 & J1).
    exact (ex_jump _ _ Y _ _ _ _ _ (ex_sites _ _ X _ _ S) J1).
  - intros i I J. apply (ex_new _ _ X); [exact I|]. apply (ex_new _ _ Y); [pose proof (ex_size _ _ X); lia|exact J].
  - intros i I J. apply (ex_patch _ _ X); [exact I|]. apply (ex_patch _ _ Y); [pose proof (ex_size _ _ X); lia|exact J].
  - intros i P. rewrite (ex_bytes _ _ Y), (ex_bytes _ _ X); auto. now apply (ex_still _ _ X).
  - intros i P. now apply (ex_still _ _ Y), (ex_still _ _ X).
  - intros fn h r R. apply (ex_refers _ _ Y), (ex_refers _ _ X), R.
  - pose proof (ex_len _ _ X). pose proof (ex_len _ _ Y). lia.
Qed.
Lemma realises_ext C B L b b' : ext b b' -> realises C B L b' -> realises C B L b.
Proof.
  intros X (R1 & R2 & R3). split; [|split].
  - intros i I N P. rewrite R1; [exact (ex_same _ _ X i I N)| | |].
    + pose proof (ex_size _ _ X). lia.
    + intros J. apply N, (ex_new _ _ X); [lia|exact J].
    + intros J. apply P, (ex_patch _ _ X); [lia|exact J].
  - intros t ref k t0 n S J. destruct (ex_jump _ _ X _ _ _ _ _ S J) as (t1 & J1).
    exact (R2 t ref k t1 n (ex_sites _ _ X _ _ S) J1).
  - intros fn h r R. rewrite (site_byte_eq (b_all b) (b_all b') fn h r r 1), (site_byte_eq (b_all b) (b_all b') fn h r r 5);
      try lia; [apply R3, (ex_refers _ _ X), R| |];
      intros k -> K; symmetry; apply (ex_bytes _ _ X); now apply refers_patched with h.
Qed.

(* ---- what every block under construction satisfies ---- *)
Record inv (b : bcode) : Prop := {
  inv_wl : well_labelled b;
  inv_sites : sites_within b (b_all b);
  inv_gotos : b_gotos b = [];
  inv_sep : forall i, patched b i -> ~ jumpy b i
}.
Lemma inv_patch b : inv b -> patched_within b (size b).
Proof. intros I. exact (sites_patched _ _ (inv_sites _ I)). Qed.
Lemma inv_still b b' : inv b -> (forall i, 0 <= i < size b -> ~ jumpy b i -> nthZ (b_all b') i = nthZ (b_all b) i) ->
  forall i, patched b i -> nthZ (b_all b') i = nthZ (b_all b) i.
Proof. intros I H i P. apply H; [apply (inv_patch _ I i P)|apply (inv_sep _ I i P)]. Qed.
Lemma site_jump b t ref : well_labelled b -> at_site b t ref ->
  exists k t0 n, jump_at (b_all b) (ref - 1) = Some (k, t0, n) /\ n <= size b.
Proof.
  intros [W _] S. destruct (at_site_refs _ _ _ S) as (s & I & <-). rewrite Forall_forall in W. exact (W s I).
Qed.

(* the positions only, in order *)
Definition refs (b : bcode) : list Z := flat_map j_refs (b_jumps b).
Definition apart (l : list Z) (a b : Z) : Prop := forall k t n k' t' n',
  jump_at l (a - 1) = Some (k, t, n) -> jump_at l (b - 1) = Some (k', t', n') -> n <= b - 1 \/ n' <= a - 1.
Lemma references_refs b : map snd (references b) = refs b.
Proof.
  unfold references, refs. generalize (b_jumps b). induction l as [|j l IH]; [reflexivity|]. cbn [flat_map].
  rewrite map_app, map_map, IH. cbn [snd]. now rewrite map_id.
Qed.
Lemma wl_refs b : well_labelled b <->
  Forall (fun r => exists k t n, jump_at (b_all b) (r - 1) = Some (k, t, n) /\ n <= size b) (refs b) /\
  ForallOrdPairs (apart (b_all b)) (refs b).
Proof.
  unfold well_labelled, sites_disjoint. rewrite <- references_refs, fop_map. split; intros [H1 H2]; (split; [|exact H2]).
  - apply Forall_forall. intros r I. apply in_map_iff in I as (s & <- & I). rewrite Forall_forall in H1. exact (H1 s I).
  - apply Forall_forall. intros s I. rewrite Forall_forall in H1. apply (H1 (snd s)). now apply in_map.
Qed.
Lemma at_site_in b t ref : at_site b t ref -> In ref (refs b).
Proof. intros (j & N & I). unfold refs. apply in_flat_map. exists j. split; [now apply nth_error_In in N|exact I]. Qed.
Lemma in_at_site b ref : In ref (refs b) -> exists t, at_site b t ref.
Proof.
  intros I. unfold refs in I. apply in_flat_map in I as (j & Ij & R). apply In_nth_error in Ij as (t & T). exists t, j. auto.
Qed.

(* ---- appending code without jumps ---- *)
Lemma jump_at_prefix l P pc k t n : n <= lenZ l -> jump_at l pc = Some (k, t, n) -> jump_at (l ++ P) pc = Some (k, t, n).
Proof. intros N J. eapply jump_at_local; [exact J|]. intros x X. apply nthZ_app1. lia. Qed.
Lemma wl_jump b P t ref k t0 n : well_labelled b -> at_site b t ref -> jump_at (b_all b ++ P) (ref - 1) = Some (k, t0, n) ->
  jump_at (b_all b) (ref - 1) = Some (k, t0, n) /\ n <= size b.
Proof.
  intros W S J. destruct (site_jump _ _ _ W S) as (k1 & t1 & n1 & J1 & N1).
  rewrite (jump_at_prefix _ P _ _ _ _ N1 J1) in J. injection J as <- <- <-. auto.
Qed.
(* b' is b with code P behind it and, possibly, a reference in it *)
Definition site_ext (js js' : list jtarget) (t : nat) (ref : Z) : Prop :=
  exists j, nth_error js t = Some j /\ js' = Base.upd js t (mkJ (j_off j) (j_refs j ++ [ref]) (j_goto j)).

Lemma upd_split {A} (l : list A) t x y : nth_error l t = Some x ->
  exists l1 l2, l = l1 ++ x :: l2 /\ Base.upd l t y = l1 ++ y :: l2 /\ length l1 = t.
Proof.
  revert t. induction l as [|a l IH]; intros [|t] H; try discriminate H.
  - injection H as <-. exists [], l. auto.
  - destruct (IH t H) as (l1 & l2 & -> & E & N). exists (a :: l1), l2. cbn. now rewrite E, N.
Qed.
Lemma refs_site_ext b b' t ref : site_ext (b_jumps b) (b_jumps b') t ref ->
  exists l1 l2, refs b = l1 ++ l2 /\ refs b' = l1 ++ ref :: l2.
Proof.
  intros (j & N & E). destruct (upd_split _ _ _ (mkJ (j_off j) (j_refs j ++ [ref]) (j_goto j)) N) as (l1 & l2 & E1 & E2 & _).
  exists (flat_map j_refs l1 ++ j_refs j), (flat_map j_refs l2). unfold refs. rewrite E, E2, E1.
  rewrite !flat_map_app. cbn [flat_map j_refs]. rewrite <- !app_assoc. auto.
Qed.
Lemma at_site_ext_old b b' t ref t1 r1 : site_ext (b_jumps b) (b_jumps b') t ref -> at_site b t1 r1 -> at_site b' t1 r1.
Proof.
  intros (j & N & E) (j1 & N1 & I1). unfold at_site. rewrite E. destruct (Nat.eq_dec t1 t) as [->|D].
  - rewrite N1 in N. injection N as ->. eexists. rewrite upd_same by (apply nth_error_Some; rewrite N1; discriminate). split; [reflexivity|].
    cbn. apply in_or_app. auto.
  - exists j1. rewrite upd_other by auto. auto.
Qed.
Lemma at_site_ext_new b b' t ref : site_ext (b_jumps b) (b_jumps b') t ref -> at_site b' t ref.
Proof.
  intros (j & N & E). unfold at_site. rewrite E. eexists.
  rewrite upd_same by (apply nth_error_Some; rewrite N; discriminate). split; [reflexivity|]. cbn. apply in_or_app. cbn. auto.
Qed.
Lemma at_site_ext_inv b b' t ref t1 r1 : site_ext (b_jumps b) (b_jumps b') t ref -> at_site b' t1 r1 ->
  at_site b t1 r1 \/ (t1 = t /\ r1 = ref).
Proof.
  intros (j & N & E) (j1 & N1 & I1). rewrite E in N1. destruct (Nat.eq_dec t1 t) as [->|D].
  - rewrite upd_same in N1 by (apply nth_error_Some; rewrite N; discriminate). injection N1 as <-. cbn in I1.
    apply in_app_or in I1 as [I1|[<-|[]]]; [left|right; auto]. exists j. auto.
  - rewrite upd_other in N1 by auto. left. exists j1. auto.
Qed.
Lemma fop_insert {A} (R : A -> A -> Prop) l1 x l2 :
  ForallOrdPairs R (l1 ++ l2) -> (forall y, In y l1 -> R y x) -> (forall y, In y l2 -> R x y) -> ForallOrdPairs R (l1 ++ x :: l2).
Proof.
  induction l1 as [|a l1 IH]; cbn; intros H H1 H2.
  - constructor; [|exact H]. apply Forall_forall. auto.
  - apply fop_inv in H as [H0 H]. constructor; [|apply IH; auto].
    apply Forall_forall. intros y I. rewrite Forall_forall in H0. apply in_app_or in I as [I|[<-|I]]; auto; apply H0, in_or_app; auto.
Qed.

(* the general growing step *)
Lemma grow b b' e P :
  inv b -> b_all b' = b_all b ++ P -> Permutation (intervals b') (intervals b ++ map (shift_by (size b)) (intervals e)) ->
  sites_within e P -> (forall fn h r, refers b' fn h r <-> refers b fn h r \/ refers e fn h (r - size b)) ->
  b_gotos b' = b_gotos b ->
  (b_jumps b' = b_jumps b \/
   exists t ref k t0, site_ext (b_jumps b) (b_jumps b') t ref /\ size b <= ref - 1 /\
     jump_at (b_all b') (ref - 1) = Some (k, t0, size b') /\ forall i, patched b' i -> i < ref - 1) ->
  ext b b' /\ inv b'.
Proof.
  intros I0 EA PM WE RF GO HJ. pose proof I0 as [W SW GB SEP]. pose proof (inv_patch _ I0) as PW.
  assert (NP : forall i, patched b' i -> patched b i \/ size b <= i < size b').
  { intros i Q. apply (patched_perm _ _ _ _ _ PM) in Q as [Q|Q]; [auto|right]. apply (sites_patched _ _ WE) in Q.
    unfold size in *. rewrite EA, lenZ_app. lia. }
  assert (SZ : size b' = size b + lenZ P) by (unfold size; rewrite EA, lenZ_app; lia).
  assert (LP : 0 <= lenZ P) by apply lenZ_nonneg.
  assert (OLD : forall t ref, at_site b t ref -> at_site b' t ref).
  { intros t ref S. destruct HJ as [E|(t1 & r1 & k & t0 & X & _)].
    - destruct S as (j & N & I). exists j. rewrite E. auto.
    - eapply at_site_ext_old; eauto. }
  assert (INV : forall t ref, at_site b' t ref -> at_site b t ref \/ (size b <= ref - 1 /\ exists k t0, jump_at (b_all b') (ref - 1) = Some (k, t0, size b'))).
  { intros t ref S. destruct HJ as [E|(t1 & r1 & k & t0 & X & Y & Z)].
    - destruct S as (j & N & I). left. exists j. rewrite <- E. auto.
    - destruct Z as [Z _]. destruct (at_site_ext_inv _ _ _ _ _ _ X S) as [H|[-> ->]]; [auto|]. right. split; [exact Y|]. exists k, t0. exact Z. }
  assert (JO : forall t ref k t0 n, at_site b t ref -> (jump_at (b_all b') (ref - 1) = Some (k, t0, n) <-> jump_at (b_all b) (ref - 1) = Some (k, t0, n))).
  { intros t ref k t0 n S. rewrite EA. split; intros J.
    - eapply wl_jump; eauto.
    - destruct (site_jump _ _ _ W S) as (k1 & t1 & n1 & J1 & N1). rewrite J in J1. injection J1 as <- <- <-.
      apply jump_at_prefix; [exact N1|exact J]. }
  split; constructor.
  - lia.
  - exact OLD.
  - intros i I _. rewrite EA. apply nthZ_app1. exact (proj2 I).
  - intros t ref k t0 n S J. exists t0. apply (JO _ _ _ _ _ S). exact J.
  - intros i I (t & ref & k & t0 & n & S & J & R). destruct (INV _ _ S) as [S'|[G _]]; [|lia].
    exists t, ref, k, t0, n. split; [exact S'|]. split; [|exact R]. apply (JO _ _ _ _ _ S'). exact J.
  - intros i I Q. destruct (NP i Q); [assumption|lia].
  - intros i I. rewrite EA. apply nthZ_app1. apply (PW i I).
  - intros i I. apply (patched_perm _ _ _ _ _ PM). auto.
  - intros fn h r R. apply RF. auto.
  - destruct HJ as [->|(t & ref & k & t0 & (j & _ & ->) & _)]; [lia|]. rewrite upd_length. lia.
  - apply wl_refs. apply wl_refs in W as WR. destruct WR as [W1 W2].
    assert (G1 : forall r, In r (refs b) -> exists k t n, jump_at (b_all b') (r - 1) = Some (k, t, n) /\ n <= size b).
    { intros r I. rewrite Forall_forall in W1. destruct (W1 r I) as (k & t & n & J & N). exists k, t, n. rewrite EA.
      split; [|exact N]. apply jump_at_prefix; [exact N|exact J]. }
    assert (G2 : ForallOrdPairs (apart (b_all b')) (refs b)).
    { assert (G3 : forall l, incl l (refs b) -> ForallOrdPairs (apart (b_all b)) l -> ForallOrdPairs (apart (b_all b')) l).
      { induction l as [|a l IH]; intros IC F; [constructor|]. apply fop_inv in F as [F0 F].
        constructor; [|apply IH; auto; intros x X; apply IC; now right].
        apply Forall_forall. intros c Ic k t n k' t' n' J J'. rewrite Forall_forall in F0.
        destruct (in_at_site b a (IC a (or_introl eq_refl))) as (ta & Sa).
        destruct (in_at_site b c (IC c (or_intror Ic))) as (tc & Sc).
        apply (F0 c Ic k t n k' t' n'); [apply (JO _ _ _ _ _ Sa)|apply (JO _ _ _ _ _ Sc)]; assumption. }
      apply G3; [apply incl_refl|exact W2]. }
    destruct HJ as [E|(t & ref & k & t0 & X & Y & Z & _)].
    + unfold refs in *. rewrite E. split; [|exact G2]. apply Forall_forall. intros r I.
      destruct (G1 r I) as (k & t & n & J & N). exists k, t, n. split; [exact J|lia].
    + destruct (refs_site_ext _ _ _ _ X) as (l1 & l2 & E1 & E2). rewrite E2, E1 in *. split.
      * apply Forall_forall. intros r I. apply in_app_or in I as [I|[<-|I]].
        -- destruct (G1 r) as (k1 & t1 & n1 & J & N); [apply in_or_app; auto|]. exists k1, t1, n1. split; [exact J|lia].
        -- exists k, t0, (size b'). split; [exact Z|lia].
        -- destruct (G1 r) as (k1 & t1 & n1 & J & N); [apply in_or_app; auto|]. exists k1, t1, n1. split; [exact J|lia].
      * apply fop_insert; [exact G2| |]; intros y I k1 t1 n1 k2 t2 n2 J1 J2.
        -- destruct (G1 y) as (k3 & t3 & n3 & J3 & N3); [apply in_or_app; auto|]. rewrite J1 in J3. injection J3 as <- <- <-. lia.
        -- destruct (G1 y) as (k3 & t3 & n3 & J3 & N3); [apply in_or_app; auto|]. rewrite J2 in J3. injection J3 as <- <- <-. lia.
  - rewrite EA. eapply sites_join; eauto.
  - now rewrite GO.
  - intros i Q (t & ref & k & t0 & n & S & J & R).
    assert (OS : at_site b t ref -> False).
    { intros S'. apply (JO _ _ _ _ _ S') in J. destruct (NP i Q) as [H|H].
      - apply (SEP i H). exists t, ref, k, t0, n. auto.
      - destruct (site_jump _ _ _ W S') as (k1 & t1 & n1 & J1 & N1). rewrite J in J1. injection J1 as <- <- <-. lia. }
    destruct HJ as [E|(t2 & r2 & k2 & t3 & X & Y & Z & SP)].
    + apply OS. destruct S as (j & N & I). exists j. rewrite <- E. auto.
    + destruct (at_site_ext_inv _ _ _ _ _ _ X S) as [H|[-> ->]]; [auto|]. apply SP in Q. lia.
Qed.

(* a change of the labels only *)
Lemma relabel b b' :
  inv b -> b_all b' = b_all b -> b_fns b' = b_fns b -> b_objs b' = b_objs b -> b_gotos b' = b_gotos b ->
  (forall t ref, at_site b' t ref <-> at_site b t ref) -> refs b' = refs b ->
  (length (b_jumps b) <= length (b_jumps b'))%nat -> ext b b' /\ inv b'.
Proof.
  intros I0 EA EF EO EG S R LN. pose proof I0 as [W SW GB SEP]. unfold size in *.
  assert (EI : intervals b' = intervals b) by (unfold intervals, call_sites, object_sites; now rewrite EF, EO, EG).
  assert (NP : forall i, patched b' i <-> patched b i) by (intros i; unfold patched; now rewrite EI).
  assert (JJ : forall i, jumpy b' i <-> jumpy b i).
  { intros i. unfold jumpy. rewrite EA. split; intros (t & ref & k & t0 & n & A & J); exists t, ref, k, t0, n; (split; [now apply S|exact J]). }
  split; constructor; unfold size in *; rewrite ?EA.
  - lia.
  - intros t ref. apply S.
  - reflexivity.
  - intros. eauto.
  - intros i _. apply JJ.
  - intros i _. apply NP.
  - reflexivity.
  - intros i. apply NP.
  - intros fn h r. unfold refers. now rewrite EF, EO.
  - exact LN.
  - apply wl_refs. apply wl_refs in W. unfold size in *. rewrite R, EA. exact W.
  - unfold sites_within, names_fit, call_sites in *. now rewrite EI, EF.
  - now rewrite EG.
  - intros i I J. apply (SEP i); [now apply NP|now apply JJ].
Qed.
Lemma ext_target b : inv b -> ext b (fst (add_target b)) /\ inv (fst (add_target b)).
Proof.
  intros I. apply relabel; [exact I|reflexivity|reflexivity|reflexivity|reflexivity| | |].
  - intros t ref. unfold add_target, at_site. cbn [fst set_jumps b_jumps]. split; intros (j & N & H).
    + destruct (Nat.lt_ge_cases t (length (b_jumps b))) as [L|L].
      * rewrite nth_error_app1 in N by exact L. eauto.
      * rewrite nth_error_app2 in N by exact L. destruct (t - length (b_jumps b))%nat as [|[|x]]; try discriminate N.
        injection N as <-. destruct H.
    + exists j. rewrite nth_error_app1; [auto|]. apply nth_error_Some. rewrite N. discriminate.
  - unfold refs, add_target. cbn [fst set_jumps b_jumps]. rewrite flat_map_app. cbn. now rewrite app_nil_r.
  - unfold add_target. cbn [fst set_jumps b_jumps]. rewrite app_length. lia.
Qed.
Lemma set_target_eq t b b' : set_target t b = COk b' ->
  exists j, nth_error (b_jumps b) t = Some j /\ b' = set_jumps b (Base.upd (b_jumps b) t (mkJ (size b) (j_refs j) (j_goto j))).
Proof. unfold set_target. destruct (nth_error (b_jumps b) t) as [j|]; [|discriminate]. intros E. injection E as <-. eauto. Qed.
Lemma ext_set_target t b b' : inv b -> set_target t b = COk b' -> ext b b' /\ inv b'.
Proof.
  intros I E. apply set_target_eq in E as (j & N & ->). apply relabel; [exact I|reflexivity|reflexivity|reflexivity|reflexivity| | |].
  - intros t1 ref. unfold at_site. cbn [set_jumps b_jumps]. split; intros (j1 & N1 & H).
    + destruct (Nat.eq_dec t1 t) as [->|D].
      * rewrite upd_same in N1 by (apply nth_error_Some; rewrite N; discriminate). injection N1 as <-. eauto.
      * rewrite upd_other in N1 by auto. eauto.
    + destruct (Nat.eq_dec t1 t) as [->|D].
      * rewrite N in N1. injection N1 as <-. eexists. rewrite upd_same by (apply nth_error_Some; rewrite N; discriminate). split; [reflexivity|exact H].
      * exists j1. rewrite upd_other by auto. auto.
  - unfold refs. cbn [set_jumps b_jumps].
    destruct (upd_split _ _ _ (mkJ (size b) (j_refs j) (j_goto j)) N) as (l1 & l2 & E1 & E2 & _). rewrite E2, E1, !flat_map_app. reflexivity.
  - cbn [set_jumps b_jumps]. rewrite upd_length. lia.
Qed.
Lemma ext_resolve b b' : inv b -> resolve_jumps b = COk b' ->
  ext b b' /\ inv b' /\ b_jumps b' = b_jumps b /\ b_ops b' = b_ops b /\ size b' = size b /\
  forall t j ref k t0 n, nth_error (b_jumps b') t = Some j -> In ref (j_refs j) ->
    jump_at (b_all b') (ref - 1) = Some (k, t0, n) -> t0 = j_off j.
Proof.
  intros I0 E. pose proof I0 as [W SW GB SEP]. pose proof (c34_resolve b W) as R. rewrite E in R. destruct R as (J & SZ & O & BJ).
  assert (SJ : b' = set_code b (b_all b') (b_ops b)).
  { unfold resolve_jumps in E. destruct (resolve_targets (b_jumps b) (b_all b)); try discriminate E. cbn in E. injection E as <-. reflexivity. }
  assert (AT : forall t ref, at_site b' t ref <-> at_site b t ref) by (intros; unfold at_site; rewrite BJ; reflexivity).
  assert (JA : forall t ref k t0 n, at_site b t ref -> jump_at (b_all b) (ref - 1) = Some (k, t0, n) -> exists t1, jump_at (b_all b') (ref - 1) = Some (k, t1, n)).
  { intros t ref k t0 n (j & N & I) H. exists (j_off j). eapply J; eauto. now apply nth_error_In in N. }
  assert (JB : forall t ref k t0 n, at_site b t ref -> jump_at (b_all b') (ref - 1) = Some (k, t0, n) -> exists t1, jump_at (b_all b) (ref - 1) = Some (k, t1, n)).
  { intros t ref k t0 n S H. destruct (site_jump _ _ _ W S) as (k1 & t1 & n1 & J1 & _).
    destruct (JA _ _ _ _ _ S J1) as (t2 & J2). rewrite H in J2. injection J2 as <- <- <-. eauto. }
  split; [|split; [|split; [exact BJ|split; [now rewrite SJ|split; [unfold size; lia|]]]]].
  - constructor.
    + unfold size. lia.
    + intros t ref. apply AT.
    + intros i I N. apply O. intros H. apply N. now apply jumpy_in_site.
    + exact JA.
    + intros i _ (t & ref & k & t0 & n & S & H & Q). apply AT in S. destruct (JB _ _ _ _ _ S H) as (t1 & H1).
      exists t, ref, k, t1, n. auto.
    + intros i _. rewrite SJ. auto.
    + apply (inv_still _ _ I0). intros i I N. apply O. intros H. apply N. now apply jumpy_in_site.
    + intros i. rewrite SJ. auto.
    + intros fn h r H. rewrite SJ. exact H.
    + rewrite BJ. lia.
  - constructor.
    + assert (b' = set_jumps b' (b_jumps b)) as -> by (rewrite SJ; reflexivity). apply (c34_resolve_again b b' (b_jumps b) W E eq_refl).
    + pose proof SW as (W1 & W2 & W3). split; [|rewrite SJ; auto]. rewrite Forall_forall in *. intros x I. rewrite SJ in I. specialize (W1 x I).
      pose proof (interval_pos _ _ I). assert (PX : patched b (fst x)) by (apply Exists_exists; exists x; split; [exact I|unfold inside; lia]).
      split; [lia|]. split; [lia|]. rewrite O; [apply W1|]. intros H1. apply (SEP _ PX). now apply jumpy_in_site.
    + rewrite SJ. exact GB.
    + intros i I (t & ref & k & t0 & n & S & H & Q). rewrite SJ in I. apply (SEP i I). apply AT in S.
      destruct (JB _ _ _ _ _ S H) as (t1 & H1). exists t, ref, k, t1, n. auto.
  - intros t j ref k t0 n N I H. rewrite BJ in N. assert (S : at_site b t ref) by (exists j; auto).
    destruct (JB _ _ _ _ _ S H) as (t1 & H1). rewrite (J j ref k t1 n) in H; [injection H as <-; reflexivity| | |]; auto.
    now apply nth_error_In in N.
Qed.
