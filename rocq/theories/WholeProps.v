(* C52: compiling, linking, loading and running.  C35 (what compiled statements do, wherever the code is
   placed) and C39 (what the linker writes and the loader finds) put together: no hypothesis about the
   placing of code is left. *)
From Verif Require Import Base BaseLemmas HashModel OpsModel VmModel VmSpec EmitModel CcModel LinkModel JumpSpec JumpProofs JumpProps LinkSpec CtlSpec CtlSem LayProofs AppendProofs StepProofs TableProofs CtlProofs CtlSim CtlUnit CtlProps.
From Verif Require Import LinkProofs LinkProps.

(* ---- what a call has become ---- *)
(* the bytes at [q] of the image, for a call of [h] that was compiled with [args] arguments; [drop] tells
   whether the value is thrown away *)
Definition call_linked (us : list cunit) (C : list Z) (h q : Z) (args drop : option Z) : Prop :=
  exists a, args = Some a /\
  (forall i, named us h i -> exists n, decode C q = Some (ICall (Z.to_nat a) i, n) /\
     ((n = q + 6 /\ (drop = Some (byte_of O_PopOne) \/ nthZ C (q + 6) = Some (byte_of O_NewObjectTable))) \/
      (n = q + 5 /\ drop <> Some (byte_of O_PopOne) /\ decode C n = Some (IPushRet, q + 6)))) /\
  (unnamed us h -> h <> yield_hash -> exists pop,
     decode C q = Some (ICallHash pop (Z.to_nat a) h, q + 6) /\ (pop = true <-> drop = Some (byte_of O_PopOne))) /\
  (h = yield_hash -> decode C q = Some (IYield (Z.to_nat a), q + 2)).
Definition object_linked (us : list cunit) (fs : list lfn) (C : list Z) (h q : Z) : Prop :=
  forall i f, named us h i -> nth_error fs i = Some f -> rdu16 C q = Some (l_ns f).
(* the image, with what is known of the completed places *)
Definition loaded (us : list cunit) (fs : list lfn) (C : list Z) : image :=
  Image C (fun fn h q args drop => if fn then call_linked us C h q args drop else object_linked us fs C h q).

Lemma not_untouched b i : ~ patched b i -> untouched b i.
Proof. intros N. apply Forall_forall. intros x I H. apply N, Exists_exists. eauto. Qed.
Lemma named_or us h : (exists i, named us h i) \/ unnamed us h.
Proof.
  induction us as [|u us IH]; [right; constructor|]. destruct (Z.eq_dec (u_hash u) h) as [E|E].
  - left. exists O. split; [exists u; auto|]. intros k v K. lia.
  - destruct IH as [(i & (v & N & H) & F)|U]; [left|right; constructor; auto].
    exists (S i). split; [exists v; auto|]. intros [|k] w K W; [cbn in W; congruence|]. apply (F k); [lia|exact W].
Qed.
Lemma linked_placed us fs C p b : unnamed us yield_hash -> sites_within b (b_all b) ->
  linked_at us fs C p b -> placed (loaded us fs C) p (b_all b) b.
Proof.
  intros UY SW (P0 & PE & SAME & CALLS & _ & OBJS). split.
  - intros i I N. apply SAME; [exact I|now apply not_untouched].
  - intros [] h r R; cbn [loaded linked].
    + pose proof (sites_refers _ _ _ _ SW R) as [R0 R1]. pose proof R as RC. apply call_refers in RC.
      destruct (CALLS _ _ RC) as (C1 & C2 & C3).
      assert (B1 : site_byte (b_all b) true h r 1 = nthZ (b_all b) (r + 1)).
      { unfold site_byte, call_len. destruct (h =? yield_hash); reflexivity. }
      assert (B5 : h <> yield_hash -> site_byte (b_all b) true h r 5 = nthZ (b_all b) (r + 5)).
      { intros N. unfold site_byte, call_len. destruct (Z.eqb_spec h yield_hash); [contradiction|reflexivity]. }
      destruct (nthZ_in (b_all b) (r + 1)) as (a & A).
      { unfold call_len in R1. destruct (h =? yield_hash); lia. }
      exists a. rewrite B1. split; [exact A|]. split; [|split].
      * intros i NI. assert (NY : h <> yield_hash).
        { intros ->. destruct NI as ((u & N & H) & _). unfold unnamed in UY. rewrite Forall_forall in UY. exact (UY u (nth_error_In _ _ N) H). }
        rewrite (B5 NY). destruct (C1 i NI) as (a' & n & A' & D & W). rewrite A in A'. injection A' as <-. exists n. split; [exact D|].
        destruct W as [(-> & [W|W])|(-> & W1 & W2)]; [left; auto| |right; auto].
        left. split; [reflexivity|right]. replace (p + r + 6) with (p + (r + 6)) by lia. rewrite SAME; [exact W| |].
        -- split; [lia|]. destruct (Z.lt_ge_cases (r + 6) (lenZ (b_all b))) as [L|L]; [exact L|].
           unfold nthZ in W. destruct (r + 6 <? 0); [discriminate|]. unfold lenZ in L. rewrite (proj2 (nth_error_None _ _)) in W by lia. discriminate.
        -- apply not_untouched. intros PX. apply Exists_exists in PX as (x & IX & QX). destruct SW as (S1 & S2 & _).
           rewrite Forall_forall in S1. specialize (S1 x IX). unfold inside in QX.
           destruct (Z.eq_dec (fst x) (r + 6)) as [EX|NX]; [rewrite EX in S1; tauto|].
           pose proof (refers_interval _ _ _ _ R) as IR. cbn in IR. unfold call_len in IR. rewrite (proj2 (Z.eqb_neq _ _) NY) in IR.
           (* both contain r + 5 *)
           assert (X : x = (r, 6)).
           { clear - S2 IX IR QX NX. induction (intervals b) as [|y l IH]; [destruct IX|]. apply fop_inv in S2 as [F S2].
             destruct IX as [->|IX], IR as [E|IR]; auto.
             - rewrite Forall_forall in F. specialize (F _ IR). unfold disjoint in F. cbn [fst snd] in F. lia.
             - subst y. rewrite Forall_forall in F. specialize (F _ IX). unfold disjoint in F. cbn [fst snd] in F. lia. }
           subst x. cbn [fst snd] in *. lia.
      * intros UN NY. rewrite (B5 NY). destruct (C2 UN NY) as (a' & pop & A' & D & W). rewrite A in A'. injection A' as <-. eauto.
      * intros ->. destruct (C3 UY eq_refl) as (a' & A' & D). rewrite A in A'. injection A' as <-. exact D.
    + apply object_refers in R. exact (OBJS _ _ R).
Qed.
Lemma finished_inv ret w s P b : finished ret w s P b -> inv b.
Proof. intros [(l & b0 & E & A)]. pose proof (step_code _ _ _ _ (sd_inv _ _ _ (em_step _ _ _ _ _ _ _ E)) A) as S1. apply (sd_inv _ _ _ S1). Qed.
Lemma inv_completable b : inv b -> completable b /\ names_fit b.
Proof.
  intros I. destruct (inv_sites _ I) as (W & D & N). split; [|exact N]. split; [|exact D]. eapply Forall_impl; [|exact W]. cbn. tauto.
Qed.
Lemma finished_some ret w s P b : finished ret w s P b -> P <> [] -> 1 <= lenZ (b_all b).
Proof.
  intros [(l & b0 & E & A)] N. rewrite (ap_all _ _ _ _ A), lenZ_app. pose proof (lenZ_nonneg (b_all b0)).
  destruct P; [congruence|]. unfold lenZ in *. cbn [length]. lia.
Qed.

(* the end of a function's code: it returns 0 *)
Definition function_end (C : list Z) (q : Z) : Prop := nthZ C q = Some (byte_of O_ReturnZero).
(* the end of the global code: the value 0 is pushed and the machine stops *)
Definition global_end (C : list Z) (q : Z) : Prop :=
  nthZ C q = Some (byte_of O_LiteralZero) /\ nthZ C (q + 1) = Some (byte_of O_GlobalStop) /\ nthZ C (q + 2) = Some (byte_of O_Stop).

(* Compiling a source, linking it and loading the image: the loaded functions are those of the source, in
   order; run from its loaded position, a function does what its statements mean, and so does the code
   outside functions from the start position.  What expressions mean refers to their code in the image,
   where calls look as [call_linked] says.  Missing: foreach, goto, nested function declarations and the
   statement forms that are not [tidy]; units of 32768 bytes or more; images above 65535 bytes and
   functions whose table entry overflows (refuted: c39_large_image_refuted and following). *)
Theorem c52_compile_link_load_run_partial : forall (l : list item) n g us flags symbols text img,
  Forall item_ok l -> compile_units n (source l) = COk (g, us) -> link g us flags symbols text = COk img ->
  0 <= flags < 256 -> lenZ text < 2147483648 -> lenZ img <= 65535 -> Forall unit_fits us ->
  Forall (fun u => lenZ (b_all (u_code u)) < 32768) us -> lenZ (b_all g) < 32768 ->
  (forall h ps s, In (h, ps, s) (functions l) -> h <> yield_hash) ->
  exists c, create_context img = Some c /\ c_globals c = lenZ (b_locals g) /\
    length (c_funs c) = length (functions l) /\
    (forall i h ps s f, nth_error (functions l) i = Some (h, ps, s) -> nth_error (c_funs c) i = Some f ->
       l_hash f = h /\ l_args f = lenZ ps /\ 0 <= l_frame f /\ l_adjust f = 1 + l_args f + l_frame f /\ l_adjust f < 256 /\
       forall k, follows k (loaded us (c_funs c) img) O_Return s (l_off f)
                   (fun q => function_end img q \/ tail InBlock s = Some LReturn)) /\
    (forall k, follows k (loaded us (c_funs c) img) O_GlobalStop (global_code l) (c_start c)
                 (fun q => global_end img q \/ tail Body (global_code l) = Some LReturn)).
Proof.
  intros l n g us flags symbols text img OK H LK FL LT LI UF US GS NY.
  destruct (compiled_source l n g us OK H) as [G F]. destruct (c35_structured_partial l n g us OK H) as (LEN & FUN & GLO).
  assert (UY : unnamed us yield_hash).
  { clear - F NY. unfold unnamed. induction F as [|f u fs us' (E & _) F IH]; constructor.
    - rewrite E. destruct f as ((h & ps) & s). apply (NY h ps s). now left.
    - apply IH. intros h ps s I. apply (NY h ps s). now right. }
  assert (IG : inv g) by (destruct G as [G|[_ G]]; exact (finished_inv _ _ _ _ _ G)).
  assert (IU : Forall (fun u => inv (u_code u)) us).
  { clear - F. induction F as [|f u fs us' (_ & _ & FC) F IH]; constructor; auto. destruct FC as [FC|[_ FC]]; exact (finished_inv _ _ _ _ _ FC). }
  assert (CU : Forall (fun u => completable (u_code u) /\ names_fit (u_code u)) us).
  { eapply Forall_impl; [|exact IU]. intros u I. now apply inv_completable. }
  assert (G1 : 1 <= lenZ (b_all g)) by (destruct G as [G|[_ G]]; (eapply finished_some; [exact G|discriminate])).
  destruct (inv_completable _ IG) as [CG NG].
  destruct (c39_link_partial g us flags symbols text img LK FL LT LI UF UY CG NG CU G1) as (c & CC & GL & FS & LM).
  exists c. split; [exact CC|]. split; [exact GL|]. pose proof (Forall2_length' _ _ _ FS) as LFS. split; [congruence|].
  rewrite Forall_forall in *. split.
  - intros i h ps s f N1 N2. destruct (nth_error us i) as [u|] eqn:NU.
    2: { apply nth_error_None in NU. assert (X : (i < length (c_funs c))%nat) by (apply nth_error_Some; rewrite N2; discriminate). lia. }
    destruct (FUN i h ps s u N1 NU) as (EH & EA & RUN). destruct (Forall2_nth _ _ _ _ _ _ FS NU N2) as ((D1 & D2 & D3 & D4) & LA).
    pose proof (nth_error_In _ _ NU) as IN. destruct (UF u IN) as (_ & UA & UL).
    split; [congruence|]. split; [congruence|]. split; [lia|]. split; [exact D4|]. split; [lia|]. intros k.
    pose proof (linked_placed us _ img _ _ UY (inv_sites _ (IU u IN)) LA) as PL. specialize (RUN k _ _ (US u IN) PL).
    intros M V R RO a o a1 st FREE HM PC HR. specialize (RUN M V R RO a o a1 st FREE HM PC HR). destruct o; auto.
    destruct RUN as (q & Q & AR). exists q. split; [|exact AR]. destruct Q as [(_ & Q)|(TR & _)]; [left|now right].
    specialize (Q 0 ltac:(cbn; lia)). rewrite Z.add_0_r in Q. exact Q.
  - intros k. pose proof (linked_placed us _ img _ _ UY (inv_sites _ IG) LM) as PL. specialize (GLO k _ _ GS PL).
    intros M V R RO a o a1 st FREE HM PC HR. specialize (GLO M V R RO a o a1 st FREE HM PC HR). destruct o; auto.
    destruct GLO as (q & Q & AR). exists q. split; [|exact AR]. destruct Q as [(_ & Q)|(TR & _)]; [left|now right].
    pose proof (Q 0 ltac:(cbn; lia)) as Q0. rewrite Z.add_0_r in Q0. split; [exact Q0|]. split; [exact (Q 1 ltac:(cbn; lia))|exact (Q 2 ltac:(cbn; lia))].
Qed.

(* ---- an example ---- *)
(* function f() { while( g ) { --g; continue; } return 2; }   while( g ) f();   --g; *)
Definition f_name : Z := 4242.
Definition call_f : bcode := LinkProps.calls [(f_name, [0])] [] (CtlProps.blk [(O_FUNCTION_CALL_PLACEHOLDER, [0; 88; 88; 88; 88])]).
Lemma call_f_pops : exists P, pops call_f P.
Proof.
  eexists. split; [split; reflexivity|]. split; cycle 1.
  - intros b CX. emits call_f. eexists. split; [reflexivity|]. emits_end. rewrite <- ?app_assoc. cbn. split; [reflexivity|]. repeat split; auto.
  - change (intervals call_f) with [(0, 6)]. split; [|split; [repeat constructor|]].
    + change (intervals call_f) with [(0, 6)]. constructor; [cbn; split; [lia|]; split; [lia|discriminate]|constructor].
    + change (names_fit call_f) with (Forall (fun s : Z * Z => 0 <= fst s < 4294967296) [(f_name, 0)]). constructor; [cbn; unfold f_name; lia|constructor].
Qed.
Definition body2 : stmt := Seq loop (Ret (Some two)).
Definition prog2 : list item := [Function f_name [] body2; Global (While var (Exp call_f)); Global (Exp dec)].
Lemma prog2_ok : Forall item_ok prog2.
Proof.
  repeat (constructor; [split; [cbn; unfold ends_well; cbn; repeat split; try discriminate
    |cbn; repeat split; eauto using dec_pops, two_returns, var_branches, call_f_pops]|]). constructor.
Qed.
Definition linked2 : cres (list Z) :=
  match compile_units 100 (source prog2) with COk (g, us) => link g us 1 [] [] | CErr e => CErr e | CUB => CUB end.
Definition image2 : list Z := Eval vm_compute in match linked2 with COk img => img | _ => [] end.
(* the loaded context; the call in the loop; f, from where it is loaded, returns 2 for every g *)
Example c52_example : exists us c f,
  create_context image2 = Some c /\ c_funs c = [f] /\ l_hash f = f_name /\
  decode image2 (c_start c + 4) = Some (ICall 0 0, c_start c + 10) /\
  forall n st, fit n -> vpc st = l_off f -> R1 n st ->
    delivers (machine k1 (loaded us (c_funs c) image2)) Z RO1 st 2.
Proof.
  assert (X : exists g us, compile_units 100 (source prog2) = COk (g, us) /\ link g us 1 [] [] = COk image2 /\
    Forall unit_fits us /\ Forall (fun u => lenZ (b_all (u_code u)) < 32768) us /\ lenZ (b_all g) < 32768).
  { eexists _, _. split; [vm_compute; reflexivity|]. split; [vm_compute; reflexivity|]. split; [|split].
    - constructor; [|constructor]. vm_compute. intuition discriminate.
    - constructor; [|constructor]. vm_compute. reflexivity.
    - vm_compute. reflexivity. }
  destruct X as (g & us & CM & LK & UF & US & GS).
  destruct (c52_compile_link_load_run_partial prog2 100 g us 1 [] [] image2 prog2_ok CM LK ltac:(lia) ltac:(vm_compute; reflexivity)
    ltac:(vm_compute; discriminate) UF US GS) as (c & CC & _ & LEN & FUN & _).
  { intros h ps s [E|[]]. injection E as <- _ _. vm_compute. discriminate. }
  exists us, c. destruct (c_funs c) as [|f [|]] eqn:CF; try discriminate LEN. exists f. split; [exact CC|]. split; [reflexivity|].
  destruct (FUN O f_name [] body2 f eq_refl) as (LH & _ & _ & _ & _ & RUN); [reflexivity|]. split; [exact LH|].
  split.
  - assert (ST : c_start c = 14) by (vm_compute in CC; injection CC as <-; reflexivity). rewrite ST. vm_compute. reflexivity.
  - intros n st FT PC HR. apply (RUN k1 _ _ _ _ n (ORet 2) 0 st R1_free); [|exact PC|exact HR].
    eapply X_seq; [apply loop_means; exact FT|]. apply X_ret. apply two_means.
Qed.
Print Assumptions c52_compile_link_load_run_partial.
Print Assumptions c52_example.
