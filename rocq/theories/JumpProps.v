(* C34: relative jumps go where their labels are. *)
From Verif Require Import Base BaseLemmas OpsModel VmModel EmitModel JumpSpec JumpProofs.

(* the references of a block and the labels they name *)
Definition references (b : bcode) : list site :=
  flat_map (fun j => map (fun r => (j_off j, r)) (j_refs j)) (b_jumps b).
(* every reference is the first byte after the opcode of a jump instruction lying in the code, in either
   encoding, and these instructions do not overlap *)
Definition well_labelled (b : bcode) : Prop :=
  Forall (site_ok (b_all b)) (references b) /\ sites_disjoint (b_all b) (references b).

(* When resolution succeeds every jump goes to its label and does otherwise what it did before, and no
   byte outside the jump instructions changes.  When it fails, some distance does not fit 16 bits. *)
Theorem c34_resolve : forall b, well_labelled b ->
  match resolve_jumps b with
  | COk b' =>
    (forall j ref k t n, In j (b_jumps b) -> In ref (j_refs j) ->
       jump_at (b_all b) (ref - 1) = Some (k, t, n) -> jump_at (b_all b') (ref - 1) = Some (k, j_off j, n)) /\
    lenZ (b_all b') = lenZ (b_all b) /\
    (forall q, ~ in_site (b_all b) (references b) q -> nthZ (b_all b') q = nthZ (b_all b) q) /\
    b_jumps b' = b_jumps b
  | CErr e => e = E_bad_goto_location /\ exists s, In s (references b) /\ ~ encodable (b_all b) s
  | CUB => False
  end.
Proof.
  intros b [W D]. unfold resolve_jumps. rewrite resolve_targets_sites.
  pose proof (resolve_sites_ok _ _ W D) as R. unfold references in *. fold (sites_of (b_jumps b)) in *.
  destruct (resolve_sites (sites_of (b_jumps b)) (b_all b)) as [l|e|]; cbn [cbind]; [|exact R|exact R].
  destruct R as (L & O & J). split; [|split; [exact L|split; [exact O|reflexivity]]].
  intros j ref k t n Ij Ir H. eapply (J (j_off j, ref)); [|exact H].
  apply in_flat_map. exists j. split; [exact Ij|]. apply in_map_iff. exists ref. auto.
Qed.
(* Every distance that fits is encoded: resolution fails only for one that does not. *)
Theorem c34_encodable_resolves : forall b, well_labelled b ->
  Forall (encodable (b_all b)) (references b) -> exists b', resolve_jumps b = COk b'.
Proof.
  intros b W E. pose proof (c34_resolve b W) as R. destruct (resolve_jumps b) as [b'|e|]; [eauto| |contradiction].
  destruct R as [_ (s & I & N)]. rewrite Forall_forall in E. destruct (N (E s I)).
Qed.
(* Moving labels and resolving again (the compiler resolves nested blocks first) still works: a resolved
   block is again well labelled, whatever the labels are moved to. *)
Theorem c34_resolve_again : forall b b' js,
  well_labelled b -> resolve_jumps b = COk b' ->
  map j_refs js = map j_refs (b_jumps b) -> well_labelled (set_jumps b' js).
Proof.
  intros b b' js W R M. pose proof (c34_resolve b W) as H. rewrite R in H. destruct H as (J & L & _ & _).
  destruct W as [W D].
  assert (JA : forall s, In s (references b) -> forall k t n,
            jump_at (b_all b) (snd s - 1) = Some (k, t, n) -> jump_at (b_all b') (snd s - 1) = Some (k, fst s, n)).
  { intros s I k t n H. apply in_flat_map in I as (j & Ij & Ir). apply in_map_iff in Ir as (ref & <- & Ir).
    exact (J j ref k t n Ij Ir H). }
  assert (EQ : map snd (references (set_jumps b' js)) = map snd (references b)).
  { unfold references. cbn [set_jumps b_jumps]. clear -M. revert M. generalize (b_jumps b). intros js'. revert js'.
    induction js as [|j js IH]; intros [|j' js'] M; try discriminate M; [reflexivity|].
    cbn in M. injection M as M1 M2. cbn [flat_map]. rewrite !map_app, !map_map, (IH js' M2), M1. cbn [snd]. reflexivity. }
  assert (IN : forall s, In s (references (set_jumps b' js)) -> exists s0, In s0 (references b) /\ snd s0 = snd s).
  { intros s I. apply (in_map snd) in I. rewrite EQ in I. apply in_map_iff in I as (s0 & E & I). eauto. }
  assert (NX : forall s0, In s0 (references b) -> forall k t n, jump_at (b_all b') (snd s0 - 1) = Some (k, t, n) ->
             exists t0, jump_at (b_all b) (snd s0 - 1) = Some (k, t0, n)).
  { intros s0 I k t n H. rewrite Forall_forall in W. destruct (W s0 I) as (k0 & t0 & n0 & H0 & _).
    rewrite (JA s0 I _ _ _ H0) in H. injection H as <- <- <-. eauto. }
  split.
  - apply Forall_forall. intros s I. destruct (IN s I) as (s0 & I0 & E). rewrite Forall_forall in W.
    destruct (W s0 I0) as (k & t & n & H & N). exists k, (fst s0), n. cbn [set_jumps b_all]. rewrite <- E.
    split; [exact (JA s0 I0 _ _ _ H)|lia].
  - unfold sites_disjoint in *. cbn [set_jumps b_all].
    assert (G : forall ss, incl ss (references b) ->
      ForallOrdPairs (fun a b0 : site => forall k t n k' t' n', jump_at (b_all b) (snd a - 1) = Some (k, t, n) ->
         jump_at (b_all b) (snd b0 - 1) = Some (k', t', n') -> n <= snd b0 - 1 \/ n' <= snd a - 1) ss ->
      forall ss', map snd ss' = map snd ss ->
      ForallOrdPairs (fun a b0 : site => forall k t n k' t' n', jump_at (b_all b') (snd a - 1) = Some (k, t, n) ->
         jump_at (b_all b') (snd b0 - 1) = Some (k', t', n') -> n <= snd b0 - 1 \/ n' <= snd a - 1) ss').
    { induction ss as [|a ss IH]; intros INC F [|a' ss'] E; try discriminate E; [constructor|].
      apply fop_inv in F as [F0 F]. cbn in E. injection E as E0 E.
      constructor; [|apply IH; auto; intros x X; apply INC; now right].
      apply Forall_forall. intros c Ic k t n k' t' n' H H'. rewrite E0 in *.
      apply (in_map snd) in Ic. rewrite E in Ic. apply in_map_iff in Ic as (c0 & Ec & Ic). rewrite <- Ec in *.
      destruct (NX a (INC _ (or_introl eq_refl)) _ _ _ H) as (t0 & H0).
      destruct (NX c0 (INC _ (or_intror Ic)) _ _ _ H') as (t1 & H1).
      rewrite Forall_forall in F0. exact (F0 c0 Ic _ _ _ _ _ _ H0 H1). }
    apply (G (references b)); [intros x X; exact X|exact D|exact EQ].
Qed.

(* ---- the hypotheses are met: the code of  while( a < b ) { ... 200 bytes ... }  ---- *)
(* LLCompareLTBZ 1 2 -> end; body; RelativeJump -> top *)
Definition ex_body : list Z := concat (repeat [byte_of O_IncLocal; 3] 100).
Definition ex_loop : bcode :=
  mkB ([byte_of O_LLCompareLTBZ; 1; 2; 9; 9] ++ ex_body ++ [byte_of O_RelativeJump; 9; 9]) [] [] [] []
      [mkJ 0 [206] 0; mkJ 208 [1] 0] [].
Example c34_hypotheses : well_labelled ex_loop.
Proof.
  split.
  - repeat constructor; do 3 eexists; (split; [vm_compute; reflexivity|vm_compute; discriminate]).
  - constructor; [constructor; [|constructor]|constructor; [constructor|constructor]].
    intros k t n k' t' n' H H'. vm_compute in H, H'. injection H as <- <- <-. injection H' as <- <- <-.
    right. vm_compute. discriminate.
Qed.
Example c34_example : exists b', resolve_jumps ex_loop = COk b' /\
  decode (b_all b') 0 = Some (ICmp2B CLt SL 1 2 208, 5) /\ decode (b_all b') 205 = Some (IJump 0, 208).
Proof. eexists. split; [vm_compute; reflexivity|]. split; vm_compute; reflexivity. Qed.

Print Assumptions c34_resolve.
Print Assumptions c34_encodable_resolves.
Print Assumptions c34_resolve_again.
