(* The machine follows the meaning of the statements through code of their shape. *)
From Verif Require Import Base BaseLemmas HashModel OpsModel VmModel VmSpec EmitModel CcModel JumpSpec JumpProofs JumpProps LinkSpec CtlSpec CtlSem LayProofs AppendProofs StepProofs TableProofs CtlProofs.

Lemma reaches_refl stp s : reaches stp s s.
Proof. exists O. constructor. Qed.
Lemma reaches_trans stp s s1 s2 : reaches stp s s1 -> reaches stp s1 s2 -> reaches stp s s2.
Proof.
  intros (n & H) (m & G). exists (n + m)%nat. induction H as [|n s s1 s3 E H IH]; cbn; [exact G|]. econstructor; eauto.
Qed.
Lemma reaches_step stp s s1 s2 : stp s = Ok (Run s1) -> reaches stp s1 s2 -> reaches stp s s2.
Proof. intros E (n & H). exists (S n). econstructor; eauto. Qed.

(* ---- the part of a switch ---- *)
Section Parts.
Variables (C : image) (ret : opcode).
Lemma shape_seq l1 l2 p q db dc cl dl :
  shape C ret (seq_of (l1 ++ l2)) p q db dc cl dl <->
  exists m, shape C ret (seq_of l1) p m db dc cl dl /\ shape C ret (seq_of l2) m q db dc cl dl.
Proof.
  revert p. induction l1 as [|a l1 IH]; intros p; cbn [app seq_of shape].
  - split; [intros H; exists p; auto|intros (m & -> & H); exact H].
  - split.
    + intros (m & H & G). apply IH in G as (m2 & G1 & G2). exists m2. split; [exists m; auto|exact G2].
    + intros (m & (m2 & H & G) & G2). exists m2. split; [exact H|]. apply IH. eauto.
Qed.
Lemma shape_items s p q db dc cl dl : shape C ret s p q db dc cl dl -> shape C ret (seq_of (items s)) p q db dc cl dl.
Proof.
  revert p q. induction s; intros p1 q1 H; cbn [items]; try (cbn [seq_of shape]; exists q1; split; [exact H|reflexivity]).
  - exact H.
  - destruct H as (m & H1 & H2). apply shape_seq. exists m. auto.
Qed.
Lemma shape_case h l : forall r p q db dc cl dl, shape C ret (seq_of l) p q db dc cl dl -> from_case h l = Some r ->
  exists pc, cl h = Some pc /\ shape C ret (seq_of r) pc q db dc cl dl.
Proof.
  induction l as [|a l IH]; intros r p q db dc cl dl (* *) H E; [discriminate|]. cbn [seq_of shape] in H. destruct H as (m & H1 & H2).
  destruct a; cbn [from_case] in E; try (eapply IH; eauto; fail).
  destruct (Z.eqb_spec h0 h) as [->|N]; [|eapply IH; eauto]. injection E as <-. cbn [shape] in H1. destruct H1 as [-> H1]. eauto.
Qed.
Lemma shape_default l : forall r p q db dc cl dl, shape C ret (seq_of l) p q db dc cl dl -> from_default l = Some r ->
  exists pc, dl = Some pc /\ shape C ret (seq_of r) pc q db dc cl dl.
Proof.
  induction l as [|a l IH]; intros r p q db dc cl dl H E; [discriminate|]. cbn [seq_of shape] in H. destruct H as (m & H1 & H2).
  destruct a; cbn [from_default] in E; try (eapply IH; eauto; fail).
  injection E as <-. cbn [shape] in H1. destruct H1 as [-> H1]. eauto.
Qed.
End Parts.
Lemma from_case_app h l1 l2 : from_case h (l1 ++ l2) = None -> from_case h l1 = None /\ from_case h l2 = None.
Proof.
  induction l1 as [|a l1 IH]; cbn; [auto|]. destruct a; try exact IH. destruct (h0 =? h); [discriminate|exact IH].
Qed.
Lemma from_default_app l1 l2 : from_default (l1 ++ l2) = None -> from_default l1 = None /\ from_default l2 = None.
Proof. induction l1 as [|a l1 IH]; cbn; [auto|]. destruct a; try exact IH. discriminate. Qed.
Lemma no_case h s : from_case h (items s) = None -> ~ In h (labels s).
Proof.
  induction s; cbn [items labels]; intros E; try (intros []; fail).
  - apply from_case_app in E as [E1 E2]. intros H. apply in_app_or in H as [H|H]; [now apply IHs1|now apply IHs2].
  - cbn in E. intros [->|[]]. rewrite Z.eqb_refl in E. discriminate.
Qed.
Lemma no_default s : from_default (items s) = None -> has_default s = false.
Proof.
  induction s; cbn [items has_default]; intros E; auto.
  - apply from_default_app in E as [E1 E2]. now rewrite IHs1, IHs2.
  - discriminate.
Qed.
Lemma last_cons {A} (a : A) l d : l <> [] -> last (a :: l) d = last l d.
Proof. destruct l; [congruence|reflexivity]. Qed.
Lemma case_last h l r : jumps_away (last l Skip) = true -> from_case h l = Some r -> jumps_away (last r Skip) = true.
Proof.
  revert r. induction l as [|a l IH]; intros r J E; [discriminate|].
  destruct l as [|b l].
  - destruct a; try discriminate J; discriminate E.
  - rewrite last_cons in J by discriminate. destruct a; cbn [from_case] in E; try (apply IH; auto; fail).
    destruct (h0 =? h); [|now apply IH]. injection E as <-. exact J.
Qed.
Lemma default_last l r : jumps_away (last l Skip) = true -> from_default l = Some r -> jumps_away (last r Skip) = true.
Proof.
  revert r. induction l as [|a l IH]; intros r J E; [discriminate|].
  destruct l as [|b l].
  - destruct a; try discriminate J; discriminate E.
  - rewrite last_cons in J by discriminate. destruct a; cbn [from_default] in E; try (apply IH; auto; fail).
    injection E as <-. exact J.
Qed.

Section Sim.
Variable stp : vm -> res outcome.
Variable top_hash : nat -> mem -> res (Z * mem).
Variables (C : image) (ret : opcode).
Variables M V : Type.
Variable R : M -> vm -> Prop.
Variable RO : V -> outcome -> Prop.
Hypothesis JUMP : forall p t s a, jumps C p t -> vpc s = p -> R a s -> exists s1, stp s = Ok (Run s1) /\ vpc s1 = t /\ R a s1.
Hypothesis SELECT : forall e P p rt q s a h a1 (dst : Z -> Z), sel_means stp top_hash C M R e a h a1 -> pushes e P -> placed C p P e ->
  jumps C (p + lenZ P) rt -> switch_at C rt dst -> vpc s = p -> R a s -> q = dst h ->
  arrives stp M R s q a1.

Notation arrives := (arrives stp M R).
Notation means := (means stp top_hash C ret M V R RO).
Definition lands (o : oc V) (a1 : M) (s : vm) (q db dc : Z) : Prop :=
  match o with
  | ONormal => arrives s q a1
  | OBreak => arrives s db a1
  | OCont => arrives s dc a1
  | ORet v => delivers stp V RO s v
  end.
Lemma arrives_jump s p t a : jumps C p t -> vpc s = p -> R a s -> arrives s t a.
Proof.
  intros J E H. destruct (JUMP _ _ _ _ J E H) as (s1 & E1 & E2 & H1). exists s1. split; [|auto].
  eapply reaches_step; [exact E1|apply reaches_refl].
Qed.
Lemma lands_from o a1 s s1 q db dc : reaches stp s s1 -> lands o a1 s1 q db dc -> lands o a1 s q db dc.
Proof.
  intros X. destruct o as [| | |v]; cbn [lands]; unfold CtlSem.arrives, delivers.
  1-3: intros (s2 & Y & H); exists s2; (split; [exact (reaches_trans _ _ _ _ X Y)|exact H]).
  intros (s2 & o & Y & H). exists s2, o. split; [exact (reaches_trans _ _ _ _ X Y)|exact H].
Qed.
Lemma arrives_from s s1 q a : reaches stp s s1 -> arrives s1 q a -> arrives s q a.
Proof. intros X (s2 & Y & H). exists s2. split; [exact (reaches_trans _ _ _ _ X Y)|exact H]. Qed.
Lemma runs_at l : forall a a1, runs M (run_means stp C M R) l a a1 -> forall p q s, clauses_at C l p q -> vpc s = p -> R a s -> arrives s q a1.
Proof.
  intros a a1 H. induction H as [a|e l a a1 a2 HE _ IH]; intros p q s CA E HR; cbn [clauses_at] in CA.
  - subst q. exists s. split; [apply reaches_refl|auto].
  - destruct CA as (P & CL & PL & CA). destruct (HE P p s (or_intror CL) PL E HR) as (s1 & X & E1 & H1).
    eapply arrives_from; [exact X|]. eapply IH; eauto.
Qed.
Lemma normal_last l a a1 : jumps_away (last l Skip) = true -> means (seq_of l) a ONormal a1 -> False.
Proof.
  revert a. induction l as [|x l IH]; intros a J H; [discriminate|]. cbn [seq_of] in H. inversion H; subst; [|congruence].
  destruct l as [|y l].
  - cbn in J. destruct x; try discriminate J; match goal with K : CtlSpec.exec _ _ _ _ _ _ _ _ ONormal _ |- _ => inversion K; fail | _ => idtac end.
  - rewrite last_cons in J by discriminate. eapply IH; eauto.
Qed.

Lemma sim : forall s a o a1, means s a o a1 -> forall p q db dc cl dl st,
  shape C ret s p q db dc cl dl -> vpc st = p -> R a st -> lands o a1 st q db dc.
Proof.
  intros s a o a1 H. unfold CtlSem.means in H. induction H; intros pp q db dc cl dl st SH PC HR; cbn [shape] in SH.
  - (* skip *) subst q. exists st. split; [apply reaches_refl|auto].
  - (* case *) destruct SH as [-> _]. exists st. split; [apply reaches_refl|auto].
  - (* default *) destruct SH as [-> _]. exists st. split; [apply reaches_refl|auto].
  - (* seq *) destruct SH as (x & S1 & S2). destruct (IHexec1 _ _ _ _ _ _ _ S1 PC HR) as (s1 & X & E1 & R1).
    eapply lands_from; [exact X|]. eapply IHexec2; eauto.
  - destruct SH as (x & S1 & S2). pose proof (IHexec _ _ _ _ _ _ _ S1 PC HR) as L. destruct o; [congruence|exact L|exact L|exact L].
  - (* braces *) eauto.
  - (* exp *) destruct SH as (P & PP & PL & ->). destruct (H P pp st (or_introl PP) PL PC HR) as (s1 & X & E1 & R1). exists s1. auto.
  - (* if *) destruct SH as (x & SC & S1). destruct (H _ _ _ _ SC PC HR) as (s1 & X & E1 & R1). eapply lands_from; [exact X|]. eauto.
  - destruct SH as (x & SC & S1). destruct (H _ _ _ _ SC PC HR) as (s1 & X & E1 & R1). exists s1. auto.
  - (* if else *) destruct SH as (x & y & SC & S1 & J & S2). destruct (H _ _ _ _ SC PC HR) as (s1 & X & E1 & R1).
    eapply lands_from; [exact X|]. pose proof (IHexec _ _ _ _ _ _ _ S1 E1 R1) as L. destruct o; try exact L.
    cbn [lands] in *. destruct L as (s2 & Y & E2 & R2). eapply arrives_from; [exact Y|]. eapply arrives_jump; eauto.
  - destruct SH as (x & y & SC & S1 & J & S2). destruct (H _ _ _ _ SC PC HR) as (s1 & X & E1 & R1).
    eapply lands_from; [exact X|]. eauto.
  - (* while *) destruct SH as (x & y & SC & S1 & J). destruct (H _ _ _ _ SC PC HR) as (s1 & X & E1 & R1). exists s1. auto.
  - pose proof SH as (x & y & SC & S1 & J). destruct (H _ _ _ _ SC PC HR) as (s1 & X & E1 & R1).
    eapply lands_from; [exact X|]. pose proof (IHexec1 _ _ _ _ _ _ _ S1 E1 R1) as L.
    assert (LL : exists s2, reaches stp s1 s2 /\ vpc s2 = pp /\ R m2 s2).
    { destruct H1 as [-> | ->]; cbn [lands] in L; [|exact L]. destruct L as (s2 & Y & E2 & R2).
      apply (arrives_from _ _ _ _ Y). eapply arrives_jump; eauto. }
    destruct LL as (s2 & Y & E2 & R2). eapply lands_from; [exact Y|]. eapply IHexec2; eauto.
  - destruct SH as (x & y & SC & S1 & J). destruct (H _ _ _ _ SC PC HR) as (s1 & X & E1 & R1).
    eapply lands_from; [exact X|]. exact (IHexec _ _ _ _ _ _ _ S1 E1 R1).
  - destruct SH as (x & y & SC & S1 & J). destruct (H _ _ _ _ SC PC HR) as (s1 & X & E1 & R1).
    eapply lands_from; [exact X|]. exact (IHexec _ _ _ _ _ _ _ S1 E1 R1).
  - (* do *) destruct SH as (x & y & S1 & SC & J). pose proof (IHexec _ _ _ _ _ _ _ S1 PC HR) as L.
    assert (LL : exists s2, reaches stp st s2 /\ vpc s2 = x /\ R m1 s2) by (destruct H0 as [-> | ->]; exact L).
    destruct LL as (s2 & Y & E2 & R2). eapply lands_from; [exact Y|]. destruct (H1 _ _ _ _ SC E2 R2) as (s1 & X & E1 & R1). exists s1. auto.
  - pose proof SH as (x & y & S1 & SC & J). pose proof (IHexec1 _ _ _ _ _ _ _ S1 PC HR) as L.
    assert (LL : exists s2, reaches stp st s2 /\ vpc s2 = x /\ R m1 s2) by (destruct H0 as [-> | ->]; exact L).
    destruct LL as (s2 & Y & E2 & R2). eapply lands_from; [exact Y|]. destruct (H1 _ _ _ _ SC E2 R2) as (s1 & X & E1 & R1).
    eapply lands_from; [exact X|]. destruct (arrives_jump _ _ _ _ J E1 R1) as (s3 & X3 & E3 & R3).
    eapply lands_from; [exact X3|]. eapply IHexec2; eauto.
  - destruct SH as (x & y & S1 & SC & J). exact (IHexec _ _ _ _ _ _ _ S1 PC HR).
  - destruct SH as (x & y & S1 & SC & J). exact (IHexec _ _ _ _ _ _ _ S1 PC HR).
  - (* for *) destruct SH as (h & x & y & z & (P & CL & PL & CA) & REST).
    destruct (H P pp st (or_intror CL) PL PC HR) as (s1 & X & E1 & R1). eapply lands_from; [exact X|].
    eapply IHexec; [|exact E1|exact R1]. cbn [shape]. exists h, x, y, z. split; [exact CA|exact REST].
  - destruct SH as (h & x & y & z & CA & SC & S1 & CP & J). cbn [clauses_at] in CA. subst h.
    destruct (H _ _ _ _ SC PC HR) as (s1 & X & E1 & R1). exists s1. auto.
  - pose proof SH as (h & x & y & z & CA & SC & S1 & CP & J). cbn [clauses_at] in CA. subst h.
    assert (LC : exists s1, reaches stp st s1 /\ vpc s1 = x /\ R m1 s1).
    { destruct c as [c|]; [exact (H _ _ _ _ SC PC HR)|]. subst x m1. exists st. split; [apply reaches_refl|auto]. }
    destruct LC as (s1 & X & E1 & R1). eapply lands_from; [exact X|]. pose proof (IHexec1 _ _ _ _ _ _ _ S1 E1 R1) as L.
    assert (LL : exists s2, reaches stp s1 s2 /\ vpc s2 = y /\ R m2 s2) by (destruct H1 as [-> | ->]; exact L).
    destruct LL as (s2 & Y & E2 & R2). eapply lands_from; [exact Y|].
    destruct (runs_at _ _ _ H2 _ _ _ CP E2 R2) as (s3 & X3 & E3 & R3). eapply lands_from; [exact X3|].
    destruct (arrives_jump _ _ _ _ J E3 R3) as (s4 & X4 & E4 & R4). eapply lands_from; [exact X4|]. eapply IHexec2; eauto.
  - destruct SH as (h & x & y & z & CA & SC & S1 & CP & J). cbn [clauses_at] in CA. subst h.
    assert (LC : exists s1, reaches stp st s1 /\ vpc s1 = x /\ R m1 s1).
    { destruct c as [c|]; [exact (H _ _ _ _ SC PC HR)|]. subst x m1. exists st. split; [apply reaches_refl|auto]. }
    destruct LC as (s1 & X & E1 & R1). eapply lands_from; [exact X|]. exact (IHexec _ _ _ _ _ _ _ S1 E1 R1).
  - destruct SH as (h & x & y & z & CA & SC & S1 & CP & J). cbn [clauses_at] in CA. subst h.
    assert (LC : exists s1, reaches stp st s1 /\ vpc s1 = x /\ R m1 s1).
    { destruct c as [c|]; [exact (H _ _ _ _ SC PC HR)|]. subst x m1. exists st. split; [apply reaches_refl|auto]. }
    destruct LC as (s1 & X & E1 & R1). eapply lands_from; [exact X|]. exact (IHexec _ _ _ _ _ _ _ S1 E1 R1).
  - (* break *) eapply arrives_jump; eauto.
  - eapply arrives_jump; eauto.
  - (* return *) destruct SH as (P & RT & PL). exact (H P pp st RT PL PC HR).
  - (* switch *) destruct SH as (P & x & rt & cl' & dl' & PU & PL & JR & S1 & END & NC & ND & SW).
    pose proof (shape_items _ _ _ _ _ _ _ _ _ S1) as SI.
    assert (GO : forall pc, dest cl' dl' q h = pc -> arrives st pc m1) by (intros pc <-; eapply SELECT; eauto).
    assert (CASES : (seq_of (selected h s) = Skip /\ dest cl' dl' q h = q) \/
                    (exists pc, dest cl' dl' q h = pc /\ shape C ret (seq_of (selected h s)) pc x q dc cl' dl' /\
                       (jumps C x q \/ jumps_away (last (selected h s) Skip) = true))).
    { unfold selected, dest. destruct (from_case h (items s)) as [r|] eqn:FC.
      - destruct (shape_case _ _ _ _ _ _ _ _ _ _ _ SI FC) as (pc & -> & S2). right. exists pc. split; [reflexivity|]. split; [exact S2|].
        destruct END as [J|J]; [left; exact J|right]. eapply case_last; eauto.
      - rewrite (NC h (no_case _ _ FC)). destruct (from_default (items s)) as [r|] eqn:FD.
        + destruct (shape_default _ _ _ _ _ _ _ _ _ _ SI FD) as (pc & -> & S2). right. exists pc. split; [reflexivity|]. split; [exact S2|].
          destruct END as [J|J]; [left; exact J|right]. eapply default_last; eauto.
        + rewrite (ND (no_default _ FD)). left. auto. }
    destruct CASES as [[SK DQ]|(pc & DP & S2 & E2)].
    + rewrite SK in H0. inversion H0; subst. cbn [lands]. apply GO. exact DQ.
    + destruct (GO _ DP) as (s1 & X & E1 & R1). eapply lands_from; [exact X|]. pose proof (IHexec _ _ _ _ _ _ _ S2 E1 R1) as L.
      destruct H1 as [-> | ->]; cbn [lands] in *; [|exact L]. destruct L as (s2 & Y & E3 & R3). destruct E2 as [J|J].
      * eapply arrives_from; [exact Y|]. eapply arrives_jump; eauto.
      * destruct (normal_last _ _ _ J H0).
  - destruct SH as (P & x & rt & cl' & dl' & PU & PL & JR & S1 & END & NC & ND & SW).
    pose proof (shape_items _ _ _ _ _ _ _ _ _ S1) as SI.
    assert (GO : forall pc, dest cl' dl' q h = pc -> arrives st pc m1) by (intros pc <-; eapply SELECT; eauto).
    assert (CASES : seq_of (selected h s) = Skip \/
                    (exists pc, dest cl' dl' q h = pc /\ shape C ret (seq_of (selected h s)) pc x q dc cl' dl')).
    { unfold selected, dest. destruct (from_case h (items s)) as [r|] eqn:FC.
      - destruct (shape_case _ _ _ _ _ _ _ _ _ _ _ SI FC) as (pc & -> & S2). right. exists pc. auto.
      - rewrite (NC h (no_case _ _ FC)). destruct (from_default (items s)) as [r|] eqn:FD.
        + destruct (shape_default _ _ _ _ _ _ _ _ _ _ SI FD) as (pc & -> & S2). right. exists pc. auto.
        + left. auto. }
    destruct CASES as [SK|(pc & DP & S2)].
    + rewrite SK in H0. inversion H0; subst. destruct H1 as [H1|(z & H1)]; discriminate H1.
    + destruct (GO _ DP) as (s1 & X & E1 & R1). eapply lands_from; [exact X|]. pose proof (IHexec _ _ _ _ _ _ _ S2 E1 R1) as L.
      destruct H1 as [-> | (z & ->)]; cbn [lands] in *; exact L.
Qed.
End Sim.
