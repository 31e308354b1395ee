(* Lemmas about the interpreter's calls and stack. *)
From Verif Require Import Base OpsModel VmModel VmSpec OpsLocal.

Lemma zeros_spec : forall n m p,
  (forall l, mv (zeros m p n) l = match l with LStack k => if (p <=? k)%nat && (k <? p + n)%nat then VInt 0 else mv m l | _ => mv m l end)
  /\ mo (zeros m p n) = mo m /\ mraw (zeros m p n) = mraw m /\ mnext (zeros m p n) = mnext m.
Proof.
  induction n; intros m p; cbn [zeros].
  - repeat split. intros l. destruct l; auto.
    destruct (p <=? n)%nat eqn:A, (n <? p + 0)%nat eqn:B; auto. apply Nat.leb_le in A. apply Nat.ltb_lt in B. lia.
  - destruct (IHn (wr m (LStack p) (VInt 0)) (S p)) as [A [B [C D]]]. repeat split; auto.
    intros l. rewrite A. destruct l; try reflexivity.
    + destruct (Nat.eq_dec n0 p).
      * subst. rewrite wr_eq.
        destruct (S p <=? p)%nat eqn:X; [apply Nat.leb_le in X; lia|]. cbn [andb].
        rewrite Nat.leb_refl. destruct (p <? p + S n)%nat eqn:Y; auto. apply Nat.ltb_ge in Y. lia.
      * rewrite wr_ne by congruence.
        assert (((S p <=? n0)%nat && (n0 <? S p + n)%nat) = ((p <=? n0)%nat && (n0 <? p + S n)%nat)) as ->; auto.
        apply Bool.eq_iff_eq_true. rewrite !andb_true_iff, !Nat.leb_le, !Nat.ltb_lt. lia.
Qed.

(* the first local keeps the payload found on the stack, the others are 0 *)
Lemma locals_init_spec pbits : forall n m p,
  (forall l, (match l with LStack k => (k < p \/ p + n < k)%nat | _ => True end) -> mv (locals_init pbits m p n) l = mv m l)
  /\ (forall i, (i < n)%nat -> mv (locals_init pbits m p n) (LStack (p + i)) = VInt (if (i =? 0)%nat then u32 (rdi pbits m (LStack p)) else 0))
  /\ mo (locals_init pbits m p n) = mo m /\ mraw (locals_init pbits m p n) = mraw m /\ mnext (locals_init pbits m p n) = mnext m.
Proof.
  unfold locals_init. induction n; intros m p.
  - split; [auto|]. split; [intros; lia|auto].
  - cbv beta zeta. set (v1 := VInt (u32 (rdi pbits m (LStack p)))).
    set (m1 := wr m (LStack p) v1).
    set (v2 := match mv m1 (LStack (S p)) with VFlt _ => VFlt 0 | _ => VInt 0 end).
    specialize (IHn (wr m1 (LStack (S p)) v2) (S p)). destruct IHn as [A [B [C [D E]]]].
    split; [|split; [|auto]].
    + intros l L. rewrite A.
      * rewrite wr_ne by (intros ->; lia). unfold m1. apply wr_ne. intros ->; lia.
      * destruct l; auto. lia.
    + intros i Hi. destruct i as [|i].
      * rewrite Nat.add_0_r. rewrite A by lia. rewrite wr_ne by (intros K; inversion K; lia). unfold m1. rewrite wr_eq. reflexivity.
      * replace (p + S i)%nat with (S p + i)%nat by lia.
        rewrite B by lia. replace (S i =? 0)%nat with false by reflexivity. f_equal.
        destruct (i =? 0)%nat; auto. unfold rdi. rewrite wr_eq. unfold v2. destruct (mv m1 (LStack (S p))); reflexivity.
Qed.

Lemma deref_frame pbits : forall fuel l m d m1, deref pbits fuel l m = Ok (d, m1) ->
  (forall x, x <> LTemp2 -> mv m1 x = mv m x) /\ mo m1 = mo m /\ mraw m1 = mraw m /\ mnext m1 = mnext m.
Proof.
  induction fuel; intros l m d m1 E; cbn [deref] in E; [discriminate|].
  destruct (mv m l) eqn:V; try (inversion E; subst; auto; fail).
  - eauto.
  - cbv zeta in E. destruct (mv (wr m LTemp2 _) l0); try discriminate.
    + destruct (mo m id) as [[n|bs nc|n|]|]; try discriminate.
      * destruct (s <? n)%nat; inversion E; subst; (split; [intros; now rewrite wr_ne|auto]).
      * destruct (nth_error bs s); inversion E; subst; (split; [intros; now rewrite !wr_ne|auto]).
    + inversion E; subst. split; [intros; now rewrite !wr_ne|auto].
  - cbv zeta in E. destruct (mo m id) as [[n|bs nc|n|]|]; try discriminate.
    destruct (s <? n)%nat; [|discriminate].
    destruct (IHfuel _ _ _ _ E) as [A [B [C D]]].
    split; [intros; rewrite A by auto; now rewrite wr_ne|auto].
Qed.
