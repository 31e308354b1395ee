(* Proofs about expressions, first part: the order in which the operators are resolved. *)
From Verif Require Import Base HashModel OpsModel VmModel EmitModel ExprModel.
Open Scope list_scope. Open Scope Z_scope.

Section Red.
Context {leaf : Type}.

Inductive itree := A (l : leaf) | U (q : oper) (x : list leaf) (t : itree) | B (q : oper) (l r : itree).
Definition key (q : oper) : Z := 2 * o_prec q + (if o_l2r q then 0 else 1).
Definition lvl (t : itree) : Z := match t with A _ => -1 | U q _ _ => key q | B q _ _ => key q end.
Fixpoint good (t : itree) : Prop :=
  match t with
  | A _ => True
  | U q _ t => good t /\ 0 <= key q <= 33 /\
      match o_type q with
      | Pre => lvl t < key q
      | Post => lvl t <= key q /\ o_l2r q = true
      | _ => False
      end
  | B q l r => good l /\ good r /\ 0 <= key q <= 33 /\ binary_type (o_type q) = true /\
      (if o_l2r q then lvl l <= key q /\ lvl r < key q else lvl l < key q /\ lvl r <= key q) /\
      (o_code q = O_HASH_PLACEHOLDER -> exists x, r = A x)
  end.

Inductive it := T (t : itree) | O (q : oper) (x : list leaf).
(* a partly resolved tree: what binds tighter than L is resolved, what is looser is not *)
Inductive part (L : Z) : itree -> list it -> Prop :=
| P_done : forall t, lvl t <= L -> part L t [T t]
| P_pre : forall q x t a, o_type q = Pre -> L <= key q -> part L t a -> part L (U q x t) (O q x :: a)
| P_post : forall q x t a, o_type q = Post -> L <= key q -> part L t a -> part L (U q x t) (a ++ [O q x])
| P_bin : forall q l r a b, L <= key q -> part L l a -> part L r b -> part L (B q l r) (a ++ O q [] :: b).

Definition opf (f : Z -> Prop) (i : it) : Prop := match i with O q _ => f (key q) | T _ => True end.
Definition above (L : Z) : list it -> Prop := Forall (opf (fun k => L < k)).
Definition from (L : Z) : list it -> Prop := Forall (opf (fun k => L <= k)).

Lemma above_from : forall L l, above L l -> from (L + 1) l.
Proof. intros L l; apply Forall_impl; intros [t|q x]; cbn; lia. Qed.
Lemma part_root : forall L t a, part L t a -> a = [T t] \/ exists q x u v, a = u ++ O q x :: v /\ key q = lvl t.
Proof.
  intros L t a H; destruct H.
  - now left.
  - right; exists q, x, [], a; split; reflexivity.
  - right; exists q, x, a, []; split; reflexivity.
  - right; exists q, [], a, b; split; reflexivity.
Qed.
Lemma part_single : forall L M t a, part L t a -> above M a -> lvl t <= M -> a = [T t].
Proof.
  intros L M t a H Ha Hl; destruct (part_root L t a H) as [ -> | (q & x & u & v & -> & E)]; [reflexivity|].
  unfold above in Ha; rewrite Forall_app in Ha; destruct Ha as [_ Ha]; inversion Ha; subst; cbn in H2; lia.
Qed.
Lemma from_above : forall L l, from L l -> above (L - 1) l.
Proof. intros L l; apply Forall_impl; intros [t|q x]; cbn; lia. Qed.
Lemma part_up : forall L t a, part L t a -> above L a -> part (L + 1) t a.
Proof.
  intros L t a H; induction H; intro Ha.
  - apply P_done; lia.
  - inversion Ha; subst; cbn in *; apply P_pre; auto; lia.
  - unfold above in Ha; rewrite Forall_app in Ha; destruct Ha as [Ha Hb]; inversion Hb; subst; cbn in *; apply P_post; auto; lia.
  - unfold above in Ha; rewrite Forall_app in Ha; destruct Ha as [Ha Hb]; inversion Hb; subst; cbn in *; apply P_bin; auto; lia.
Qed.
Lemma split_app : forall {X} (a b u v : list X) y, a ++ b = u ++ y :: v ->
  (exists v', a = u ++ y :: v' /\ v = v' ++ b) \/ (exists u', u = a ++ u' /\ b = u' ++ y :: v).
Proof.
  intros X a; induction a as [|z a IH]; intros b u v y E.
  - right; exists u; split; [reflexivity | exact E].
  - destruct u as [|w u]; cbn in E; injection E as <- E.
    + left; exists a; split; [reflexivity | symmetry; exact E].
    + destruct (IH _ _ _ _ E) as [(v' & -> & ->) | (u' & -> & ->)]; [left; exists v' | right; exists u']; split; reflexivity.
Qed.

Definition reduct (L : Z) (t : itree) (q : oper) (x : list leaf) (u v : list it) : Prop :=
  match o_type q with
  | Pre => exists a v', v = T a :: v' /\ part L t (u ++ T (U q x a) :: v') /\ good (U q x a)
  | Post => exists a u', u = u' ++ [T a] /\ part L t (u' ++ T (U q x a) :: v) /\ good (U q x a)
  | _ => exists a b u' v', u = u' ++ [T a] /\ v = T b :: v' /\ part L t (u' ++ T (B q a b) :: v') /\ good (B q a b) /\ x = []
  end.

Lemma reduct_app : forall L t t' q x u v u0 v0,
  reduct L t q x u v -> (forall l, part L t l -> part L t' (u0 ++ l ++ v0)) -> reduct L t' q x (u0 ++ u) (v ++ v0).
Proof.
  intros L t t' q x u v u0 v0 H F; unfold reduct in *; destruct (o_type q).
  - destruct H as (a & v' & -> & P & G); exists a, (v' ++ v0); split; [reflexivity|]; split; [|exact G].
    specialize (F _ P); rewrite <- app_assoc in F; rewrite <- app_assoc; exact F.
  - destruct H as (a & b & u' & v' & -> & -> & P & G & E); exists a, b, (u0 ++ u'), (v' ++ v0).
    split; [rewrite app_assoc; reflexivity|]; split; [reflexivity|]; split; [|split; [exact G|exact E]].
    specialize (F _ P); rewrite <- app_assoc in F; rewrite <- app_assoc; exact F.
  - destruct H as (a & b & u' & v' & -> & -> & P & G & E); exists a, b, (u0 ++ u'), (v' ++ v0).
    split; [rewrite app_assoc; reflexivity|]; split; [reflexivity|]; split; [|split; [exact G|exact E]].
    specialize (F _ P); rewrite <- app_assoc in F; rewrite <- app_assoc; exact F.
  - destruct H as (a & u' & -> & P & G); exists a, (u0 ++ u'); split; [rewrite app_assoc; reflexivity|]; split; [|exact G].
    specialize (F _ P); rewrite <- app_assoc in F; rewrite <- app_assoc; exact F.
Qed.

Lemma part_step : forall L t its, part L t its -> good t -> from L its -> forall q x u v,
  its = u ++ O q x :: v -> key q = L -> (o_l2r q = true -> above L u) -> (o_l2r q = false -> above L v) ->
  reduct L t q x u v.
Proof.
  intros L t its H; induction H as [t Hl | q0 x0 t a Ht HL P IH | q0 x0 t a Ht HL P IH | q0 l r a b HL P IH P2 IH2];
    intros G F q x u v E K Au Av.
  - destruct u as [|? [|]]; discriminate.
  - destruct u as [|y u]; cbn in E; injection E.
    + intros -> -> ->; unfold reduct; rewrite Ht. destruct G as (G & Hk & G2); rewrite Ht in G2.
      inversion F; subst.
      assert (v = [T t]) as -> by (apply (part_single (key q) (key q - 1) t v P); [apply from_above; assumption | lia]).
      exists t, []; split; [reflexivity|]; split; [apply P_done; cbn; lia|].
      cbn; rewrite Ht; auto.
    + intros -> <-. destruct G as (G & Hk & G2). inversion F; subst.
      pose proof (IH G H2 q x u v eq_refl eq_refl) as R.
      assert (above (key q) u /\ o_l2r q = true \/ o_l2r q = false) as HH.
      { destruct (o_l2r q); [left; split; [|reflexivity]; specialize (Au eq_refl); inversion Au; assumption | right; reflexivity]. }
      assert (reduct (key q) t q x u v) as R' by (apply R; [intro E2; destruct HH as [[? ?]|]; [assumption|congruence] | exact Av]).
      pose proof (reduct_app _ _ (U q0 x0 t) _ _ _ _ [O q0 x0] [] R') as R2; rewrite app_nil_r in R2; apply R2.
      intros l Pl; rewrite app_nil_r; apply P_pre; assumption.
  - destruct G as (G & Hk & G2); rewrite Ht in G2.
    unfold from in F; rewrite Forall_app in F; destruct F as [Fa Fb].
    destruct (split_app _ _ _ _ _ E) as [(v' & -> & ->) | (u' & -> & E2)].
    + assert (reduct L t q x u v') as R.
      { apply (IH G Fa q x u v' eq_refl K Au). intro E2; specialize (Av E2); unfold above in Av; rewrite Forall_app in Av; tauto. }
      apply (reduct_app _ _ (U q0 x0 t) _ _ _ _ [] [O q0 x0] R). intros l Pl; apply P_post; assumption.
    + destruct u' as [|y u']; cbn in E2; [|destruct u'; discriminate]. injection E2 as -> -> <-.
      rewrite app_nil_r in *. unfold reduct; rewrite Ht.
      assert (a = [T t]) as -> by (apply (part_single L L t a P); [apply Au; tauto | lia]).
      exists t, []; split; [reflexivity|]; split; [apply P_done; cbn; lia|]. cbn; rewrite Ht; auto.
  - pose proof G as GG. destruct G as (Gl & Gr & Hk & Hb & G3 & Hh).
    unfold from in F; rewrite Forall_app in F; destruct F as [Fa Fb]; inversion Fb as [|? ? Fq Fb']; subst; cbn in Fq.
    destruct (split_app _ _ _ _ _ E) as [(v' & -> & ->) | (u' & -> & E2)].
    + assert (reduct (key q) l q x u v') as R.
      { apply (IH Gl Fa q x u v' eq_refl eq_refl Au). intro E2; specialize (Av E2); unfold above in Av; rewrite Forall_app in Av; tauto. }
      apply (reduct_app _ _ (B q0 l r) _ _ _ _ [] (O q0 [] :: b) R). intros z Pz; apply P_bin; assumption.
    + destruct u' as [|y u']; cbn in E2; injection E2.
      * intros -> <- ->. rewrite app_nil_r in *.
        assert (Ha : a = [T l]).
        { destruct (o_l2r q); [apply (part_single (key q) (key q) l a P); [apply Au; reflexivity | lia]
          | apply (part_single (key q) (key q - 1) l a P); [apply from_above; assumption | lia]]. }
        assert (Hv : v = [T r]).
        { destruct (o_l2r q); [apply (part_single (key q) (key q - 1) r v P2); [apply from_above; assumption | lia]
          | apply (part_single (key q) (key q) r v P2); [apply Av; reflexivity | lia]]. }
        subst a v. unfold reduct.
        assert (exists a b u' v', [T l] = u' ++ [T a] /\ [T r] = T b :: v' /\ part (key q) (B q l r) (u' ++ T (B q a b) :: v') /\ good (B q a b) /\ (@nil leaf) = []).
        { exists l, r, [], []; split; [reflexivity|]; split; [reflexivity|]; split; [apply P_done; cbn; lia|]; split; [exact GG|reflexivity]. }
        destruct (o_type q); try discriminate Hb; assumption.
      * intros -> <-.
        assert (reduct (key q) r q x u' v) as R.
        { apply (IH2 Gr Fb' q x u' v eq_refl eq_refl); [|exact Av].
          intro E3; specialize (Au E3); unfold above in Au; rewrite Forall_app in Au; destruct Au as [_ Au]; inversion Au; assumption. }
        pose proof (reduct_app _ _ (B q0 l r) _ _ _ _ (a ++ [O q0 []]) [] R) as R2. rewrite app_nil_r, <- app_assoc in R2; apply R2.
        intros z Pz; rewrite app_nil_r, <- app_assoc; apply P_bin; assumption.
Qed.

(* every infix operator has an operand that is not an operation *)
Definition isA (t : itree) : Prop := match t with A _ => True | _ => False end.
Fixpoint isimple (t : itree) : Prop :=
  match t with A _ => True | U _ _ t => isimple t | B _ l r => (isA l \/ isA r) /\ isimple l /\ isimple r end.
Lemma part_simple : forall L t its, part L t its -> isimple t -> Forall (fun i => match i with T x => isimple x | O _ _ => True end) its.
Proof.
  intros L t its H; induction H; intro S.
  - constructor; [exact S | constructor].
  - constructor; [exact I | apply IHpart; exact S].
  - apply Forall_app; split; [apply IHpart; exact S | constructor; [exact I | constructor]].
  - destruct S as (_ & Sl & Sr). apply Forall_app; split; [apply IHpart1; exact Sl | constructor; [exact I | apply IHpart2; exact Sr]].
Qed.
Lemma part_mid : forall L t u q a b v, part L t (u ++ T (B q a b) :: v) -> isimple t -> isA a \/ isA b.
Proof.
  intros L t u q a b v P S. pose proof (part_simple _ _ _ P S) as F. rewrite Forall_app in F; destruct F as [_ F]; inversion F; subst.
  destruct H1 as [H1 _]; exact H1.
Qed.

(* the whole text, nothing resolved *)
Fixpoint flat (t : itree) : list it :=
  match t with
  | A l => [T (A l)]
  | U q x t => match o_type q with Pre => O q x :: flat t | _ => flat t ++ [O q x] end
  | B q l r => flat l ++ O q [] :: flat r
  end.
Lemma flat_part : forall t, good t -> part 0 t (flat t) /\ from 0 (flat t).
Proof.
  induction t as [l | q x t IH | q l IHl r IHr]; intro G.
  - split; [apply P_done; cbn; lia | repeat constructor].
  - destruct G as (G & K & H); destruct (IH G) as [P F]; cbn [flat].
    destruct (o_type q) eqn:E; try contradiction.
    + split; [apply P_pre; auto; lia | constructor; [cbn; lia | exact F]].
    + split; [apply P_post; auto; lia | apply Forall_app; split; [exact F | repeat constructor; cbn; lia]].
  - destruct G as (Gl & Gr & K & _); destruct (IHl Gl) as [Pl Fl]; destruct (IHr Gr) as [Pr Fr]; cbn [flat].
    split; [apply P_bin; auto; lia | apply Forall_app; split; [exact Fl | constructor; [cbn; lia | exact Fr]]].
Qed.
Lemma part_end : forall L t a, part L t a -> good t -> 33 <= L -> above L a -> a = [T t].
Proof.
  intros L t a P G HL Ha; apply (part_single L L t a P Ha).
  destruct t; cbn in *; lia.
Qed.
End Red.
Arguments itree : clear implicits. Arguments it : clear implicits.
