From Verif Require Import Base SchedModel SchedSpec.

Section P.
Variables W S Prog : Type.
Variable resume : Z -> W -> S -> W * list (act Prog) * outcome S.
Variable start : Z -> W -> Prog -> W * outcome S.
Notation task := (task S). Notation sched := (sched W S).
Notation ids := (map (tk_id S)).

Lemma after_app d (t : task) r : ~ In (tk_id S t) (ids d) -> after S (tk_id S t) (d ++ t :: r) = Some r.
Proof.
  induction d as [|x d IH]; intros N; cbn [app after].
  - now rewrite Z.eqb_refl.
  - cbn in N. rewrite (proj2 (Z.eqb_neq _ _)) by tauto. apply IH. tauto.
Qed.
Lemma upto_app d (t : task) r : ~ In (tk_id S t) (ids d) -> upto S (tk_id S t) (d ++ t :: r) = d ++ [t].
Proof.
  induction d as [|x d IH]; intros N; cbn [app upto].
  - now rewrite Z.eqb_refl.
  - cbn in N. rewrite (proj2 (Z.eqb_neq _ _)) by tauto. f_equal. apply IH. tauto.
Qed.
Lemma set_st_none id st (l : list task) : ~ In id (ids l) -> set_st S id st l = l.
Proof.
  intros N. unfold set_st. induction l as [|x l IH]; [reflexivity|]. cbn in *. rewrite (proj2 (Z.eqb_neq _ _)) by tauto. f_equal. apply IH. tauto.
Qed.
Lemma set_st_app d (t : task) r st : ~ In (tk_id S t) (ids d) -> ~ In (tk_id S t) (ids r) ->
  set_st S (tk_id S t) st (d ++ t :: r) = d ++ mkTask S (tk_id S t) st :: r.
Proof.
  intros A B. unfold set_st. rewrite map_app. fold (set_st S (tk_id S t) st d). rewrite set_st_none by auto. cbn [map].
  rewrite Z.eqb_refl. fold (set_st S (tk_id S t) st r). now rewrite set_st_none.
Qed.
(* the link that follows the tasks d *)
Definition link_of (d : list task) : lnk := match rev d with [] => LHead | t :: _ => LNext (tk_id S t) end.
Lemma link_of_snoc d t : link_of (d ++ [t]) = LNext (tk_id S t).
Proof. unfold link_of. now rewrite rev_app_distr. Qed.
Lemma rest_of d r : NoDup (ids (d ++ r)) -> rest S (link_of d) (d ++ r) = Some r.
Proof.
  intros N. destruct d as [|x d'] using rev_ind; [reflexivity|]. clear IHd'. rewrite link_of_snoc. cbn [rest]. rewrite <- app_assoc. cbn [app]. apply after_app.
  rewrite <- app_assoc in N. cbn [app] in N. rewrite map_app in N. cbn in N. apply NoDup_remove_2 in N. intros I. apply N. apply in_or_app. auto.
Qed.
Lemma set_link_of d r r' : NoDup (ids (d ++ r)) -> set_link S (link_of d) r' (d ++ r) = Some (d ++ r').
Proof.
  intros N. destruct d as [|x d'] using rev_ind; [reflexivity|]. clear IHd'. rewrite link_of_snoc. cbn [set_link]. rewrite <- app_assoc in *. cbn [app] in *.
  assert (M: ~ In (tk_id S x) (ids d')).
  { rewrite map_app in N. cbn in N. apply NoDup_remove_2 in N. intros I. apply N. apply in_or_app. auto. }
  rewrite after_app by exact M. rewrite upto_app by exact M. now rewrite <- app_assoc.
Qed.

Lemma tick_loop_ok n (Q : quiet W S Prog resume) : forall r d w e eid k,
  NoDup (ids (d ++ r)) ->
  forall f, (length r < f)%nat ->
  tick_loop W S Prog resume start f n (link_of d) (mkSched W S w (d ++ r) e eid k) =
  let '(w', keep, errs) := round W S Prog resume n w r in
  TOk W S (mkSched W S w' (d ++ keep) (fst (latest errs (e, eid))) (snd (latest errs (e, eid))) k).
Proof.
  induction r as [|t r IH]; intros d w e eid k N f F.
  - destruct f as [|f]; [cbn in F; lia|]. cbn [tick_loop s_tasks]. rewrite rest_of by exact N. cbn [round]. rewrite app_nil_r in *. reflexivity.
  - destruct f as [|f]; [cbn in F; lia|]. cbn [length] in F. cbn [tick_loop s_tasks]. rewrite rest_of by exact N.
    assert (N1: ~ In (tk_id S t) (ids d) /\ ~ In (tk_id S t) (ids r)).
    { rewrite map_app in N. cbn in N. apply NoDup_remove_2 in N. split; intros I; apply N; apply in_or_app; auto. }
    destruct N1 as [N1 N2].
    assert (N3: NoDup (ids (d ++ r))) by (rewrite map_app in *; cbn in N; now apply NoDup_remove_1 in N).
    cbn [round]. destruct (tk_st S t) as [st|] eqn:ST.
    + cbn [s_w]. pose proof (Q n w st) as QA. destruct (resume n w st) as [[w1 acts] o] eqn:R. cbn in QA. subst acts.
      cbn [s_err s_errId s_ids]. rewrite set_st_app by auto. cbn [run_acts s_tasks].
      change (tk_id S t) with (tk_id S (mkTask S (tk_id S t) None)) at 1. rewrite after_app by exact N1.
      destruct o as [st'|er].
      * cbn [s_w s_tasks s_err s_errId s_ids tk_id].
        change (tk_id S t) with (tk_id S (mkTask S (tk_id S t) None)) at 2 3. rewrite set_st_app by auto. cbn [tk_id].
        change (LNext (tk_id S t)) with (LNext (tk_id S (mkTask S (tk_id S t) (Some st')))). rewrite <- link_of_snoc with (d := d).
        replace (d ++ mkTask S (tk_id S t) (Some st') :: r) with ((d ++ [mkTask S (tk_id S t) (Some st')]) ++ r) by now rewrite <- app_assoc.
        rewrite IH; [|rewrite <- app_assoc; cbn [app]; rewrite map_app in *; exact N|lia].
        destruct (round W S Prog resume n w1 r) as [[w2 keep] errs]. now rewrite <- app_assoc.
      * cbn [s_w s_tasks s_err s_errId s_ids]. rewrite set_link_of by (rewrite map_app in *; exact N).
        rewrite IH; [|exact N3|lia]. destruct (round W S Prog resume n w1 r) as [[w2 keep] errs].
        unfold latest. destruct (er =? 0); [reflexivity|]. destruct errs as [|a errs]; [reflexivity|].
        assert (L: forall b c : Z * Z, last (a :: errs) b = last (a :: errs) c) by (intros; revert a; induction errs as [|x l IHl]; intros a; [reflexivity|apply (IHl x)]).
        change (last ((er, tk_id S t) :: a :: errs) (e, eid)) with (last (a :: errs) (e, eid)). rewrite (L (e, eid) (er, tk_id S t)). reflexivity.
    + rewrite set_link_of by exact N. cbn [s_w s_err s_errId s_ids]. rewrite IH; [reflexivity|exact N3|lia].
Qed.
Lemma tick_ok n (s : sched) f : quiet W S Prog resume -> NoDup (ids (s_tasks W S s)) -> (length (s_tasks W S s) < f)%nat ->
  tick W S Prog resume start f n s =
  let '(w', keep, errs) := round W S Prog resume n (s_w W S s) (s_tasks W S s) in
  let le := latest errs (s_err W S s, s_errId W S s) in
  TOk W S (mkSched W S w' keep (fst le) (snd le) (s_ids W S s)).
Proof.
  intros Q N F. unfold tick. destruct s as [w l e eid k]. cbn [s_tasks s_w s_err s_errId s_ids] in *. apply (tick_loop_ok n Q l [] w e eid k N f F).
Qed.

(* ---- ids ---- *)
Lemma descending_le a b l : a <= b -> descending a l -> descending b l.
Proof. destruct l; cbn; [auto|]. intros H [A B]. split; [lia|exact B]. Qed.
Lemma round_sub n : forall r w, exists keep, snd (fst (round W S Prog resume n w r)) = keep /\ forall hi, descending hi (ids r) -> descending hi (ids keep).
Proof.
  induction r as [|t r IH]; intros w; cbn [round].
  - exists []. auto.
  - destruct (tk_st S t) as [st|].
    + destruct (resume n w st) as [[w1 acts] o]. destruct (IH w1) as (keep&E&H). destruct (round W S Prog resume n w1 r) as [[w2 keep'] errs].
      cbn in E. subst keep'. destruct o as [st'|er]; cbn [fst snd]; eexists; (split; [reflexivity|]); cbn; intros hi [A B].
      * split; [exact A|]. now apply H.
      * apply H. eapply descending_le; [|exact B]. lia.
    + destruct (IH w) as (keep&E&H). exists keep. split; [exact E|]. cbn. intros hi [A B]. apply H. eapply descending_le; [|exact B]. lia.
Qed.
Lemma descending_in hi l i : descending hi l -> In i l -> 0 < i <= hi.
Proof. revert hi. induction l as [|x l IH]; intros hi D I; [contradiction|]. destruct D as [A B]. destruct I as [->|I]; [exact A|]. specialize (IH _ B I). lia. Qed.
Lemma descending_nodup hi l : descending hi l -> NoDup l.
Proof. revert hi. induction l as [|x l IH]; intros hi D; [constructor|]. destruct D as [A B]. constructor; [|eapply IH; eauto]. intros I. pose proof (descending_in _ _ _ B I). lia. Qed.
Lemma remove_desc id l : forall hi, descending hi (ids l) -> descending hi (ids (remove_id S id l)).
Proof.
  induction l as [|t l IH]; intros hi D; [exact D|]. destruct D as [A B]. cbn [remove_id]. destruct (tk_id S t =? id).
  - eapply descending_le; [|exact B]. lia.
  - cbn. split; [exact A|]. now apply IH.
Qed.

Lemma increasing_le a b l : a <= b -> increasing b l -> increasing a l.
Proof. revert a b. induction l as [|i l IH]; intros a b H; cbn; [auto|]. intros [A B]. split; [lia|]. eapply IH; [|exact B]. lia. Qed.
Lemma run_host_ids (Q : quiet W S Prog resume) : forall l s out s', 0 <= s_ids W S s -> descending (s_ids W S s) (ids (s_tasks W S s)) ->
  run_host W S Prog resume start l s = Some (out, s') ->
  increasing (s_ids W S s) out /\ descending (s_ids W S s') (ids (s_tasks W S s')) /\ s_ids W S s <= s_ids W S s'.
Proof.
  induction l as [|h l IH]; intros s out s' P D E.
  - injection E as <- <-. split; [exact I|]. split; [exact D|lia].
  - cbn [run_host] in E. destruct h as [n|n p|id].
    + rewrite (tick_ok n s _ Q (descending_nodup _ _ D)) in E by lia.
      pose proof (round_sub n (s_tasks W S s) (s_w W S s)) as (keep&EK&HK).
      destruct (round W S Prog resume n (s_w W S s) (s_tasks W S s)) as [[w' keep'] errs]. cbn in EK. subst keep'.
      apply IH in E; cbn [s_ids s_tasks] in *; auto.
    + destruct (addThread W S Prog start n p s) as [[i s1]|] eqn:A; [|discriminate]. destruct (run_host W S Prog resume start l s1) as [[o2 s2]|] eqn:R; [|discriminate].
      injection E as <- <-. unfold addThread in A. destruct (start n (s_w W S s) p) as [w o]. destruct o as [st|er].
      * destruct (s_ids W S s <? 2147483647); [|discriminate]. injection A as <- <-. apply IH in R; cbn [s_ids s_tasks] in *; [|lia|].
        -- destruct R as (R1&R2&R3). split; [|split; [exact R2|lia]]. split; [lia|]. eapply increasing_le; [|exact R1]. lia.
        -- cbn. split; [lia|]. replace (s_ids W S s + 1 - 1) with (s_ids W S s) by lia. exact D.
      * injection A as <- <-. apply IH in R; cbn [s_ids s_tasks] in *; auto. destruct R as (R1&R2&R3). split; [|split; auto].
        split; [destruct (er =? 0); auto|]. eapply increasing_le; [|exact R1]. destruct (er =? 0); lia.
    + apply IH in E; unfold removeTask in *; cbn [snd s_ids s_tasks] in *; auto. now apply remove_desc.
Qed.
End P.
