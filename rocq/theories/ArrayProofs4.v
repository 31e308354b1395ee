From Verif Require Import Base BaseLemmas OpsModel ArrayModel ArraySpec ArrayProofs ArrayProofs2 ArrayProofs3.
Ltac Zify.zify_post_hook ::= Z.div_mod_to_equations.

Lemma is_array_holds m x l : is_array m x l -> exists id n, holds m x id n /\ contents m id = l /\ length l = n /\ obj_of m x = id.
Proof.
  intros (V&W&id&E). destruct (variable_scratch m x V) as (A&B&C&D). unfold view in W. rewrite E in W.
  destruct (mo m id) as [[n| | |]|] eqn:O; try discriminate. injection W as <-. exists id, n.
  split; [split; auto|]. split; [reflexivity|]. split; [eapply contents_len; eauto|]. unfold obj_of. now rewrite E.
Qed.
Lemma holds_is_array m m' x l id n : is_array m x l -> obj_of m x = id -> sframe m m' id -> holds m' x id n -> is_array m' x (contents m' id).
Proof.
  intros (V&W&id'&E) O F H. unfold obj_of in O. rewrite E in O. subst id'. destruct F as (F1&F2&F3&F4). split; [|split].
  - destruct V as [V1 V2]. split.
    + destruct x as [| |j k| | |]; auto. destruct V1 as [A B]. rewrite F4. split; [exact A|]. rewrite (h_val _ _ _ _ H). intros [= ->].
      now apply (h_self _ _ _ _ H k).
    + intros j. rewrite (h_val _ _ _ _ H), F4. intros [= <-]. now apply V2.
  - unfold view. rewrite (h_val _ _ _ _ H), (h_obj _ _ _ _ H). reflexivity.
  - exists id. apply (h_val _ _ _ _ H).
Qed.


Lemma st_push_front pbits m x l v f : is_array m x l -> lenZ l + 1 <= 134217727 -> exists m',
  st_call2 (S (S f)) (lib_push pbits) x v m = Ok m' /\ is_array m' x (v :: l).
Proof.
  intros A B. destruct (is_array_holds m x l A) as (id&n&H&C&L&O). unfold lenZ in B.
  destruct (push_front_ok pbits m x id n v f H ltac:(lia)) as (m'&E&H'&F&C'). exists m'. split; [exact E|].
  rewrite C in C'. rewrite <- C'. eapply holds_is_array; eauto.
Qed.
Lemma st_push_back pbits m x l v f : is_array m x l -> lenZ l + 1 <= 134217727 -> exists m',
  st_call2 (S (S f)) (lib_push_back pbits) x v m = Ok m' /\ is_array m' x (l ++ [v]).
Proof.
  intros A B. destruct (is_array_holds m x l A) as (id&n&H&C&L&O). unfold lenZ in B.
  destruct (push_back_ok pbits m x id n v f H ltac:(lia)) as (m'&E&H'&F&C'). exists m'. split; [exact E|].
  rewrite C in C'. rewrite <- C'. eapply holds_is_array; eauto.
Qed.
Lemma st_pop pbits m x l f : is_array m x l -> lenZ l <= 134217727 -> Forall plain l -> exists m',
  st_call1 pbits (S (S f)) (lib_pop pbits) x m = Ok (hd (VInt 0) l, m') /\ is_array m' x (tl l).
Proof.
  intros A B P. destruct (is_array_holds m x l A) as (id&n&H&C&L&O). unfold lenZ in B.
  destruct (pop_ok pbits m x id n f H ltac:(lia)) as (m'&v&E&EV&H'&F&C'). exists m'. unfold st_call1, slot. fold (args1 m x). rewrite E. cbn [bind].
  rewrite C in C'. assert (Q: v = hd (VInt 0) l /\ contents m' id = tl l) by (destruct l; tauto). destruct Q as [-> Q].
  rewrite plain_deref by (rewrite EV; destruct l; cbn; [exact I|inversion P; auto]). cbn [bind]. rewrite EV. split; [reflexivity|].
  rewrite <- Q. eapply holds_is_array; eauto.
Qed.
Lemma st_pop_back pbits m x l f : is_array m x l -> Forall plain l -> exists m',
  st_call1 pbits (S (S f)) (lib_pop_back pbits) x m = Ok (last l (VInt 0), m') /\ is_array m' x (removelast l).
Proof.
  intros A P. destruct (is_array_holds m x l A) as (id&n&H&C&L&O).
  destruct (pop_back_ok pbits m x id n f H) as (m'&v&E&EV&H'&F&C'). exists m'. unfold st_call1, slot. fold (args1 m x). rewrite E. cbn [bind].
  rewrite C in C'. assert (Q: v = last l (VInt 0) /\ contents m' id = removelast l).
  { destruct C' as [(->&->&->)|(t&->&->)]; [auto|]. rewrite last_last, removelast_last. auto. }
  assert (PV: plain v).
  { destruct C' as [(_&->&_)|(t&CL&_)]; [exact I|]. rewrite CL in P. apply Forall_app in P. destruct P as [_ P]. now inversion P. }
  destruct Q as [-> Q]. rewrite plain_deref by now rewrite EV.
  cbn [bind]. rewrite EV. split; [reflexivity|]. rewrite <- Q. eapply holds_is_array; eauto.
Qed.
Lemma st_count pbits m x l f : is_array m x l -> lenZ l <= 134217727 -> exists m',
  st_call1 pbits (S (S f)) (lib_count pbits) x m = Ok (VInt (lenZ l), m') /\ is_array m' x l.
Proof.
  intros A B. destruct (is_array_holds m x l A) as (id&n&H&C&L&O). unfold lenZ in B.
  destruct (count_ok pbits m x id n f H ltac:(lia)) as (m'&E&EV&H'&F&C'). exists m'. unfold st_call1, slot. fold (args1 m x). rewrite E. cbn [bind].
  rewrite plain_deref by (rewrite EV; exact I). cbn [bind]. rewrite EV, C. split; [reflexivity|]. rewrite C in C'. rewrite <- C'. eapply holds_is_array; eauto.
Qed.

Lemma queue_run pbits x f : forall ops m q, is_array m x (rev q) -> lenZ q + Z.of_nat (pushes ops) <= 134217727 ->
  Forall plain q -> Forall qop_plain ops -> exists m',
  run_q pbits (S (S f)) (lib_push pbits) (lib_pop_back pbits) x ops m = Ok (fst (fifo q ops), m') /\ is_array m' x (rev (snd (fifo q ops))).
Proof.
  unfold lenZ. induction ops as [|[v|] ops IH]; intros m q A B P PO.
  - exists m. auto.
  - inversion PO as [|? ? P1 P2]; subst. cbn [pushes] in B. cbn [run_q fifo].
    destruct (st_push_front pbits m x (rev q) v f A) as (m1&E&A1); [unfold lenZ; rewrite rev_length; lia|]. rewrite E. cbn [bind].
    rewrite <- (rev_unit q v) in A1.
    apply IH; auto; [rewrite app_length; cbn; lia|]. apply Forall_app. auto.
  - inversion PO as [|? ? P1 P2]; subst. cbn [pushes] in B. cbn [run_q].
    destruct (st_pop_back pbits m x (rev q) f A) as (m1&E&A1); [now apply Forall_rev|]. rewrite E. cbn [bind].
    destruct q as [|v q].
    + cbn [rev last removelast] in *. destruct (IH m1 [] A1 ltac:(cbn; lia) P P2) as (m'&E'&A'). rewrite E'. cbn [bind].
      exists m'. cbn [fifo]. destruct (fifo [] ops) as [r q']. auto.
    + cbn [rev] in *. rewrite last_last. rewrite removelast_last in A1. inversion P as [|? ? Pv Pq]; subst. cbn [length] in B.
      destruct (IH m1 q A1 ltac:(lia) Pq P2) as (m'&E'&A'). rewrite E'. cbn [bind]. exists m'. cbn [fifo]. destruct (fifo q ops) as [r q']. auto.
Qed.
Lemma stack_run pbits x f : forall ops m s, is_array m x s -> lenZ s + Z.of_nat (pushes ops) <= 134217727 ->
  Forall plain s -> Forall qop_plain ops -> exists m',
  run_q pbits (S (S f)) (lib_push pbits) (lib_pop pbits) x ops m = Ok (fst (lifo s ops), m') /\ is_array m' x (snd (lifo s ops)).
Proof.
  unfold lenZ. induction ops as [|[v|] ops IH]; intros m s A B P PO.
  - exists m. auto.
  - inversion PO as [|? ? P1 P2]; subst. cbn [pushes] in B. cbn [run_q lifo].
    destruct (st_push_front pbits m x s v f A) as (m1&E&A1); [unfold lenZ; lia|]. rewrite E. cbn [bind].
    apply IH; auto. cbn [length]; lia.
  - inversion PO as [|? ? P1 P2]; subst. cbn [pushes] in B. cbn [run_q].
    destruct (st_pop pbits m x s f A ltac:(unfold lenZ; lia) P) as (m1&E&A1). rewrite E. cbn [bind].
    destruct s as [|v s].
    + cbn [hd tl] in *. destruct (IH m1 [] A1 ltac:(cbn; lia) P P2) as (m'&E'&A'). rewrite E'. cbn [bind].
      exists m'. cbn [lifo]. destruct (lifo [] ops) as [r q']. auto.
    + cbn [hd tl] in *. inversion P as [|? ? Pv Pq]; subst. cbn [length] in B.
      destruct (IH m1 s A1 ltac:(lia) Pq P2) as (m'&E'&A'). rewrite E'. cbn [bind]. exists m'. cbn [lifo]. destruct (lifo s ops) as [r q']. auto.
Qed.

(* ---- three-argument calls ---- *)
Definition args3 (m : mem) (x : loc) (a b : value) : mem :=
  wr (wr (wr (wr m (LStack 0) (VRef x)) (LStack 1) a) (LStack 2) b) (LStack 3) (VInt 0).
Lemma args3_facts m x a b id n : holds m x id n ->
  let m1 := args3 m x a b in holds m1 x id n /\ mv m1 (LStack 0) = VRef x /\ mv m1 (LStack 1) = a /\ mv m1 (LStack 2) = b /\ contents m1 id = contents m id /\ sframe m m1 id.
Proof.
  intros H. unfold args3. cbv zeta.
  assert (S0: scratch (LStack 0)) by (unfold scratch; auto). assert (S1: scratch (LStack 1)) by (unfold scratch; auto).
  assert (S2: scratch (LStack 2)) by (unfold scratch; auto). assert (S3: scratch (LStack 3)) by (unfold scratch; auto).
  split; [repeat (apply holds_scratch; auto)|]. split; [rewrite !wr_other by discriminate; apply wr_same|].
  split; [rewrite !wr_other by discriminate; apply wr_same|]. split; [rewrite wr_other by discriminate; apply wr_same|].
  split; [rewrite !contents_scratch by auto; reflexivity|].
  eapply sframe_trans; [|apply sframe_wr; auto]. eapply sframe_trans; [|apply sframe_wr; auto].
  eapply sframe_trans; [|apply sframe_wr; auto]. apply sframe_wr; auto.
Qed.
Lemma st_insert pbits m x l w c f : is_array m x l -> is_u32 w -> is_u32 c -> s32 w <= lenZ l -> 0 <= s32 w -> 0 <= s32 c -> lenZ l + s32 c <= 134217727 -> exists m',
  st_call3 (S (S f)) (lib_insert pbits) x (VInt w) (VInt c) m = Ok m' /\ is_array m' x (insert_list l (Z.to_nat w) (Z.to_nat c)).
Proof.
  intros A U1 U2 W W0 C0 B. assert (EW: s32 w = w) by (unfold s32 in *; rewrite u32_id in * by auto; destruct (w <? 2147483648); unfold is_u32 in *; lia).
  assert (EC: s32 c = c) by (unfold s32 in *; rewrite (u32_id c) in * by auto; destruct (c <? 2147483648); unfold is_u32 in *; lia).
  rewrite EW, EC in *. destruct (is_array_holds m x l A) as (id&n&H&C&L&O). unfold lenZ in *.
  destruct (args3_facts m x (VInt w) (VInt c) id n H) as (H1&E0&E1&E2&CC&F). unfold st_call3, slot. fold (args3 m x (VInt w) (VInt c)).
  set (m1 := args3 m x (VInt w) (VInt c)) in *. unfold lib_insert. rewrite (ref_slot pbits m1 x id n) by auto. cbn [bind].
  unfold asInt. rewrite E1. cbn [bind]. rewrite E2. cbn [bind]. rewrite EW, EC.
  destruct (insert_ok m1 id n w c (h_obj _ _ _ _ H1)) as (m2&->&F2&O2&C2); try lia. cbn [bind].
  eexists. split; [reflexivity|]. rewrite CC, C in C2. assert (S3: scratch (LStack 3)) by (unfold scratch; auto).
  rewrite <- C2. rewrite <- (contents_scratch m2 (LStack 3) (mv m2 x) id) by auto.
  assert (SF: sframe m (wr m2 (LStack 3) (mv m2 x)) id).
  { eapply sframe_trans; [exact F|]. eapply sframe_trans; [apply sframe_frame; exact F2|]. now apply sframe_wr. }
  eapply holds_is_array; eauto. eapply holds_sframe; [exact H|exact SF|exact O2].
Qed.
Lemma st_remove_ok pbits m x l w c f : is_array m x l -> is_u32 w -> is_u32 c -> 0 <= s32 c -> lenZ l <= 134217727 -> exists m',
  st_call3 (S (S f)) (lib_remove pbits) x (VInt w) (VInt c) m = Ok m' /\ is_array m' x (remove_list l (Z.to_nat w) (Z.to_nat c)).
Proof.
  intros A U1 U2 C0 B.
  assert (EC: s32 c = c) by (unfold s32 in *; rewrite (u32_id c) in * by auto; destruct (c <? 2147483648); unfold is_u32 in *; lia).
  pose proof (s32_range c). unfold is_s32 in *.
  rewrite EC in *. destruct (is_array_holds m x l A) as (id&n&H0&C&L&O). unfold lenZ in *.
  destruct (args3_facts m x (VInt w) (VInt c) id n H0) as (H1&E0&E1&E2&CC&F). unfold st_call3, slot. fold (args3 m x (VInt w) (VInt c)).
  set (m1 := args3 m x (VInt w) (VInt c)) in *. unfold lib_remove. rewrite (ref_slot pbits m1 x id n) by auto. cbn [bind].
  unfold asInt. rewrite E1. cbn [bind]. rewrite E2. cbn [bind]. rewrite EC.
  assert (RE: arrayRemoveEx m1 id (s32 w) c = arrayRemoveEx m1 id w c) by (unfold arrayRemoveEx; now rewrite u32_s32).
  rewrite RE. destruct (remove_ok m1 id n w c (h_obj _ _ _ _ H1)) as (m2&->&F2&O2&C2); try lia; auto. cbn [bind].
  eexists. split; [reflexivity|]. rewrite CC, C in C2. assert (S3: scratch (LStack 3)) by (unfold scratch; auto).
  rewrite <- C2. rewrite <- (contents_scratch m2 (LStack 3) (mv m2 x) id) by auto.
  assert (SF: sframe m (wr m2 (LStack 3) (mv m2 x)) id).
  { eapply sframe_trans; [exact F|]. eapply sframe_trans; [apply sframe_frame; exact F2|]. now apply sframe_wr. }
  eapply holds_is_array; eauto. eapply holds_sframe; [exact H0|exact SF|exact O2].
Qed.
Lemma st_truncate_ok pbits m x l w f : is_array m x l -> is_u32 w -> lenZ l <= 134217727 -> exists m',
  st_truncate pbits (S (S f)) x (VInt w) m = Ok m' /\ is_array m' x (firstn (Z.to_nat w) l).
Proof.
  intros A U1 B. destruct (is_array_holds m x l A) as (id&n&H&C&L&O). unfold lenZ in *. unfold is_u32 in *.
  unfold st_truncate, slot. set (m1 := wr (wr (wr m (LStack 0) (VRef x)) (LStack 1) (VInt w)) (LStack 2) (VInt 0)).
  assert (S0: scratch (LStack 0)) by (unfold scratch; auto). assert (S1: scratch (LStack 1)) by (unfold scratch; auto).
  assert (S2: scratch (LStack 2)) by (unfold scratch; auto).
  assert (H1: holds m1 x id n) by (unfold m1; repeat (apply holds_scratch; auto)).
  assert (CC: contents m1 id = l) by (unfold m1; rewrite !contents_scratch by auto; exact C).
  assert (F: sframe m m1 id) by (unfold m1; eapply sframe_trans; [|apply sframe_wr; auto]; eapply sframe_trans; apply sframe_wr; auto).
  unfold lib_truncate. rewrite (ref_slot pbits m1 x id n) by (auto; unfold m1; rewrite !wr_other by discriminate; apply wr_same). cbn [bind].
  unfold asInt. replace (mv m1 (LStack 1)) with (VInt w) by (unfold m1; rewrite wr_other by discriminate; now rewrite wr_same). cbn [bind].
  rewrite (h_obj _ _ _ _ H1), u32_s32, u32_id by (unfold is_u32; lia). cbv zeta.
  destruct (w <? Z.of_nat n) eqn:E.
  - eexists. split; [reflexivity|]. set (m2 := wr_obj m1 id (OVal (Z.to_nat w))).
    assert (O2: mo m2 id = Some (OVal (Z.to_nat w))) by (cbn; destruct (Nat.eq_dec id id); congruence).
    assert (C2: contents m2 id = firstn (Z.to_nat w) l).
    { eapply contents_eq; [exact O2|rewrite firstn_length; lia|]. intros k K. rewrite nth_error_first by lia. rewrite <- CC.
      apply (contents_nth m1 id n); [apply (h_obj _ _ _ _ H1)|lia]. }
    rewrite <- C2. rewrite <- (contents_scratch m2 (LStack 2) (mv m2 x) id) by auto.
    assert (SF: sframe m (wr m2 (LStack 2) (mv m2 x)) id).
    { eapply sframe_trans; [exact F|]. eapply sframe_trans; [apply sframe_frame, frame_obj|]. now apply sframe_wr. }
    eapply holds_is_array; eauto. eapply holds_sframe; [exact H|exact SF|exact O2].
  - eexists. split; [reflexivity|]. rewrite firstn_all2 by lia. rewrite <- CC.
    rewrite <- (contents_scratch m1 (LStack 2) (mv m1 x) id) by auto.
    assert (SF: sframe m (wr m1 (LStack 2) (mv m1 x)) id) by (eapply sframe_trans; [exact F|]; now apply sframe_wr).
    eapply holds_is_array; eauto. apply holds_scratch; [exact H1|exact S2].
Qed.

(* ---- x._remove( i ) ---- *)
Lemma shift_down_ok id : forall n m k, frame m (shift_down m id k n) id /\ mo (shift_down m id k n) = mo m /\
  forall j, velem (shift_down m id k n) id j = if (k <=? j)%nat && (j <? k + n)%nat then velem m id (S j) else velem m id j.
Proof.
  induction n as [|n IH]; intros m k; cbn [shift_down].
  - split; [apply frame_refl|]. split; [reflexivity|]. intros j. replace (_ && _) with false by lia. reflexivity.
  - set (m1 := wr m (LElem id k) (mv m (LElem id (S k)))). destruct (IH m1 (S k)) as (F&O&E).
    split; [eapply frame_trans; [apply frame_elem|exact F]|]. split; [rewrite O; reflexivity|]. intros j. rewrite E.
    assert (V: forall q, velem m1 id q = if (q =? k)%nat then velem m id (S k) else velem m id q).
    { intros q. unfold m1, velem. destruct (q =? k)%nat eqn:Q; [apply Nat.eqb_eq in Q; subst; apply wr_same|].
      apply wr_other. intros [= ->]. lia. }
    rewrite !V. destruct (j =? k)%nat eqn:J.
    + apply Nat.eqb_eq in J. subst j. replace (_ && _) with false by lia. replace (_ && _) with true by lia. reflexivity.
    + replace (S j =? k)%nat with ((S k <=? j)%nat && (j <? S k + n)%nat && (S j =? k)%nat || (S j =? k)%nat) by lia.
      destruct ((S k <=? j)%nat && (j <? S k + n)%nat) eqn:G.
      * replace (S j =? k)%nat with false by lia. cbn [andb orb]. replace (_ && _) with true by lia. reflexivity.
      * replace (_ && _) with false by lia. reflexivity.
Qed.
Lemma st_remove_elem pbits m x l i f : is_array m x l -> lenZ l <= 134217727 -> (i < length l)%nat -> exists m',
  st_remove pbits (S (S f)) x (VInt (Z.of_nat i)) m = Ok m' /\ is_array m' x (remove_list l i 1).
Proof.
  intros A B LI. destruct (is_array_holds m x l A) as (id&n&H&C&L&O). unfold lenZ in *.
  destruct (args2_facts m x (VInt (Z.of_nat i)) id n H) as (H1&E0&E1&CC&F). unfold st_remove, slot. fold (args2 m x (VInt (Z.of_nat i))).
  set (m1 := args2 m x (VInt (Z.of_nat i))) in *. unfold op_remove. rewrite E1. cbn [deref]. rewrite E0. cbn [deref]. rewrite (h_val _ _ _ _ H1). cbn [bind].
  rewrite (h_val _ _ _ _ H1), (h_obj _ _ _ _ H1). rewrite u32_id by (unfold is_u32; lia). rewrite Nat2Z.id.
  rewrite u32_id by (unfold is_u32; lia). cbv zeta.
  match goal with |- context [shift_down _ _ _ ?s] => replace s with (n - 1 - i)%nat by (destruct (Z.of_nat i + 1 <? Z.of_nat n) eqn:Q; lia) end.
  replace (Z.to_nat (Z.of_nat n - 1)) with (n - 1)%nat by lia.
  destruct (shift_down_ok id (n - 1 - i) m1 i) as (F2&O2&V2). set (m2 := shift_down m1 id i (n - 1 - i)) in *.
  eexists. split; [reflexivity|]. set (m3 := wr_obj m2 id (OVal (n - 1))).
  assert (O3: mo m3 id = Some (OVal (n - 1))) by (cbn; destruct (Nat.eq_dec id id); congruence).
  assert (C3: contents m3 id = remove_list l i 1).
  { eapply contents_eq; [exact O3|rewrite remove_len; lia|]. intros k K. rewrite nth_remove by lia. change (velem m3 id k) with (velem m2 id k).
    rewrite V2, <- C, <- CC. destruct (k <? i)%nat eqn:Q.
    - replace (_ && _) with false by lia. apply (contents_nth m1 id n); [apply (h_obj _ _ _ _ H1)|lia].
    - replace (_ && _) with true by lia. rewrite Nat.add_1_r. apply (contents_nth m1 id n); [apply (h_obj _ _ _ _ H1)|lia]. }
  rewrite <- C3. assert (SF: sframe m m3 id).
  { eapply sframe_trans; [exact F|]. eapply sframe_trans; [apply sframe_frame; exact F2|]. apply sframe_frame, frame_obj. }
  eapply holds_is_array; eauto. eapply holds_sframe; [exact H|exact SF|exact O3].
Qed.

Lemma Forall_tl {A} (P : A -> Prop) l : Forall P l -> Forall P (tl l).
Proof. intros H. destruct l; [exact H|now inversion H]. Qed.
Lemma Forall_removelast {A} (P : A -> Prop) l : Forall P l -> Forall P (removelast l).
Proof. induction l as [|a [|b l] IH]; intros H; [exact H|constructor|]. inversion H; subst. constructor; auto. Qed.
Lemma length_removelast {A} (l : list A) : (length (removelast l) <= length l)%nat.
Proof. induction l as [|a [|b l] IH]; cbn in *; lia. Qed.
Lemma list_run pbits x f : forall ops m l, is_array m x l -> lenZ l + lenZ ops <= 134217727 ->
  Forall plain l -> Forall lop_plain ops -> exists m',
  run_l pbits (S (S f)) x ops m = Ok (fst (deque l ops), m') /\ is_array m' x (snd (deque l ops)).
Proof.
  unfold lenZ. induction ops as [|[v|v| |] ops IH]; intros m l A B P PO.
  - exists m. auto.
  - inversion PO as [|? ? P1 P2]; subst. cbn [length] in B. cbn [run_l deque].
    destruct (st_push_front pbits m x l v f A) as (m1&E&A1); [unfold lenZ; lia|]. unfold list_push_front. rewrite E. cbn [bind].
    apply IH; auto. cbn [length]; lia.
  - inversion PO as [|? ? P1 P2]; subst. cbn [length] in B. cbn [run_l deque].
    destruct (st_push_back pbits m x l v f A) as (m1&E&A1); [unfold lenZ; lia|]. unfold list_push_back. rewrite E. cbn [bind].
    apply IH; auto; [rewrite app_length; cbn; lia|]. apply Forall_app. auto.
  - inversion PO as [|? ? P1 P2]; subst. cbn [length] in B. cbn [run_l deque].
    destruct (st_pop pbits m x l f A ltac:(unfold lenZ; lia) P) as (m1&E&A1). unfold list_pop_front. rewrite E. cbn [bind].
    assert (length (tl l) <= length l)%nat by (destruct l; cbn; lia).
    destruct (IH m1 (tl l) A1 ltac:(lia) (Forall_tl _ _ P) P2) as (m'&E'&A'). rewrite E'. cbn [bind]. exists m'.
    destruct (deque (tl l) ops) as [r q']. auto.
  - inversion PO as [|? ? P1 P2]; subst. cbn [length] in B. cbn [run_l deque].
    destruct (st_pop_back pbits m x l f A P) as (m1&E&A1). unfold list_pop_back. rewrite E. cbn [bind].
    pose proof (length_removelast l).
    destruct (IH m1 (removelast l) A1 ltac:(lia) (Forall_removelast _ _ P) P2) as (m'&E'&A'). rewrite E'. cbn [bind]. exists m'.
    destruct (deque (removelast l) ops) as [r q']. auto.
Qed.

(* ---- peek ---- *)
Lemma sframe_is_array m m' x l id n : is_array m x l -> holds m x id n -> sframe m m' id -> mo m' id = mo m id -> contents m' id = contents m id -> is_array m' x l.
Proof.
  intros A H F O C. assert (O': obj_of m x = id) by (unfold obj_of; now rewrite (h_val _ _ _ _ H)).
  destruct A as (V&W&E). pose proof W as W'. unfold view in W'. rewrite (h_val _ _ _ _ H), (h_obj _ _ _ _ H) in W'. injection W' as <-.
  rewrite <- C. eapply (holds_is_array m m' x (contents m id)); [split; auto|exact O'|exact F|].
  eapply holds_sframe; [exact H|exact F|]. rewrite O. apply (h_obj _ _ _ _ H).
Qed.
Lemma st_peek pbits m x l f : is_array m x l -> Forall plain l -> exists m',
  st_call1 pbits (S (S (S f))) (lib_peek pbits) x m = Ok (hd (VInt 0) l, m') /\ is_array m' x l.
Proof.
  intros A P. destruct (is_array_holds m x l A) as (id&n&H&C&L&O).
  destruct (args2_facts m x (VInt 0) id n H) as (H1&E0&E1&CC&F).
  unfold st_call1, slot. change (wr (wr m (LStack 0) (VRef x)) (LStack 1) (VInt 0)) with (args2 m x (VInt 0)).
  set (m1 := args2 m x (VInt 0)) in *. unfold lib_peek. rewrite (ref_slot pbits m1 x id n) by auto. cbn [bind]. rewrite (h_obj _ _ _ _ H1).
  assert (S1: scratch (LStack 1)) by (unfold scratch; auto). assert (ST: scratch LTemp2) by (unfold scratch; auto).
  destruct n as [|n].
  - cbn [bind]. rewrite plain_deref by (rewrite E1; exact I). cbn [bind]. rewrite E1. destruct l; [|discriminate].
    exists m1. split; [reflexivity|]. eapply sframe_is_array; [exact A|exact H|exact F| |exact CC]. now rewrite (h_obj _ _ _ _ H1), (h_obj _ _ _ _ H).
  - cbn [bind]. set (m2 := wr m1 (LStack 1) (VMem x 0)). assert (H2: holds m2 x id (S n)) by now apply holds_scratch.
    assert (D: deref pbits (S (S (S f))) (LStack 1) m2 = Ok (LElem id 0, wr m2 LTemp2 (VInt (rdi pbits m2 LTemp2)))).
    { apply (member_deref pbits m2 x id (S n)); [exact H2|lia|apply wr_same]. }
    rewrite D. cbn [bind]. eexists. split.
    + do 2 f_equal. rewrite wr_other by discriminate. unfold m2. rewrite wr_other by discriminate.
      rewrite <- C, <- CC. pose proof (contents_nth m1 id (S n) 0 (h_obj _ _ _ _ H1) ltac:(lia)) as N.
      destruct (contents m1 id); cbn in N; [discriminate|]. injection N as ->. reflexivity.
    + eapply sframe_is_array; [exact A|exact H| | |].
      * eapply sframe_trans; [exact F|]. eapply sframe_trans; [apply (sframe_wr m1 (LStack 1)); exact S1|]. now apply sframe_wr.
      * transitivity (mo m1 id); [reflexivity|]. now rewrite (h_obj _ _ _ _ H1), (h_obj _ _ _ _ H).
      * rewrite contents_temp. unfold m2. rewrite contents_scratch by auto. exact CC.
Qed.
Lemma st_peek_back pbits m x l f : is_array m x l -> Forall plain l -> lenZ l <= 2097152 -> exists m',
  st_call1 pbits (S (S (S f))) (lib_peek_back pbits) x m = Ok (last l (VInt 0), m') /\ is_array m' x l.
Proof.
  intros A P B. destruct (is_array_holds m x l A) as (id&n&H&C&L&O). unfold lenZ in B.
  destruct (args2_facts m x (VInt 0) id n H) as (H1&E0&E1&CC&F).
  unfold st_call1, slot. change (wr (wr m (LStack 0) (VRef x)) (LStack 1) (VInt 0)) with (args2 m x (VInt 0)).
  set (m1 := args2 m x (VInt 0)) in *. unfold lib_peek_back. rewrite (ref_slot pbits m1 x id n) by auto. cbn [bind]. rewrite (h_obj _ _ _ _ H1).
  assert (S1: scratch (LStack 1)) by (unfold scratch; auto). assert (ST: scratch LTemp2) by (unfold scratch; auto).
  destruct n as [|n].
  - cbn [bind]. rewrite plain_deref by (rewrite E1; exact I). cbn [bind]. rewrite E1. destruct l; [|discriminate].
    exists m1. split; [reflexivity|]. eapply sframe_is_array; [exact A|exact H|exact F| |exact CC]. now rewrite (h_obj _ _ _ _ H1), (h_obj _ _ _ _ H).
  - rewrite member_ok by lia. cbn [bind]. rewrite Nat2Z.id. set (m2 := wr m1 (LStack 1) (VMem x n)). assert (H2: holds m2 x id (S n)) by now apply holds_scratch.
    assert (D: deref pbits (S (S (S f))) (LStack 1) m2 = Ok (LElem id n, wr m2 LTemp2 (VInt (rdi pbits m2 LTemp2)))).
    { apply (member_deref pbits m2 x id (S n)); [exact H2|lia|apply wr_same]. }
    rewrite D. cbn [bind]. eexists. split.
    + do 2 f_equal. rewrite wr_other by discriminate. unfold m2. rewrite wr_other by discriminate.
      destruct (removelast_contents m1 id n (h_obj _ _ _ _ H1)) as [_ R]. rewrite CC, C in R. rewrite R. now rewrite last_last.
    + eapply sframe_is_array; [exact A|exact H| | |].
      * eapply sframe_trans; [exact F|]. eapply sframe_trans; [apply (sframe_wr m1 (LStack 1)); exact S1|]. now apply sframe_wr.
      * transitivity (mo m1 id); [reflexivity|]. now rewrite (h_obj _ _ _ _ H1), (h_obj _ _ _ _ H).
      * rewrite contents_temp. unfold m2. rewrite contents_scratch by auto. exact CC.
Qed.

Lemma array_run_ok pbits hash_index new_table x f : forall ops m l, variable m x -> view m x = Some l -> Forall aop_ok ops -> exists m',
  run_a pbits hash_index new_table (S (S (S f))) x ops m = Ok (fst (array_run l ops), m') /\ view m' x = Some (snd (array_run l ops)) /\ variable m' x.
Proof.
  induction ops as [|[i v|i] ops IH]; intros m l V W P.
  - exists m. auto.
  - inversion P as [|? ? P1 P2]; subst. destruct P1 as [B PV]. cbn [run_a array_run].
    destruct (write_ok pbits hash_index new_table m x l i v f V W B PV) as (m1&E&W1&V1&_). rewrite E. cbn [bind]. now apply IH.
  - inversion P as [|? ? P1 P2]; subst. cbn [run_a array_run].
    destruct (read_ok pbits hash_index new_table m x l i f V W P1) as (m1&E&W1&V1&_). rewrite E. cbn [bind].
    destruct (IH m1 _ V1 W1 P2) as (m'&E'&W'&V'). rewrite E'. cbn [bind]. exists m'. destruct (array_run (pad l (S i)) ops) as [r q]. auto.
Qed.
