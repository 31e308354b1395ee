(* The statement compiler produces code of the expected shape. *)
From Verif Require Import Base BaseLemmas HashModel OpsModel VmModel EmitModel CcModel JumpSpec JumpProofs JumpProps LinkSpec CtlSpec LayProofs AppendProofs StepProofs TableProofs.

(* ---- the shape of compiled statements ---- *)
Fixpoint clauses_at (C : image) (l : list bcode) (p q : Z) : Prop :=
  match l with
  | [] => q = p
  | e :: r => exists P, clause e P /\ placed C p P e /\ clauses_at C r (p + lenZ P) q
  end.
Definition dest (cl : Z -> option Z) (dl : option Z) (q h : Z) : Z :=
  match cl h with Some x => x | None => match dl with Some x => x | None => q end end.
Fixpoint has_default (s : stmt) : bool := match s with Seq a b => has_default a || has_default b | Default => true | _ => false end.
Section Shape.
Variables (C : image) (ret : opcode).
(* from p to q; break goes to db, continue to dc; cl and dl are the positions of the case labels *)
Fixpoint shape (s : stmt) (p q db dc : Z) (cl : Z -> option Z) (dl : option Z) : Prop :=
  match s with
  | Skip => q = p
  | Seq a b => exists m, shape a p m db dc cl dl /\ shape b m q db dc cl dl
  | Exp e => exists P, pops e P /\ placed C p P e /\ q = p + lenZ P
  | If c s => exists r, cond_at C c p r q /\ shape s r q db dc cl dl
  | IfElse c a b => exists r m, cond_at C c p r (m + 3) /\ shape a r m db dc cl dl /\ jumps C m q /\ shape b (m + 3) q db dc cl dl
  | While c s => exists r m, cond_at C c p r q /\ shape s r m q p cl dl /\ jumps C m p
  | Do s c => exists m r, shape s p m q m cl dl /\ cond_at C c m r q /\ jumps C r p
  | For i c post s => exists h r m m2, clauses_at C i p h /\
      match c with Some c => cond_at C c h r q | None => r = h end /\
      shape s r m q m cl dl /\ clauses_at C post m m2 /\ jumps C m2 h
  | Break => jumps C p db
  | Continue => jumps C p dc
  | Ret e => exists P, returns ret e P /\ placed C p P (match e with Some e => e | None => empty_bc end)
  | Switch e s => exists P m rt cl' dl', pushes e P /\ placed C p P e /\ jumps C (p + lenZ P) rt /\
      shape s (p + lenZ P + 3) m q dc cl' dl' /\
      (jumps C m q \/ jumps_away (last (items s) Skip) = true) /\
      (forall h, ~ In h (labels s) -> cl' h = None) /\ (has_default s = false -> dl' = None) /\
      switch_at C rt (dest cl' dl' q)
  | Case h => q = p /\ cl h = Some p
  | Default => q = p /\ dl = Some p
  | Braces s => shape s p q db dc cl dl
  end.
End Shape.

(* ---- the parser's state ---- *)
Definition glob_of (st : pst) : option bcode := match p_fn st with Some _ => Some (p_glob st) | None => None end.
Definition view (st : pst) (tk : list tok) (b : bcode) (brk cont : list nat) (base : pst) : Prop :=
  p_toks st = tk /\ cur st = b /\ p_brk st = brk /\ p_cont st = cont /\
  p_units st = p_units base /\ p_fe st = p_fe base /\ glob_of st = glob_of base.
Section View.
Variables (st : pst) (tk : list tok) (b : bcode) (brk cont : list nat) (base : pst).
Hypothesis V : view st tk b brk cont base.
Lemma view_toks tk' : view (set_toks tk' st) tk' b brk cont base.
Proof. destruct V as (A1 & A2 & A3 & A4 & A5 & A6 & A7). repeat (split; [assumption || reflexivity|]). exact A7. Qed.
Lemma view_brk l : view (set_brk l st) tk b l cont base.
Proof. destruct V as (A1 & A2 & A3 & A4 & A5 & A6 & A7). repeat (split; [assumption || reflexivity|]). exact A7. Qed.
Lemma view_cont l : view (set_cont l st) tk b brk l base.
Proof. destruct V as (A1 & A2 & A3 & A4 & A5 & A6 & A7). repeat (split; [assumption || reflexivity|]). exact A7. Qed.
Lemma view_cur b' : view (set_cur b' st) tk b' brk cont base.
Proof.
  destruct V as (A1 & A2 & A3 & A4 & A5 & A6 & A7). unfold view, set_cur, cur, glob_of in *.
  destruct (p_fn st); cbn in *; repeat (split; [assumption || reflexivity|]); assumption.
Qed.
Lemma emit_view f st' : emit f st = COk st' -> exists b', f b = COk b' /\ view st' tk b' brk cont base.
Proof.
  unfold emit. assert (E : cur st = b) by apply V. rewrite E. destruct (f b) as [b'| |]; try discriminate.
  cbn. intros H. injection H as <-. exists b'. split; [reflexivity|apply view_cur].
Qed.
Lemma target_view st' t : new_target st = (st', t) -> t = length (b_jumps b) /\ view st' tk (fst (add_target b)) brk cont base.
Proof.
  unfold new_target. assert (E : cur st = b) by apply V. rewrite E. unfold add_target at 1. intros H. injection H as <- <-.
  split; [reflexivity|]. apply view_cur.
Qed.
Lemma expect_view t r st' : tk = t :: r -> expect t st = COk st' -> view st' r b brk cont base.
Proof.
  intros T. unfold expect. assert (E : p_toks st = tk) by apply V. rewrite E, T. destruct (tok_eqb t t); [|discriminate].
  intros H. injection H as <-. apply view_toks.
Qed.
Lemma expr_view c e r c' st' : tk = T_expr c :: e :: r -> parse_expr_to e st = COk (c', st') -> c' = c /\ view st' r b brk cont base.
Proof.
  intros T. unfold parse_expr_to, parse_expr. assert (E : p_toks st = tk) by apply V. rewrite E, T.
  destruct (is_terminator e); [|discriminate]. cbn. destruct (tok_eqb e e); [|discriminate]. intros H. injection H as <- <-.
  split; [reflexivity|apply view_toks].
Qed.
Lemma view_brk2 l l' : l = l' -> view (set_brk l st) tk b l' cont base.
Proof. intros <-. apply view_brk. Qed.
Lemma view_cont2 l l' : l = l' -> view (set_cont l st) tk b brk l' base.
Proof. intros <-. apply view_cont. Qed.
End View.
(* following the parser: [V] is the view of the state the next action of [H] is applied to *)
Ltac vfix := cbn [set_brk set_cont p_brk p_cont];
  repeat match goal with E : p_brk ?x = _ |- context [p_brk ?x] => rewrite E | E : p_cont ?x = _ |- context [p_cont ?x] => rewrite E end;
  cbn [tl]; reflexivity.
Ltac vget s V :=
  lazymatch s with
  | set_cont ?l ?s' => vget s' V; let W := fresh "W" in
    eassert (W : view s _ _ _ _ _) by (eapply view_cont2; [exact V|vfix]); clear V; rename W into V
  | set_brk ?l ?s' => vget s' V; let W := fresh "W" in
    eassert (W : view s _ _ _ _ _) by (eapply view_brk2; [exact V|vfix]); clear V; rename W into V
  | set_toks ?l ?s' => vget s' V; let W := fresh "W" in assert (W := view_toks _ _ _ _ _ _ V l); clear V; rename W into V
  | _ => let E1 := fresh "PB" in let E2 := fresh "PC" in
         let T := type of V in
         lazymatch T with view _ _ _ ?br ?co _ => assert (E1 : p_brk s = br) by apply V; assert (E2 : p_cont s = co) by apply V end
  end.
Ltac vexpect H V :=
  lazymatch type of H with
  | cbind (expect ?t ?s) _ = COk _ =>
    let x := fresh "st" in let E := fresh "E" in
    destruct (expect t s) as [x| |] eqn:E; cbn [cbind] in H; [|discriminate H|discriminate H];
    vget s V; apply (expect_view _ _ _ _ _ _ V _ _ _ eq_refl) in E; clear V; rename E into V
  end.
Ltac vexpr H V :=
  lazymatch type of H with
  | cbind (parse_expr_to ?t ?s) _ = COk _ =>
    let x := fresh "st" in let c := fresh "c" in let E := fresh "E" in
    destruct (parse_expr_to t s) as [[c x]| |] eqn:E; cbn [cbind] in H; [|discriminate H|discriminate H];
    vget s V; apply (expr_view _ _ _ _ _ _ V _ _ _ _ _ eq_refl) in E; clear V; destruct E as [-> V]
  end.
Ltac vemit H V b' E :=
  lazymatch type of H with
  | cbind (emit ?f ?s) _ = COk _ =>
    let x := fresh "st" in let E0 := fresh "E" in
    destruct (emit f s) as [x| |] eqn:E0; cbn [cbind] in H; [|discriminate H|discriminate H];
    vget s V; apply (emit_view _ _ _ _ _ _ V) in E0; clear V; destruct E0 as (b' & E & V)
  | emit ?f ?s = COk _ => vget s V; apply (emit_view _ _ _ _ _ _ V) in H; clear V; destruct H as (b' & E & V)
  end.
Ltac vtarget H V b' E :=
  lazymatch type of H with
  | (let (_, _) := new_target ?s in _) = COk _ =>
    let x := fresh "st" in let t := fresh "t" in let E0 := fresh "E" in
    destruct (new_target s) as [x t] eqn:E0; vget s V; apply (target_view _ _ _ _ _ _ V) in E0; clear V; destruct E0 as [-> V];
    let T := type of V in lazymatch T with view _ _ ?b0 _ _ _ => remember b0 as b' eqn:E in V end
  end.

(* ---- chains of steps ---- *)
Lemma real_pre C B L d b b1 : stepd d b b1 -> realises C B L b1 -> realises C B L b.
Proof. intros S. apply realises_ext, (sd_ext _ _ _ S). Qed.
Lemma lok_mono B L lo lo' b : lok B L lo b -> (lo <= lo')%nat -> lok B L lo' b.
Proof. intros K H t j T N. apply (K t j); [lia|exact N]. Qed.
Lemma lok_pre B L lo d b b1 : stepd d b b1 -> lok B L lo b1 -> (forall t, d = Some t -> (t < lo)%nat) -> lok B L lo b.
Proof. intros S K D. eapply lok_back; [exact K|apply (sd_keeps _ _ _ S)|lia|exact D]. Qed.
Lemma off_range b t z : off_of b t = Some z -> (t < length (b_jumps b))%nat.
Proof. unfold off_of. intros H. apply nth_error_Some. destruct (nth_error (b_jumps b) t); [discriminate|discriminate H]. Qed.
Lemma off_pre d b b1 t z : stepd d b b1 -> off_of b t = Some z -> Some t <> d -> off_of b1 t = Some z.
Proof. intros S O N. rewrite (sd_keeps _ _ _ S); auto. eapply off_range; eauto. Qed.
Lemma stepd_snoc d0 d a b c : stepd d0 a b -> stepd d b c -> (forall t, d = Some t -> d0 = Some t \/ (length (b_jumps a) <= t)%nat) -> stepd d0 a c.
Proof.
  intros [X1 X2 X3] [Y1 Y2 Y3] D. constructor; [eapply ext_trans; eauto|exact Y2|].
  intros t N LT. pose proof (ex_len _ _ X1). rewrite Y3, X3; auto; [|lia].
  intros E. destruct (D t (eq_sym E)); [congruence|lia].
Qed.
Lemma step_target2 b b1 : b1 = fst (add_target b) -> inv b ->
  stepd None b b1 /\ size b1 = size b /\ b_ops b1 = b_ops b /\ length (b_jumps b1) = S (length (b_jumps b)).
Proof.
  intros -> I. split; [apply (step_target b I)|]. split; [reflexivity|]. split; [reflexivity|].
  unfold add_target. cbn [fst set_jumps b_jumps]. rewrite app_length. cbn. lia.
Qed.
Lemma step_len d b b1 : stepd d b b1 -> (length (b_jumps b) <= length (b_jumps b1))%nat.
Proof. intros S. apply (ex_len _ _ (sd_ext _ _ _ S)). Qed.
Lemma step_size d b b1 : stepd d b b1 -> size b <= size b1.
Proof. intros S. apply (ex_size _ _ (sd_ext _ _ _ S)). Qed.
Ltac reals := repeat match goal with
  | S : stepd _ ?x ?y, R : realises ?C ?B ?L ?y |- _ =>
    lazymatch goal with _ : realises C B L x |- _ => fail | _ => pose proof (real_pre _ _ _ _ _ _ S R) end end.
Ltac notd := first [discriminate | congruence | let E := fresh in intros E; injection E; intros; lia].
Ltac offs := repeat match goal with
  | S : stepd ?d ?x ?y, O : off_of ?x ?t = Some ?z |- _ =>
    lazymatch goal with _ : off_of y t = _ |- _ => fail | _ =>
      let N := fresh in assert (N : Some t <> d) by notd; pose proof (off_pre _ _ _ _ _ S O N); clear N end end.
Ltac loks := repeat match goal with
  | S : stepd ?d ?x ?y, K : lok ?B ?L ?lo ?y |- _ =>
    lazymatch goal with _ : lok B L lo x |- _ => fail | _ =>
      let N := fresh in assert (N : forall t, d = Some t -> (t < lo)%nat) by (let E := fresh in intros ? E; first [discriminate E|injection E; intros; lia]);
      pose proof (lok_pre _ _ _ _ _ _ S K N); clear N end end.
Ltac sizes := repeat match goal with
  | S : stepd ?d ?x ?y |- _ => lazymatch goal with _ : size x <= size y |- _ => fail | _ => pose proof (step_size _ _ _ S) end end.
Ltac lens := repeat match goal with
  | S : stepd ?d ?x ?y |- _ => lazymatch goal with _ : (length (b_jumps x) <= length (b_jumps y))%nat |- _ => fail | _ => pose proof (step_len _ _ _ S) end end.
(* from [S0 : stepd d0 a x], the steps from a *)
Ltac steps d0 a := repeat match goal with
  | S : stepd d0 a ?x, S1 : stepd ?d ?x ?y |- _ =>
    lazymatch goal with _ : stepd d0 a y |- _ => fail | _ =>
      let N := fresh in assert (N : forall t, d = Some t -> d0 = Some t \/ (length (b_jumps a) <= t)%nat)
        by (let E := fresh in intros ? E; first [discriminate E|injection E; intros; right; lia|left; congruence]);
      pose proof (stepd_snoc _ _ _ _ _ S S1 N); clear N end end.

(* ---- what compiling a statement achieves ---- *)
Definition ended (o : option last_instr) (b b1 : bcode) : Prop :=
  match o with
  | None => b_ops b1 = b_ops b
  | Some LJump => last_op_is O_RelativeJump b1 = true
  | Some LReturn => last_op_is O_RelativeJump b1 = false
  | Some LOther => ends_plain b1
  end.
Lemma ended_ops o b b1 b2 : b_ops b2 = b_ops b1 -> ended o b b1 -> ended o b b2.
Proof. unfold ended, ends_plain, last_op_is. destruct o as [[]|]; now intros ->. Qed.
Lemma ended_seq o o1 b b1 b2 : ended o b b1 -> ended o1 b1 b2 -> ended (match o1 with Some x => Some x | None => o end) b b2.
Proof. destruct o1 as [x|]; [auto|]. cbn [ended]. intros X Y. exact (ended_ops _ _ _ _ Y X). Qed.
Record emitted (ret : opcode) (w : place) (s : stmt) (brk cont : list nat) (b b1 : bcode) : Prop := {
  em_step : stepd None b b1;
  em_ctx : ctx_ok (b_ops b1);
  em_tail : ended (tail w s) b b1;
  em_weighs : weighs s -> size b < size b1;
  em_res : brk = [] -> cont = [] -> resolved b -> resolved b1;
  em_shape : forall C B L cl dl, size b1 < 32768 -> realises C B L b1 -> lok B L (length (b_jumps b)) b1 ->
    shape C ret s (B + size b) (B + size b1) (L (hd O brk)) (L (hd O cont)) cl dl
}.

Lemma resolved_appended b e P b1 : inv b -> appended b e P b1 -> resolved b -> resolved b1.
Proof.
  intros I A R t j ref k t0 n N IR J. rewrite (ap_jumps _ _ _ _ A) in N. rewrite (ap_all _ _ _ _ A) in J.
  destruct (wl_jump _ _ _ _ _ _ _ (inv_wl _ I) (ex_intro _ j (conj N IR)) J) as [J0 _]. eapply R; eauto.
Qed.

(* an expression as a statement *)
Lemma emit_exp ret w e brk cont b b0 b1 : inv b -> ctx_ok (b_ops b) -> (exists P, pops e P) ->
  append_bytecode b e = COk b0 -> push_opcode O_PopOne b0 = COk b1 -> emitted ret w (Exp e) brk cont b b1.
Proof.
  intros I CX (P & PP) E0 E1. pose proof PP as (PL & W & H). destruct (H b CX) as (b1' & E & A & CO & LO).
  rewrite E0 in E. cbn [cbind] in E. rewrite E1 in E. injection E as <-.
  assert (AP : appended b e P b1) by (eapply appended_push; eauto).
  constructor.
  - eapply step_code; eauto.
  - exact CO.
  - exact LO.
  - intros (P' & PP' & NE). destruct PP' as (_ & _ & H'). destruct (H' b CX) as (b2 & E2 & A2 & _). rewrite E0 in E2. cbn [cbind] in E2.
    rewrite E1 in E2. injection E2 as <-. unfold size. rewrite A2, lenZ_app. destruct P'; [now destruct NE|]. unfold lenZ. cbn [length]. lia.
  - intros _ _. eapply resolved_appended; eauto.
  - intros C B L cl dl _ R _. cbn [shape]. exists P. split; [exact PP|]. split; [eapply placed_code; eauto|].
    rewrite (ap_size _ _ _ _ AP). lia.
Qed.
(* return *)
Lemma emit_ret ret w e brk cont b b0 b1 : inv b -> ctx_ok (b_ops b) -> (exists P, returns ret e P) ->
  match e with Some e => append_bytecode b e | None => push_opcode O_LiteralZero b end = COk b0 ->
  push_opcode ret b0 = COk b1 -> emitted ret w (Ret e) brk cont b b1.
Proof.
  intros I CX (P & PP) E0 E1. pose proof PP as (W & H). destruct (H b CX) as (b1' & E & A & NE & CO & LO).
  rewrite E0 in E. cbn [cbind] in E. rewrite E1 in E. injection E as <-.
  assert (AP : appended b (match e with Some e => e | None => empty_bc end) P b1).
  { destruct e as [e|].
    - destruct W as [PL W]. eapply appended_push; eauto.
    - apply appended_data. rewrite <- A. pose proof (push_frame _ _ _ E0) as F0. pose proof (push_frame _ _ _ E1) as F1.
      rewrite F1 at 1. rewrite F0. reflexivity. }
  constructor.
  - eapply step_code; eauto.
  - exact CO.
  - cbn [tail]. exact LO.
  - intros _. rewrite (ap_size _ _ _ _ AP). destruct P; [now destruct NE|]. unfold lenZ. cbn [length]. lia.
  - intros _ _. eapply resolved_appended; eauto.
  - intros C B L cl dl _ R _. cbn [shape]. exists P. split; [exact PP|]. eapply placed_code; eauto.
Qed.

(* composing *)
Lemma emitted_seq ret w a c brk cont b b1 b2 :
  emitted ret w a brk cont b b1 -> emitted ret w c brk cont b1 b2 -> emitted ret w (Seq a c) brk cont b b2.
Proof.
  intros X Y. destruct X as [X1 X2 X3 X4 X5 X6]. destruct Y as [Y1 Y2 Y3 Y4 Y5 Y6].
  pose proof (ex_size _ _ (sd_ext _ _ _ X1)). pose proof (ex_size _ _ (sd_ext _ _ _ Y1)).
  constructor; auto.
  - eapply stepd_trans; eauto.
  - cbn [tail]. exact (ended_seq _ _ _ _ _ X3 Y3).
  - cbn [weighs]. intros [HW|HW]; [apply X4 in HW|apply Y4 in HW]; lia.
  - intros C B L cl dl SZ R K. cbn [shape]. exists (B + size b1). split.
    + apply X6; [lia|eapply realises_ext; [apply (sd_ext _ _ _ Y1)|exact R]|].
      eapply lok_back; [exact K|apply (sd_keeps _ _ _ Y1)|lia|discriminate].
    + apply Y6; [exact SZ|exact R|]. intros t j T N. apply (K t j); [|exact N]. pose proof (ex_len _ _ (sd_ext _ _ _ X1)). lia.
Qed.
Lemma emitted_braces ret w s brk cont b b1 : emitted ret InBlock s brk cont b b1 -> emitted ret w (Braces s) brk cont b b1.
Proof. intros [X1 X2 X3 X4 X5 X6]. constructor; auto. Qed.
Lemma emitted_skip ret w brk cont b : inv b -> ctx_ok (b_ops b) -> emitted ret w Skip brk cont b b.
Proof.
  intros I CX. constructor; auto.
  - now apply stepd_refl.
  - reflexivity.
  - intros [].
  - intros. cbn [shape]. reflexivity.
Qed.

(* ---- the single statements ---- *)
Definition not_else (r : list tok) : Prop := match r with T_else :: _ => False | _ => True end.
Definition stmt_fn := opcode -> tok -> pst -> cres pst.
(* the body of a control statement *)
Definition body_by (ps : stmt_fn) (ret : opcode) (s : stmt) : Prop :=
  forall st st1 r b brk cont base, (closed_if s = true \/ not_else r) ->
    view st (tk s ++ r) b brk cont base -> inv b -> ctx_ok (b_ops b) -> ps ret T_semi st = COk st1 ->
    exists b1, view st1 r b1 brk cont base /\ emitted ret Body s brk cont b b1.
Ltac vbody H V BODY IV CX SIDE b' X :=
  lazymatch type of H with
  | cbind (?ps ?ret T_semi ?s) _ = COk _ =>
    let x := fresh "st" in let E0 := fresh "E" in
    destruct (ps ret T_semi s) as [x| |] eqn:E0; cbn [cbind] in H; [|discriminate H|discriminate H];
    vget s V; destruct (BODY _ _ _ _ _ _ _ SIDE V IV CX E0) as (b' & W & X); clear V E0; rename W into V
  end.
(* a block has the size of its code *)
Lemma size_of b b1 : b_all b1 = b_all b -> size b1 = size b.
Proof. unfold size. now intros ->. Qed.
Lemma app_jumps b e b1 : plain e -> append_bytecode b e = COk b1 -> b_jumps b1 = b_jumps b.
Proof. intros PL E. rewrite (append_frame _ _ _ E). cbn [set_code b_jumps]. now apply merge_jumps. Qed.
Lemma branch_plain c : (exists Q k, branches c Q k) -> plain c.
Proof. intros (Q & k & PL & _). exact PL. Qed.
Lemma last_ops o b b1 : b_ops b1 = b_ops b -> last_op_is o b1 = last_op_is o b.
Proof. unfold last_op_is. now intros ->. Qed.

Section Single.
Variables (ps : stmt_fn) (ret : opcode) (w : place).

Lemma emit_if c s : body_by ps ret s -> (exists Q k, branches c Q k) ->
  forall st st1 r b brk cont base, not_else r ->
    view st (T_lparen :: T_expr c :: T_rparen :: tk s ++ r) b brk cont base -> inv b -> ctx_ok (b_ops b) ->
    parse_if ps ret st = COk st1 ->
    exists b1, view st1 r b1 brk cont base /\ emitted ret w (If c s) brk cont b b1.
Proof.
  intros BODY BR st st1 r b brk cont base NE V I0 CX H. unfold parse_if in H.
  vexpect H V. vexpr H V. vemit H V b1 E1. vtarget H V b2 E2. vemit H V b3 E3.
  rewrite (app_jumps _ _ _ (branch_plain _ BR) E1) in E3.
  destruct (step_cond b c b1 b2 (length (b_jumps b)) b3 I0 CX BR E1 (or_intror (conj E2 eq_refl)) E3)
    as (S3 & SZ3 & CO3 & LO3 & LN3 & SH3).
  assert (LT : length (b_jumps b3) = S (length (b_jumps b))).
  { rewrite LN3, E2. unfold add_target. cbn [fst set_jumps b_jumps]. rewrite app_length, (app_jumps _ _ _ (branch_plain _ BR) E1). cbn. lia. }
  vbody H V BODY (sd_inv _ _ _ S3) CO3 (or_intror (A := closed_if s = true) NE) b4 X. destruct X as [X1 X2 X3 X4 X5 X6].
  rewrite (app_jumps _ _ _ (branch_plain _ BR) E1) in H.
  match type of H with context [p_toks ?x] => assert (TT : p_toks x = r) by apply V; rewrite TT in H;
    assert (H' : (y <~ emit (set_target (length (b_jumps b))) x;; emit resolve_jumps y) = COk st1) end.
  { destruct r as [|[] r]; try exact H. destruct NE. }
  clear H. vemit H' V b5 E5. vemit H' V b6 E6.
  destruct (step_set _ _ _ (sd_inv _ _ _ X1) E5) as (S5 & OF5 & AL5 & OP5 & LN5 & T5).
  destruct (step_resolve _ _ (sd_inv _ _ _ S5) E6) as (S6 & RS6 & OP6 & SZ6 & J6).
  exists b6. split; [exact V|]. apply size_of in AL5 as SZ5.
  lens. steps (@None nat) b. sizes. constructor; auto.
  - rewrite OP6, OP5. exact X2.
  - cbn [tail]. eapply ended_ops; [exact OP6|]. eapply ended_ops; [exact OP5|].
    exact (ended_seq (Some LOther) _ b _ _ LO3 X3).
  - intros _. lia.
  - intros C B L cl dl SZ R K. cbn [shape]. reals. offs. pose proof (lok_mono _ _ _ (length (b_jumps b3)) _ K ltac:(lia)) as K3. loks.
    assert (LF : L (length (b_jumps b)) = B + size b6) by (rewrite SZ6, SZ5; eapply lok_off; [exact K|lia|eassumption]).
    exists (B + size b3). split; [rewrite <- LF; auto|]. rewrite SZ6, SZ5. apply X6; auto. lia.
Qed.

Lemma emit_ifelse c a s : body_by ps ret a -> body_by ps ret s -> (exists Q k, branches c Q k) -> closed_if a = true ->
  forall st st1 r b brk cont base, (closed_if s = true \/ not_else r) ->
    view st (T_lparen :: T_expr c :: T_rparen :: tk a ++ T_else :: tk s ++ r) b brk cont base -> inv b -> ctx_ok (b_ops b) ->
    parse_if ps ret st = COk st1 ->
    exists b1, view st1 r b1 brk cont base /\ emitted ret w (IfElse c a s) brk cont b b1.
Proof.
  intros BODYA BODY BR CLA st st1 r b brk cont base NE V I0 CX H. unfold parse_if in H.
  vexpect H V. vexpr H V. vemit H V b1 E1. vtarget H V b2 E2. vemit H V b3 E3.
  rewrite (app_jumps _ _ _ (branch_plain _ BR) E1) in E3.
  destruct (step_cond b c b1 b2 (length (b_jumps b)) b3 I0 CX BR E1 (or_intror (conj E2 eq_refl)) E3)
    as (S3 & SZ3 & CO3 & LO3 & LN3 & SH3).
  assert (LT : length (b_jumps b3) = S (length (b_jumps b))).
  { rewrite LN3, E2. unfold add_target. cbn [fst set_jumps b_jumps]. rewrite app_length, (app_jumps _ _ _ (branch_plain _ BR) E1). cbn. lia. }
  vbody H V BODYA (sd_inv _ _ _ S3) CO3 (or_introl (B := not_else (T_else :: tk s ++ r)) CLA) b4 X. destruct X as [X1 X2 X3 X4 X5 X6].
  rewrite (app_jumps _ _ _ (branch_plain _ BR) E1) in H.
  match type of H with context [p_toks ?x] => assert (TT : p_toks x = T_else :: tk s ++ r) by apply V; rewrite TT in H end.
  match type of H with context [new_target ?y] => destruct (new_target y) as [stx t5] eqn:E5; vget y V end.
  apply (target_view _ _ _ _ _ _ V) in E5 as [T5 V5]. clear V. rename V5 into V. remember (fst (add_target b4)) as b5 eqn:E5 in V.
  destruct (step_target2 _ _ E5 (sd_inv _ _ _ X1)) as (S5 & SZ5 & OP5 & LN5).
  match type of H with cbind ?e _ = _ => destruct e as [sty| |] eqn:H'; cbn [cbind] in H; [|discriminate H|discriminate H] end.
  vemit H' V b6 E6. destruct (step_jump _ _ _ (sd_inv _ _ _ S5) E6) as (S6 & SZ6 & OP6 & LN6 & T6 & JP6).
  vemit H' V b7 E7. destruct (step_set _ _ _ (sd_inv _ _ _ S6) E7) as (S7 & OF7 & AL7 & OP7 & LN7 & T7).
  assert (CX7 : ctx_ok (b_ops b7)) by (rewrite OP7, OP6; reflexivity).
  vbody H' V BODY (sd_inv _ _ _ S7) CX7 NE b8 Y. destruct Y as [Y1 Y2 Y3 Y4 Y5 Y6].
  vemit H' V b9 E9. destruct (step_set _ _ _ (sd_inv _ _ _ Y1) E9) as (S9 & OF9 & AL9 & OP9 & LN9 & T9).
  vemit H V b10 E10. destruct (step_resolve _ _ (sd_inv _ _ _ S9) E10) as (S10 & RS10 & OP10 & SZ10 & J10).
  exists b10. split; [exact V|]. apply size_of in AL7 as SZ7. apply size_of in AL9 as SZ9.
  lens. steps (@None nat) b. sizes. constructor; auto.
  - rewrite OP10, OP9. exact Y2.
  - cbn [tail]. eapply ended_ops; [exact OP10|]. eapply ended_ops; [exact OP9|].
    refine (ended_seq (Some LJump) _ b _ _ _ Y3). cbn [ended]. unfold last_op_is. rewrite OP7, OP6. reflexivity.
  - intros _. lia.
  - intros C B L cl dl SZ R K. cbn [shape]. reals. offs.
    pose proof (lok_mono _ _ _ (length (b_jumps b3)) _ K ltac:(lia)) as K3.
    pose proof (lok_mono _ _ _ (length (b_jumps b7)) _ K ltac:(lia)) as K7. loks.
    assert (LF : L (length (b_jumps b)) = B + size b4 + 3) by (replace (B + size b4 + 3) with (B + size b6) by lia; eapply lok_off; [exact K|lia|eassumption]).
    assert (LP : L t5 = B + size b10) by (rewrite SZ10, SZ9; eapply lok_off; [exact K|lia|eassumption]).
    exists (B + size b3), (B + size b4). split; [rewrite <- LF; auto|]. split; [|split].
    + apply X6; auto; [lia|]. pose proof (stepd_refl (Some (length (b_jumps b))) _ (sd_inv _ _ _ X1)) as S44.
      steps (Some (length (b_jumps b))) b4. eapply lok_pre; [|exact K3|]; [eassumption|intros t E; injection E as <-; lia].
    + rewrite <- LP, <- SZ5. auto.
    + replace (B + size b4 + 3) with (B + size b7) by lia. rewrite SZ10, SZ9. apply Y6; auto. lia.
Qed.

Lemma emit_while c s : body_by ps ret s -> (exists Q k, branches c Q k) ->
  forall st st1 r b brk cont base, (closed_if s = true \/ not_else r) ->
    view st (T_lparen :: T_expr c :: T_rparen :: tk s ++ r) b brk cont base -> inv b -> ctx_ok (b_ops b) ->
    parse_while ps ret st = COk st1 ->
    exists b1, view st1 r b1 brk cont base /\ emitted ret w (While c s) brk cont b b1.
Proof.
  intros BODY BR st st1 r b brk cont base NE V I0 CX H. unfold parse_while in H.
  vexpect H V. vexpr H V. vtarget H V b1 E1. destruct (step_target2 _ _ E1 I0) as (S1 & SZ1 & OP1 & LN1).
  vemit H V b2 E2. destruct (step_set _ _ _ (sd_inv _ _ _ S1) E2) as (S2 & OF2 & AL2 & OP2 & LN2 & T2).
  assert (CX2 : ctx_ok (b_ops b2)) by (rewrite OP2, OP1; exact CX).
  vemit H V b3 E3. vtarget H V b4 E4. vemit H V b5 E5.
  rewrite (app_jumps _ _ _ (branch_plain _ BR) E3) in *.
  destruct (step_cond b2 c b3 b4 (length (b_jumps b2)) b5 (sd_inv _ _ _ S2) CX2 BR E3 (or_intror (conj E4 eq_refl)) E5)
    as (S5 & SZ5 & CO5 & LO5 & LN5 & SH5).
  assert (LT : length (b_jumps b5) = S (length (b_jumps b2))).
  { rewrite LN5, E4. unfold add_target. cbn [fst set_jumps b_jumps]. rewrite app_length, (app_jumps _ _ _ (branch_plain _ BR) E3). cbn. lia. }
  vbody H V BODY (sd_inv _ _ _ S5) CO5 NE b6 X. destruct X as [X1 X2 X3 X4 X5 X6]. cbn [hd] in X6.
  vemit H V b7 E7. destruct (step_jump _ _ _ (sd_inv _ _ _ X1) E7) as (S7 & SZ7 & OP7 & LN7 & T7 & JP7).
  vemit H V b8 E8. destruct (step_set _ _ _ (sd_inv _ _ _ S7) E8) as (S8 & OF8 & AL8 & OP8 & LN8 & T8).
  vemit H V b9 E9. destruct (step_resolve _ _ (sd_inv _ _ _ S8) E9) as (S9 & RS9 & OP9 & SZ9 & J9).
  exists b9. split; [exact V|]. apply size_of in AL2 as SZ2. apply size_of in AL8 as SZ8.
  lens. steps (@None nat) b. sizes. constructor; auto.
  - rewrite OP9, OP8, OP7. reflexivity.
  - cbn [tail ended]; unfold last_op_is; rewrite OP9, OP8, OP7; reflexivity.
  - intros _. lia.
  - intros C B L cl dl SZ R K. cbn [shape]. reals. offs.
    assert (LC : L (length (b_jumps b)) = B + size b) by (rewrite <- SZ1; eapply lok_off; [exact K|lia|eassumption]).
    assert (LB : L (length (b_jumps b2)) = B + size b9) by (rewrite SZ9, SZ8; eapply lok_off; [exact K|lia|eassumption]).
    exists (B + size b5), (B + size b6). split; [|split].
    + rewrite <- LB. replace (size b) with (size b2) by lia. auto.
    + rewrite <- LB, <- LC. apply X6; auto; [lia|]. pose proof (stepd_refl (Some (length (b_jumps b2))) _ (sd_inv _ _ _ X1)) as S66.
      steps (Some (length (b_jumps b2))) b6.
      eapply lok_pre; [|apply (lok_mono _ _ _ (length (b_jumps b5)) _ K); lia|]; [eassumption|intros t E; injection E as <-; lia].
    + rewrite <- LC. auto.
Qed.

Lemma emit_do c s : body_by ps ret s -> (exists Q k, branches c Q k) ->
  forall st st1 r b brk cont base,
    view st (tk s ++ T_while :: T_lparen :: T_expr c :: T_rparen :: T_semi :: r) b brk cont base -> inv b -> ctx_ok (b_ops b) ->
    parse_do ps ret st = COk st1 ->
    exists b1, view st1 r b1 brk cont base /\ emitted ret w (Do s c) brk cont b b1.
Proof.
  intros BODY BR st st1 r b brk cont base V I0 CX H. unfold parse_do in H.
  vtarget H V b1 E1. destruct (step_target2 _ _ E1 I0) as (S1 & SZ1 & OP1 & LN1).
  vtarget H V b2 E2. destruct (step_target2 _ _ E2 (sd_inv _ _ _ S1)) as (S2 & SZ2 & OP2 & LN2).
  vtarget H V b3 E3. destruct (step_target2 _ _ E3 (sd_inv _ _ _ S2)) as (S3 & SZ3 & OP3 & LN3).
  vemit H V b4 E4. destruct (step_set _ _ _ (sd_inv _ _ _ S3) E4) as (S4 & OF4 & AL4 & OP4 & LN4 & T4).
  assert (CX4 : ctx_ok (b_ops b4)) by (rewrite OP4, OP3, OP2, OP1; exact CX).
  assert (NE : closed_if s = true \/ not_else (T_while :: T_lparen :: T_expr c :: T_rparen :: T_semi :: r)) by (right; exact I).
  vbody H V BODY (sd_inv _ _ _ S4) CX4 NE b5 X. destruct X as [X1 X2 X3 X4 X5 X6]. cbn [hd] in X6.
  vemit H V b6 E6. destruct (step_set _ _ _ (sd_inv _ _ _ X1) E6) as (S6 & OF6 & AL6 & OP6 & LN6 & T6).
  vexpect H V. vexpect H V. vexpr H V. vexpect H V.
  vemit H V b7 E7. destruct (step_set _ _ _ (sd_inv _ _ _ S6) E7) as (S7 & OF7 & AL7 & OP7 & LN7 & T7).
  vemit H V b8 E8. vemit H V b9 E9.
  assert (CX7 : ctx_ok (b_ops b7)) by (rewrite OP7, OP6; exact X2).
  lens.
  assert (T9 : (length (b_jumps b1) < length (b_jumps b7))%nat) by lia.
  destruct (step_cond b7 c b8 b8 (length (b_jumps b1)) b9 (sd_inv _ _ _ S7) CX7 BR E8 (or_introl (conj eq_refl T9)) E9)
    as (S9 & SZ9 & CO9 & LO9 & LN9 & SH9).
  vemit H V b10 E10. destruct (step_jump _ _ _ (sd_inv _ _ _ S9) E10) as (S10 & SZ10 & OP10 & LN10 & T10 & JP10).
  vemit H V b11 E11. destruct (step_set _ _ _ (sd_inv _ _ _ S10) E11) as (S11 & OF11 & AL11 & OP11 & LN11 & T11).
  vemit H V b12 E12. destruct (step_resolve _ _ (sd_inv _ _ _ S11) E12) as (S12 & RS12 & OP12 & SZ12 & J12).
  exists b12. split; [exact V|]. apply size_of in AL4 as SZ4. apply size_of in AL6 as SZ6. apply size_of in AL7 as SZ7. apply size_of in AL11 as SZ11.
  lens. steps (@None nat) b. sizes. constructor; auto.
  - rewrite OP12, OP11, OP10. reflexivity.
  - cbn [tail ended]; unfold last_op_is; rewrite OP12, OP11, OP10; reflexivity.
  - intros _. lia.
  - intros C B L cl dl SZ R K. cbn [shape]. reals. offs.
    assert (LC : L (length (b_jumps b)) = B + size b5) by (rewrite <- SZ6; eapply lok_off; [exact K|lia|eassumption]).
    assert (LB : L (length (b_jumps b1)) = B + size b12) by (rewrite SZ12, SZ11; eapply lok_off; [exact K|lia|eassumption]).
    assert (LP : L (length (b_jumps b2)) = B + size b) by (replace (size b) with (size b3) by lia; eapply lok_off; [exact K|lia|eassumption]).
    exists (B + size b5), (B + size b9). split; [|split].
    + specialize (X6 C B L cl dl). rewrite LB, LC in X6. replace (size b) with (size b4) by lia. apply X6; auto; [lia|].
      assert (K5 : lok B L (length (b_jumps b4)) b12) by (apply (lok_mono _ _ _ _ _ K); lia). loks. assumption.
    + rewrite <- LB. replace (size b5) with (size b7) by lia. auto.
    + rewrite <- LP. auto.
Qed.

(* ---- for ---- *)
Lemma clause_appended e P e1 b b1 : clause e P -> push_opcode O_PopOne e = COk e1 -> ctx_ok (b_ops b) ->
  append_bytecode b e1 = COk b1 -> appended b e P b1 /\ ctx_ok (b_ops b1).
Proof.
  intros (PL & W & e2 & PU & H) E1 CX E. rewrite PU in E1. injection E1 as ->. destruct (H b CX) as (b2 & E2 & A & CO).
  rewrite E in E2. injection E2 as <-. split; [|exact CO]. pose proof (push_frame _ _ _ PU) as F. pose proof (append_frame _ _ _ E) as FB.
  constructor; auto.
  - rewrite FB. cbn [set_code b_jumps]. apply merge_jumps. destruct PL as [J G]. rewrite F. split; cbn [set_code b_jumps b_gotos]; auto.
  - rewrite FB. rewrite F. exact (intervals_merge b e).
  - rewrite FB. cbn [set_code b_gotos]. rewrite F. apply (merge_gotos b e PL).
  - intros fn h r. rewrite (refers_frame _ _ _ _ _ FB), refers_merge, (refers_frame _ _ _ _ _ F). reflexivity.
Qed.
Lemma setup_ok : forall i n each st u r b brk cont base, Forall (fun e => exists P, clause e P) i ->
  view st (comma i ++ T_semi :: r) b brk cont base -> inv b -> ctx_ok (b_ops b) -> parse_setup n each st = COk u ->
  exists st' b', u = SetupPlain st' /\ view st' r b' brk cont base /\ stepd None b b' /\ ctx_ok (b_ops b') /\ b_jumps b' = b_jumps b /\
    forall C B L, realises C B L b' -> clauses_at C i (B + size b) (B + size b').
Proof.
  induction i as [|e i IH]; intros n each st u r b brk cont base G V I0 CX H.
  - destruct n; [discriminate|]. cbn [parse_setup comma app] in *. assert (TT : p_toks st = T_semi :: r) by apply V. rewrite TT in H.
    injection H as <-. exists (set_toks r st), b. split; [reflexivity|]. split; [eapply view_toks; eauto|]. split; [now apply stepd_refl|].
    split; [exact CX|]. split; [reflexivity|]. intros. reflexivity.
  - destruct n; [discriminate|]. cbn [parse_setup] in H. apply Forall_cons_iff in G as [(P & G1) G].
    assert (TT : exists x more, p_toks st = T_expr e :: x :: more /\
        (i = [] /\ x = T_semi /\ more = r \/ i <> [] /\ x = T_comma /\ more = comma i ++ T_semi :: r)).
    { assert (TT : p_toks st = comma (e :: i) ++ T_semi :: r) by apply V. rewrite TT. destruct i as [|e2 i].
      - exists T_semi, r. split; [reflexivity|]. left. auto.
      - exists T_comma, (comma (e2 :: i) ++ T_semi :: r). split; [reflexivity|]. right. split; [discriminate|auto]. }
    destruct TT as (x & more & TT & XX). unfold parse_expr in H. rewrite TT in H.
    assert (IT : is_terminator x = true) by (destruct XX as [(_ & -> & _)|(_ & -> & _)]; reflexivity). rewrite IT in H. cbn [cbind] in H.
    match type of H with context [parse_setup n ?each _] => set (each' := each) in H end. clearbody each'.
    destruct (push_opcode O_PopOne e) as [e1| |] eqn:PU; cbn [cbind] in H; try discriminate H.
    vemit H V b1 E1. destruct (clause_appended _ _ _ _ _ G1 PU CX E1) as [AP CX1].
    pose proof (step_code _ _ _ _ I0 AP) as S1. pose proof (ap_size _ _ _ _ AP) as SZ1.
    destruct XX as [(-> & -> & ->)|(NI & -> & ->)].
    + injection H as <-. exists st0, b1. split; [reflexivity|]. split; [exact V|]. split; [exact S1|]. split; [exact CX1|].
      split; [apply (ap_jumps _ _ _ _ AP)|]. intros C B L R. cbn [clauses_at]. exists P. split; [exact G1|].
      split; [eapply placed_code; eauto|lia].
    + destruct (IH _ _ _ _ _ _ _ _ _ G V (sd_inv _ _ _ S1) CX1 H) as (st' & b' & -> & V' & S' & CX' & J' & SH).
      exists st', b'. split; [reflexivity|]. split; [exact V'|]. split; [eapply stepd_trans; eauto|]. split; [exact CX'|].
      split; [rewrite J'; apply (ap_jumps _ _ _ _ AP)|]. intros C B L R. cbn [clauses_at]. exists P. split; [exact G1|]. split.
      * eapply placed_code; eauto. eapply real_pre; eauto.
      * replace (B + size b + lenZ P) with (B + size b1) by lia. eauto.
Qed.
Lemma post_ok : forall l n p0 st p1 st1 r b brk cont base,
  view st (comma l ++ T_rparen :: r) b brk cont base -> parse_post n p0 st = COk (p1, st1) ->
  post_block l p0 = COk p1 /\ view st1 r b brk cont base.
Proof.
  induction l as [|e l IH]; intros n p0 st p1 st1 r b brk cont base V H; (destruct n; [discriminate|]); cbn [parse_post] in H.
  - cbn [comma app] in V. assert (TT : p_toks st = T_rparen :: r) by apply V. rewrite TT in H. injection H as <- <-.
    split; [reflexivity|]. eapply view_toks; eauto.
  - assert (TT : exists x more, p_toks st = T_expr e :: x :: more /\
        (l = [] /\ x = T_rparen /\ more = r \/ l <> [] /\ x = T_comma /\ more = comma l ++ T_rparen :: r)).
    { assert (TT : p_toks st = comma (e :: l) ++ T_rparen :: r) by apply V. rewrite TT. destruct l as [|e2 l].
      - exists T_rparen, r. split; [reflexivity|]. left. auto.
      - exists T_comma, (comma (e2 :: l) ++ T_rparen :: r). split; [reflexivity|]. right. split; [discriminate|auto]. }
    destruct TT as (x & more & TT & XX). unfold parse_expr in H. rewrite TT in H.
    assert (IT : is_terminator x = true) by (destruct XX as [(_ & -> & _)|(_ & -> & _)]; reflexivity). rewrite IT in H. cbn [cbind] in H.
    cbn [post_block]. destruct (push_opcode O_PopOne e) as [e1| |]; cbn [cbind] in *; try discriminate H.
    destruct (append_bytecode p0 e1) as [p2| |]; cbn [cbind] in *; try discriminate H.
    apply (view_toks _ _ _ _ _ _) with (tk' := more) in V. destruct XX as [(-> & -> & ->)|(NI & -> & ->)].
    + injection H as <- <-. split; [reflexivity|exact V].
    + eapply IH; eauto.
Qed.
Lemma post_placed : forall l Ps p0 p1, Forall2 clause l Ps -> ctx_ok (b_ops p0) -> plain p0 -> sites_within p0 (b_all p0) ->
  post_block l p0 = COk p1 ->
  plain p1 /\ sites_within p1 (b_all p1) /\ b_all p1 = b_all p0 ++ concat Ps /\
  (forall i, i < size p0 -> (patched p1 i <-> patched p0 i)) /\ (forall fn h r, refers p0 fn h r -> refers p1 fn h r) /\
  (forall C p, placed C p (b_all p1) p1 -> clauses_at C l (p + size p0) (p + size p1)).
Proof.
  induction l as [|e l IH]; intros Ps p0 p1 F CX PL W H; inversion F; subst; cbn [post_block concat] in *.
  - injection H as <-. rewrite app_nil_r. split; [exact PL|]. split; [exact W|]. split; [reflexivity|]. split; [reflexivity|]. split; [auto|]. reflexivity.
  - rename y into P. rename l' into Ps. destruct (push_opcode O_PopOne e) as [e1| |] eqn:PU; cbn [cbind] in H; try discriminate H.
    destruct (append_bytecode p0 e1) as [p2| |] eqn:AB; cbn [cbind] in H; try discriminate H.
    destruct (clause_appended _ _ _ _ _ H2 PU CX AB) as [AP CX2]. pose proof (ap_size _ _ _ _ AP) as SZ.
    assert (PL2 : plain p2).
    { destruct PL as [J G]. split; [rewrite (ap_jumps _ _ _ _ AP); exact J|]. rewrite (append_frame _ _ _ AB). cbn [set_code b_gotos merge_spaces].
      rewrite G. pose proof (push_frame _ _ _ PU) as FE. rewrite FE. cbn [set_code b_gotos]. destruct H2 as ((_ & GE) & _). rewrite GE. reflexivity. }
    assert (W2 : sites_within p2 (b_all p2)).
    { rewrite (ap_all _ _ _ _ AP). eapply sites_join; [exact W|exact (ap_inside _ _ _ _ AP)| |exact (ap_refers _ _ _ _ AP)].
      exact (ap_sites _ _ _ _ AP). }
    pose proof (sites_patched _ _ W : patched_within p0 (size p0)) as PW.
    destruct (IH _ _ _ H4 CX2 PL2 W2 H) as (PL1 & W1 & A1 & Q1 & RF1 & SH). pose proof (lenZ_nonneg P).
    split; [exact PL1|]. split; [exact W1|]. split; [rewrite A1, (ap_all _ _ _ _ AP), <- app_assoc; reflexivity|]. split; [|split].
    + intros i LI. rewrite Q1 by lia. rewrite (ap_patch _ _ _ _ AP). split; [|auto]. intros [Q|Q]; [exact Q|].
      apply (ap_within _ _ _ _ AP) in Q. lia.
    + intros fn h r X. apply RF1, (ap_refers _ _ _ _ AP). auto.
    + intros C p PP. cbn [clauses_at]. exists P. split; [exact H2|]. split.
      * destruct PP as [PP PR]. split; cycle 1.
        { intros fn h r X. replace (p + size p0 + r) with (p + (size p0 + r)) by lia.
          assert (SB : forall x, 0 <= x -> site_byte P fn h r x = site_byte (b_all p1) fn h (size p0 + r) x).
          { intros x X0. apply site_byte_eq; [exact X0|]. intros y -> Y0.
            pose proof (sites_refers _ _ _ _ (ap_inside _ _ _ _ AP) X).
            rewrite A1, (ap_all _ _ _ _ AP), <- app_assoc, <- Z.add_assoc. change (size p0) with (lenZ (b_all p0)).
            rewrite nthZ_app2 by lia. rewrite nthZ_app1 by lia. reflexivity. }
          rewrite !SB by lia. apply PR, RF1, (ap_refers _ _ _ _ AP). right.
          now replace (size p0 + r - size p0) with r by lia. }
        intros i LI NP. specialize (PP (size p0 + i)). rewrite A1, (ap_all _ _ _ _ AP) in PP.
        pose proof (lenZ_nonneg (b_all p0)) as NN. pose proof (lenZ_nonneg (concat Ps)).
        rewrite <- app_assoc in PP.
        assert (NT : nthZ (b_all p0 ++ P ++ concat Ps) (size p0 + i) = nthZ P i).
        { change (size p0) with (lenZ (b_all p0)). rewrite nthZ_app2, nthZ_app1 by lia. reflexivity. }
        rewrite NT in PP. replace (p + size p0 + i) with (p + (size p0 + i)) by lia. apply PP.
        -- rewrite !lenZ_app. unfold size. lia.
        -- intros Q. apply Q1 in Q; [|lia]. apply (ap_patch _ _ _ _ AP) in Q as [Q|Q]; [apply PW in Q; lia|].
           apply NP. now replace (size p0 + i - size p0) with i in Q by lia.
      * replace (p + size p0 + lenZ P) with (p + size p2) by lia. auto.
Qed.

Lemma emit_for i c po s : body_by ps ret s -> Forall (fun e => exists P, clause e P) i ->
  match c with Some c => exists Q k, branches c Q k | None => True end -> (exists Ps, clauses po Ps) ->
  forall st st1 r b brk cont base, (closed_if s = true \/ not_else r) ->
    view st (T_lparen :: comma i ++ T_semi :: match c with Some c => [T_expr c] | None => [] end ++ T_semi :: comma po ++ T_rparen :: tk s ++ r)
      b brk cont base -> inv b -> ctx_ok (b_ops b) ->
    parse_for ps ret st = COk st1 ->
    exists b1, view st1 r b1 brk cont base /\ emitted ret w (For i c po s) brk cont b b1.
Proof.
  intros BODY GI GC (Ps & FP & pb & PB & AB) st st1 r b brk cont base NE V I0 CX H. unfold parse_for in H.
  vexpect H V. vtarget H V b1 E1. destruct (step_target2 _ _ E1 I0) as (S1 & SZ1 & OP1 & LN1).
  vtarget H V b2 E2. destruct (step_target2 _ _ E2 (sd_inv _ _ _ S1)) as (S2 & SZ2 & OP2 & LN2).
  match type of H with cbind (parse_setup ?n ?e ?x) _ = _ => vget x V; destruct (parse_setup n e x) as [u| |] eqn:SU; cbn [cbind] in H; [|discriminate H|discriminate H] end.
  assert (CX2 : ctx_ok (b_ops b2)) by (rewrite OP2, OP1; exact CX).
  destruct (setup_ok _ _ _ _ _ _ _ _ _ _ GI V (sd_inv _ _ _ S2) CX2 SU) as (sta & b3 & -> & V3 & S3 & CX3 & J3 & SH3).
  clear V SU. rename V3 into V. assert (LN3 : length (b_jumps b3) = length (b_jumps b2)) by now rewrite J3.
  match type of H with cbind ?e _ = _ => destruct e as [[stb tp]| |] eqn:H'; cbn [cbind] in H; [|discriminate H|discriminate H] end.
  vtarget H' V b4 E4. destruct (step_target2 _ _ E4 (sd_inv _ _ _ S3)) as (S4 & SZ4 & OP4 & LN4).
  vemit H' V b5 E5. destruct (step_set _ _ _ (sd_inv _ _ _ S4) E5) as (S5 & OF5 & AL5 & OP5 & LN5 & T5).
  assert (CX5 : ctx_ok (b_ops b5)) by (rewrite OP5, OP4; exact CX3).
  match type of H' with cbind ?e _ = _ => destruct e as [stc| |] eqn:HC; cbn [cbind] in H'; [|discriminate H'|discriminate H'] end.
  apply size_of in AL5 as SZ5. lens.
  assert (COND : exists b6, view stc (comma po ++ T_rparen :: tk s ++ r) b6 (length (b_jumps b1) :: brk) (length (b_jumps b) :: cont) base /\
     stepd None b5 b6 /\ ctx_ok (b_ops b6) /\ length (b_jumps b6) = length (b_jumps b5) /\
     forall C B L, realises C B L b6 -> match c with Some c => cond_at C c (B + size b5) (B + size b6) (L (length (b_jumps b1))) | None => size b6 = size b5 end).
  { match type of HC with context [p_toks ?x] => destruct c as [c|]; cbn [app] in V;
      [assert (TT : p_toks x = T_expr c :: T_semi :: comma po ++ T_rparen :: tk s ++ r) by apply V
      |assert (TT : p_toks x = T_semi :: comma po ++ T_rparen :: tk s ++ r) by apply V]; rewrite TT in HC end.
    - vexpr HC V. vemit HC V b6 E6. vemit HC V b7 E7.
      assert (T7 : (length (b_jumps b1) < length (b_jumps b5))%nat) by lia.
      destruct (step_cond b5 c b6 b6 (length (b_jumps b1)) b7 (sd_inv _ _ _ S5) CX5 GC E6 (or_introl (conj eq_refl T7)) E7)
        as (S7 & SZ7 & CO7 & LO7 & LN7 & SH7).
      exists b7. split; [exact V|]. split; [exact S7|]. split; [exact CO7|]. split; [|exact SH7].
      rewrite LN7. now rewrite (app_jumps _ _ _ (branch_plain _ GC) E6).
    - injection HC as <-. exists b5. split; [eapply view_toks; exact V|]. split; [apply stepd_refl, (sd_inv _ _ _ S5)|]. auto. }
  clear V HC. destruct COND as (b6 & V & S6 & CX6 & LN6 & SH6).
  match type of H' with cbind (parse_post ?n ?e ?x) _ = _ => destruct (parse_post n e x) as [[pb' std]| |] eqn:PO; cbn [cbind] in H'; [|discriminate H'|discriminate H'] end.
  destruct (post_ok _ _ _ _ _ _ _ _ _ _ _ V PO) as [PB' V']. clear V PO. rename V' into V. rewrite PB in PB'. injection PB' as <-.
  vbody H' V BODY (sd_inv _ _ _ S6) CX6 NE b7 X. destruct X as [X1 X2 X3 X4 X5 X6]. cbn [hd] in X6.
  vemit H' V b8 E8. destruct (step_set _ _ _ (sd_inv _ _ _ X1) E8) as (S8 & OF8 & AL8 & OP8 & LN8 & T8).
  vemit H' V b9 E9. assert (CX8 : ctx_ok (b_ops b8)) by (rewrite OP8; exact X2).
  destruct (AB b8 CX8) as (b9' & E9' & A9 & CX9). rewrite E9 in E9'. injection E9' as <-.
  pose proof (empty_sites (b_all empty_bc)) as PW.
  destruct (post_placed _ _ empty_bc _ FP (I : ctx_ok (b_ops empty_bc)) (conj eq_refl eq_refl) PW PB) as (PL & W9 & PA & _ & _ & PSH).
  cbn [empty_bc b_all app] in PA.
  assert (AP9 : appended b8 pb (concat Ps) b9) by (apply appended_bytecode; auto; rewrite <- PA; exact W9).
  pose proof (step_code _ _ _ _ (sd_inv _ _ _ S8) AP9) as S9. pose proof (ap_size _ _ _ _ AP9) as SZ9.
  pose proof (f_equal (@length _) (ap_jumps _ _ _ _ AP9)) as LN9.
  injection H' as <- <-.
  vemit H V b10 E10. destruct (step_jump _ _ _ (sd_inv _ _ _ S9) E10) as (S10 & SZ10 & OP10 & LN10 & T10 & JP10).
  vemit H V b11 E11. destruct (step_set _ _ _ (sd_inv _ _ _ S10) E11) as (S11 & OF11 & AL11 & OP11 & LN11 & T11).
  vemit H V b12 E12. destruct (step_resolve _ _ (sd_inv _ _ _ S11) E12) as (S12 & RS12 & OP12 & SZ12 & J12).
  exists b12. split; [exact V|]. apply size_of in AL8 as SZ8. apply size_of in AL11 as SZ11.
  lens. steps (@None nat) b. sizes. constructor; auto.
  - rewrite OP12, OP11, OP10. reflexivity.
  - cbn [tail ended]; unfold last_op_is; rewrite OP12, OP11, OP10; reflexivity.
  - intros _. lia.
  - intros C B L cl dl SZ R K. cbn [shape]. reals. offs.
    assert (LC : L (length (b_jumps b)) = B + size b7) by (eapply lok_off; [exact K|lia|eassumption]).
    assert (LB : L (length (b_jumps b1)) = B + size b12) by (rewrite SZ12, SZ11; eapply lok_off; [exact K|lia|eassumption]).
    assert (LP : L (length (b_jumps b3)) = B + size b3) by (replace (size b3) with (size b4) by lia; eapply lok_off; [exact K|lia|eassumption]).
    exists (B + size b3), (B + size b6), (B + size b7), (B + size b9).
    assert (R3 : realises C B L b3) by assumption. split; [replace (size b) with (size b2) by lia; exact (SH3 C B L R3)|]. split; [|split; [|split]].
    + assert (R6 : realises C B L b6) by assumption. specialize (SH6 C B L R6). destruct c as [c|]; [rewrite <- LB; replace (size b3) with (size b5) by lia; exact SH6|lia].
    + specialize (X6 C B L cl dl). rewrite LB, LC in X6. apply X6; auto; [lia|].
      assert (K5 : lok B L (length (b_jumps b6)) b12) by (apply (lok_mono _ _ _ _ _ K); lia). loks. assumption.
    + assert (PP : placed C (B + size b8) (concat Ps) pb) by (eapply placed_code; eauto using sd_inv).
      rewrite <- PA in PP. specialize (PSH _ _ PP). change (size empty_bc) with 0 in PSH. rewrite Z.add_0_r in PSH.
      replace (size b7) with (size b8) by lia. replace (B + size b9) with (B + size b8 + size pb); [exact PSH|].
      unfold size at 2. rewrite PA. lia.
    + rewrite <- LP. auto.
Qed.
End Single.

(* ---- break and continue ---- *)
Lemma pop_rel b r : b_ops b = O_RelativeJump :: r -> exists b1, append_bytecode b empty_bc = COk b1 /\
  exists b2, push_opcode O_PopOne b1 = COk b2 /\ b_all b2 = b_all b ++ [byte_of O_PopOne] /\ b_ops b2 = O_PopOne :: O_RelativeJump :: r.
Proof.
  intros E. unfold append_bytecode. cbn [merge_spaces b_ops empty_bc b_all]. rewrite E. cbn [load_of].
  assert (AP : append_plain (merge_spaces b empty_bc) empty_bc = COk (set_code (merge_spaces b empty_bc) (b_all b) (O_RelativeJump :: r))).
  { unfold append_plain. cbn [resolve_jumps resolve_targets b_jumps b_all empty_bc cbind set_code b_ops app merge_spaces]. rewrite app_nil_r, E. reflexivity. }
  exists (set_code (merge_spaces b empty_bc) (b_all b) (O_RelativeJump :: r)). split; [rewrite <- AP; reflexivity|].
  eexists. split; [reflexivity|]. split; reflexivity.
Qed.
Lemma plain_empty : plain empty_bc.
Proof. split; reflexivity. Qed.
Lemma jump_emitted ret s t brk cont b b1 : inv b ->
  (s = Break /\ brk <> [] /\ t = hd O brk \/ s = Continue /\ cont <> [] /\ t = hd O cont) ->
  add_source O_RelativeJump t b = COk b1 -> emitted ret InSwitch s brk cont b b1.
Proof.
  intros I0 HS E. destruct (step_jump _ _ _ I0 E) as (S1 & SZ1 & OP1 & LN1 & T1 & JP1). constructor; auto.
  - rewrite OP1. reflexivity.
  - destruct HS as [(-> & _)|(-> & _)]; cbn [tail ended]; unfold last_op_is; rewrite OP1; reflexivity.
  - intros _. lia.
  - intros EB EC. destruct HS as [(_ & N & _)|(_ & N & _)]; contradiction.
  - intros C B L cl dl _ R _. destruct HS as [(-> & _ & ->)|(-> & _ & ->)]; cbn [shape]; auto.
Qed.
Lemma jump_emitted_pop ret s t brk cont b b1 b2 b3 : inv b ->
  (s = Break /\ brk <> [] /\ t = hd O brk \/ s = Continue /\ cont <> [] /\ t = hd O cont) ->
  add_source O_RelativeJump t b = COk b1 -> append_bytecode b1 empty_bc = COk b2 -> push_opcode O_PopOne b2 = COk b3 ->
  emitted ret InBlock s brk cont b b3.
Proof.
  intros I0 HS E E2 E3. destruct (step_jump _ _ _ I0 E) as (S1 & SZ1 & OP1 & LN1 & T1 & JP1).
  destruct (pop_rel _ _ OP1) as (b2' & E2' & b3' & E3' & A3 & O3). rewrite E2 in E2'. injection E2' as <-. rewrite E3 in E3'. injection E3' as <-.
  assert (AP : appended b1 empty_bc [byte_of O_PopOne] b3).
  { eapply appended_push; eauto using plain_empty. apply empty_sites. }
  pose proof (step_code _ _ _ _ (sd_inv _ _ _ S1) AP) as S3. sizes. steps (@None nat) b. constructor; auto.
  - rewrite O3. reflexivity.
  - assert (TL : tail InBlock s = Some LOther) by (destruct HS as [(-> & _)|(-> & _)]; reflexivity). rewrite TL.
    cbn [ended]. unfold ends_plain, last_op_is. rewrite O3. repeat split.
  - intros _. lia.
  - intros EB EC. destruct HS as [(_ & N & _)|(_ & N & _)]; contradiction.
  - intros C B L cl dl _ R _. reals. destruct HS as [(-> & _ & ->)|(-> & _ & ->)]; cbn [shape]; auto.
Qed.

(* ---- switch ---- *)
Record spined (ret : opcode) (s : stmt) (brk cont : list nat) (td : nat) (cases : list scase) (dflt : Z) (b b1 : bcode)
    (new : list scase) (dflt' : Z) : Prop := {
  sp_step : stepd (Some td) b b1;
  sp_ctx : ctx_ok (b_ops b1);
  sp_tail : ended (tail InSwitch s) b b1;
  sp_weighs : weighs s -> size b < size b1;
  sp_hash : map sc_hash new = labels s;
  sp_off : Forall (fun c => exists z, size b <= z <= size b1 /\ sc_off c = Base.s16 z) new;
  sp_nodup : NoDup (map sc_hash cases) -> NoDup (map sc_hash (cases ++ new));
  sp_dflt : if has_default s then dflt = -1 /\ exists z, size b <= z <= size b1 /\ dflt' = Base.s16 z else dflt' = dflt;
  sp_shape : forall C B L cl dl, size b1 < 32768 -> realises C B L b1 -> lok B L (length (b_jumps b)) b1 ->
    (forall c, In c new -> cl (sc_hash c) = Some (B + sc_off c)) -> (has_default s = true -> dl = Some (B + dflt')) ->
    shape C ret s (B + size b) (B + size b1) (L (hd O brk)) (L (hd O cont)) cl dl
}.
Definition spine_by (ps : stmt_fn) (ret : opcode) (s : stmt) : Prop :=
  forall n cases dflt td st res r b brk cont base, not_else r -> (td < length (b_jumps b))%nat ->
    view st (tk s ++ r) b brk cont base -> inv b -> ctx_ok (b_ops b) ->
    parse_cases ps n ret cases dflt td st = COk res ->
    exists n' st1 b1 new dflt', view st1 r b1 brk cont base /\ parse_cases ps n' ret (cases ++ new) dflt' td st1 = COk res /\
      spined ret s brk cont td cases dflt b b1 new dflt'.

Lemma size_nonneg b : 0 <= size b.
Proof. apply lenZ_nonneg. Qed.
Lemma s16_size z : 0 <= z < 32768 -> Base.s16 z = z.
Proof. intros H. apply s16_id. unfold is_s16. lia. Qed.
Lemma tables_appended cases dflt b b1 sz :
  (if sz <? 254 then linear_table cases dflt sz else hash_table cases dflt) b = COk b1 ->
  exists P, appended b empty_bc P b1 /\ ctx_ok (b_ops b1) /\ ends_plain b1.
Proof.
  destruct (sz <? 254); intros E.
  - unfold linear_table in E. rewrite push_linear in E. cbn [cbind] in E.
    apply (f_equal (fun r => match r with COk x => x | _ => b end)) in E. cbv beta iota in E.
    unfold push_data in E. cbn [set_code b_all b_ops] in E. rewrite <- !app_assoc in E.
    eexists. split; [apply appended_data; rewrite <- E; reflexivity|]. rewrite <- E. split; [reflexivity|]. unfold ends_plain. repeat split.
  - unfold hash_table in E. rewrite push_switch in E. cbn [cbind] in E.
    destruct (find_mod (Z.to_nat 32765) 1 cases) as [m|]; [|discriminate].
    apply (f_equal (fun r => match r with COk x => x | _ => b end)) in E. cbv beta iota in E.
    unfold push_data in E. cbn [set_code b_all b_ops] in E. rewrite <- !app_assoc in E.
    eexists. split; [apply appended_data; rewrite <- E; reflexivity|]. rewrite <- E. split; [reflexivity|]. unfold ends_plain. repeat split.
Qed.
Lemma max_hash_ge cases : forall m, m <= max_hash cases m.
Proof.
  induction cases as [|c l IH]; intros m; cbn [max_hash]; [lia|]. specialize (IH (if m <? sc_hash c then sc_hash c else m)).
  destruct (Z.ltb_spec m (sc_hash c)); destruct (254 <=? _); lia.
Qed.
Lemma max_hash_bound cases : forall m, max_hash cases m < 254 -> Forall (fun c => sc_hash c <= max_hash cases m) cases.
Proof.
  induction cases as [|c l IH]; intros m H; constructor; cbn [max_hash] in *;
    pose proof (max_hash_ge l (if m <? sc_hash c then sc_hash c else m)) as G; destruct (254 <=? _) eqn:E; auto;
    destruct (Z.ltb_spec m (sc_hash c)); try lia.
Qed.
Lemma max_hash_le cases N : forall m, m <= N -> Forall (fun c => sc_hash c <= N) cases -> max_hash cases m <= N.
Proof.
  induction cases as [|c l IH]; intros m H F; cbn [max_hash]; [exact H|]. apply Forall_cons_iff in F as [F1 F].
  destruct (254 <=? _); [destruct (m <? sc_hash c); lia|]. apply IH; auto. destruct (m <? sc_hash c); lia.
Qed.
Lemma table_switch cases dflt b b1 : Forall (fun c => 0 <= sc_hash c < 4294967295) cases ->
  Forall (fun c => 0 <= sc_off c <= size b) cases -> (dflt = -1 \/ 0 <= dflt <= size b) ->
  (let sz := u32 (max_hash cases 0 + 1) in if sz <? 254 then linear_table cases dflt sz else hash_table cases dflt) b = COk b1 ->
  size b1 < 32768 -> forall C B L, inv b -> realises C B L b1 -> switch_at C (B + size b) (dest_of B cases dflt (B + size b1)).
Proof.
  intros FH FO FD E S1 C B L I0 R.
  assert (MX : 0 <= max_hash cases 0 < 4294967295).
  { pose proof (max_hash_ge cases 0). split; [lia|]. assert (max_hash cases 0 <= 4294967294); [|lia].
    apply max_hash_le; [lia|]. rewrite Forall_forall in *. intros c IC. specialize (FH c IC). lia. }
  assert (SZ : u32 (max_hash cases 0 + 1) = max_hash cases 0 + 1) by (unfold u32; apply Z.mod_small; lia).
  cbv zeta in E. rewrite SZ in E.
  assert (FH' : Forall (fun c => 0 <= sc_hash c < 4294967296) cases) by (rewrite Forall_forall in *; intros c IC; specialize (FH c IC); lia).
  destruct (Z.ltb_spec (max_hash cases 0 + 1) 254) as [LT|GE].
  - assert (BIG : Forall (fun c => sc_hash c < max_hash cases 0 + 1) cases).
    { pose proof (max_hash_bound cases 0 ltac:(lia)) as MB. rewrite Forall_forall in *. intros c IC. specialize (MB c IC). lia. }
    destruct (linear_ok cases dflt b FO FD (max_hash cases 0 + 1) b1 ltac:(lia) BIG E S1) as (P & AP & _ & _ & SW).
    apply SW. intros i II. eapply placed_nthZ; [eapply placed_code; eauto|exact II].
  - destruct (hash_ok cases dflt b FH' FO FD b1 E S1) as (P & AP & _ & _ & SW).
    apply SW. intros i II. eapply placed_nthZ; [eapply placed_code; eauto|exact II].
Qed.
Lemma switch_at_ext C p d1 d2 : switch_at C p d1 -> (forall h, d1 h = d2 h) -> switch_at C p d2.
Proof. intros [[D H]|[D H]] E; [left|right]; (split; [exact D|]); intros h s HH PC; rewrite <- E; auto. Qed.
Lemma find_case_nodup cases c : NoDup (map sc_hash cases) -> In c cases -> find_case (sc_hash c) cases = Some c.
Proof.
  induction cases as [|x l IH]; intros ND IC; [destruct IC|]. cbn [map] in ND. apply NoDup_cons_iff in ND as [NI ND]. unfold find_case in *. cbn [find].
  destruct IC as [-> | IC]; [now rewrite Z.eqb_refl|]. destruct (Z.eqb_spec (sc_hash x) (sc_hash c)) as [E|_]; [|auto].
  exfalso. apply NI. rewrite E. now apply in_map.
Qed.

Lemma emit_switch ps ret w e s : spine_by ps ret s -> (exists P, pushes e P) -> weighs s ->
  Forall (fun h => 0 <= h < 4294967295) (labels s) -> ends_well s ->
  forall st st1 r b brk cont base,
    view st (T_lparen :: T_expr e :: T_rparen :: T_lbrace :: tk s ++ T_rbrace :: r) b brk cont base -> inv b -> ctx_ok (b_ops b) ->
    parse_switch ps ret st = COk st1 ->
    exists b1, view st1 r b1 brk cont base /\ emitted ret w (Switch e s) brk cont b b1.
Proof.
  intros SPINE (P & PU) WS FL EW st st1 r b brk cont base V I0 CX H. unfold parse_switch in H.
  vexpect H V. vexpr H V. vemit H V b1 E1. pose proof PU as (PL & W & HP). destruct (HP b CX) as (b1' & E1' & A1).
  rewrite E1 in E1'. injection E1' as <-. assert (AP1 : appended b e P b1) by (now apply appended_bytecode).
  pose proof (step_code _ _ _ _ I0 AP1) as S1. pose proof (ap_size _ _ _ _ AP1) as SZ1.
  vexpect H V. vtarget H V b2 E2. destruct (step_target2 _ _ E2 (sd_inv _ _ _ S1)) as (S2 & SZ2 & OP2 & LN2).
  vtarget H V b3 E3. destruct (step_target2 _ _ E3 (sd_inv _ _ _ S2)) as (S3 & SZ3 & OP3 & LN3).
  vtarget H V b4 E4. destruct (step_target2 _ _ E4 (sd_inv _ _ _ S3)) as (S4 & SZ4 & OP4 & LN4).
  vemit H V b5 E5. destruct (step_jump _ _ _ (sd_inv _ _ _ S4) E5) as (S5 & SZ5 & OP5 & LN5 & T5 & JP5).
  match type of H with cbind (parse_cases ?p ?n ?re ?c ?d ?t ?x) _ = _ => 
    destruct (parse_cases p n re c d t x) as [[[cases dflt] stq]| |] eqn:HPC; cbn [cbind] in H; [|discriminate H|discriminate H] end.
  assert (CX5 : ctx_ok (b_ops b5)) by (rewrite OP5; reflexivity). lens.
  match type of H with context [if size (cur ?x) =? _ then _ else _] => assert (CU : cur x = b5) by apply V; rewrite CU in H end.
  assert (TD : (length (b_jumps b1) < length (b_jumps b5))%nat) by lia.
  destruct (SPINE _ _ _ _ _ _ (T_rbrace :: r) _ _ _ _ I TD V (sd_inv _ _ _ S5) CX5 HPC) as (n' & stq7 & b6 & new & dflt' & V6 & HPC6 & SP).
  clear V HPC. destruct n' as [|n']; [discriminate|]. cbn [parse_cases] in HPC6. assert (TT : p_toks stq7 = T_rbrace :: r) by apply V6.
  rewrite TT in HPC6. injection HPC6 as <- <- <-. cbn [app] in *. apply (view_toks _ _ _ _ _ _) with (tk' := r) in V6. rename V6 into V.
  destruct SP as [X1 X2 X3 X4 XH XO XN XD XS].
  assert (CU6 : cur (set_toks r stq7) = b6) by apply V. rewrite CU6 in H. specialize (X4 WS).
  destruct (Z.eqb_spec (size b5) (size b6)) as [|_]; [lia|].
  match type of H with cbind ?e _ = _ => destruct e as [stq8| |] eqn:H8; cbn [cbind] in H; [|discriminate H|discriminate H] end.
  assert (X7 : exists b7, view stq8 r b7 (length (b_jumps b2) :: brk) cont base /\ stepd None b6 b7 /\ length (b_jumps b7) = length (b_jumps b6) /\
     forall C B L, realises C B L b7 -> jumps C (B + size b6) (L (length (b_jumps b2))) \/ jumps_away (last (items s) Skip) = true).
  { destruct (last_op_is O_RelativeJump b6) eqn:LO.
    - injection H8 as <-. exists b6. split; [exact V|]. split; [apply stepd_refl, (sd_inv _ _ _ X1)|]. split; [reflexivity|].
      intros. right. unfold ends_well in EW. destruct (tail InSwitch s) as [[]|]; cbn [ended] in X3; [exact EW|congruence|destruct X3; congruence|destruct EW].
    - vemit H8 V b7 E7. destruct (step_jump _ _ _ (sd_inv _ _ _ X1) E7) as (S7 & SZ7 & OP7 & LN7 & T7 & JP7).
      exists b7. split; [exact V|]. auto. }
  clear V H8. destruct X7 as (b7 & V & S7 & LN7 & JP7).
  vemit H V b8 E8. destruct (step_set _ _ _ (sd_inv _ _ _ S7) E8) as (S8 & OF8 & AL8 & OP8 & LN8 & T8).
  vemit H V b9 E9. destruct (tables_appended _ _ _ _ _ E9) as (PT & AP9 & CX9 & LO9).
  pose proof (step_code _ _ _ _ (sd_inv _ _ _ S8) AP9) as S9. pose proof (ap_size _ _ _ _ AP9) as SZ9. pose proof (lenZ_nonneg PT) as LPT.
  pose proof (f_equal (@length _) (ap_jumps _ _ _ _ AP9)) as LN9.
  vemit H V b10 E10. destruct (step_set _ _ _ (sd_inv _ _ _ S9) E10) as (S10 & OF10 & AL10 & OP10 & LN10 & T10).
  vemit H V b11 E11. destruct (step_resolve _ _ (sd_inv _ _ _ S10) E11) as (S11 & RS11 & OP11 & SZ11 & J11).
  injection H as <-. exists b11. split.
  { match goal with |- view (set_brk _ ?x) _ _ _ _ _ => assert (HPB9 : p_brk x = length (b_jumps b2) :: brk) by apply V end.
    eapply view_brk2; [exact V|]. rewrite HPB9. reflexivity. }
  apply size_of in AL8 as SZ8. apply size_of in AL10 as SZ10.
  lens. steps (@None nat) b. sizes. constructor; auto.
  - rewrite OP11, OP10. exact CX9.
  - cbn [tail]. eapply ended_ops; [exact OP11|]. eapply ended_ops; [exact OP10|]. exact LO9.
  - intros _. pose proof (lenZ_nonneg P). lia.
  - intros C B L cl dl SZ R K. cbn [shape]. reals. offs.
    assert (LT : L (length (b_jumps b3)) = B + size b8) by (rewrite SZ8; eapply lok_off; [exact K|lia|eassumption]).
    assert (LB : L (length (b_jumps b2)) = B + size b11) by (rewrite SZ11, SZ10; eapply lok_off; [exact K|lia|eassumption]).
    pose proof (size_nonneg b5) as N5.
    assert (OFF : Forall (fun c => 0 <= sc_off c <= size b8) new).
    { rewrite Forall_forall in *. intros c IC. destruct (XO c IC) as (z & Z1 & Z2). rewrite Z2, s16_size; lia. }
    assert (FH : Forall (fun c => 0 <= sc_hash c < 4294967295) new).
    { rewrite <- XH in FL. rewrite Forall_forall in *. intros c IC. apply FL, in_map, IC. }
    assert (DD : if has_default s then 0 <= dflt' <= size b8 else dflt' = -1).
    { destruct (has_default s); [|exact XD]. destruct XD as (_ & z & Z1 & Z2). rewrite Z2, s16_size; lia. }
    exists P, (B + size b6), (B + size b8), (fun h => option_map (fun c => B + sc_off c) (find_case h new)),
      (if dflt' =? -1 then None else Some (B + dflt')).
    split; [exact PU|]. split; [eapply placed_code; eauto|].
    split; [rewrite <- LT; replace (B + size b + lenZ P) with (B + size b4) by lia; auto|].
    split; [|split; [|split; [|split]]].
    + rewrite <- LB. replace (B + size b + lenZ P + 3) with (B + size b5) by lia. specialize (XS C B L). cbn [hd] in XS. apply XS; [lia|assumption| | |].
      * pose proof (stepd_refl (Some (length (b_jumps b3))) _ (sd_inv _ _ _ X1)) as S66.
        assert (K5 : lok B L (length (b_jumps b5)) b11) by (apply (lok_mono _ _ _ _ _ K); lia). loks. assumption.
      * intros c IC. rewrite (find_case_nodup new c (XN (NoDup_nil _)) IC). reflexivity.
      * intros HD. rewrite HD in DD. destruct (Z.eqb_spec dflt' (-1)); [lia|reflexivity].
    + rewrite <- LB. auto.
    + intros h NI. destruct (find_case h new) as [c|] eqn:FC; [|reflexivity]. apply find_case_in in FC as [IC <-].
      exfalso. apply NI. rewrite <- XH. now apply in_map.
    + intros HD. rewrite HD in DD. subst dflt'. reflexivity.
    + assert (R9 : realises C B L b9) by assumption.
      assert (FD : dflt' = -1 \/ 0 <= dflt' <= size b8) by (destruct (has_default s); auto).
      pose proof (table_switch new dflt' b8 b9 FH OFF FD E9 ltac:(lia) C B L (sd_inv _ _ _ S8) R9) as SW.
      eapply switch_at_ext; [exact SW|]. intros h. unfold dest_of, dest. rewrite SZ11, SZ10. destruct (find_case h new); [reflexivity|].
      cbn [option_map]. destruct (dflt' =? -1); reflexivity.
Qed.

(* ---- all statements ---- *)
Definition block_by (n : nat) (ret : opcode) (s : stmt) : Prop :=
  forall st st1 r b brk cont base, not_else r -> view st (tk s ++ r) b brk cont base -> inv b -> ctx_ok (b_ops b) ->
    parse_statement n ret T_rbrace st = COk st1 ->
    exists n' st2 b2, view st2 r b2 brk cont base /\ emitted ret InBlock s brk cont b b2 /\ parse_statement n' ret T_rbrace st2 = COk st1.
Definition head_by (n : nat) (ret : opcode) (s : stmt) : Prop :=
  forall end_ st st1 r b brk cont base, (end_ = T_semi \/ end_ = T_rbrace) -> (closed_if s = true \/ not_else r) ->
    view st (tk s ++ r) b brk cont base -> inv b -> ctx_ok (b_ops b) ->
    parse_statement (S n) ret end_ st = COk st1 ->
    exists st2 b2, view st2 r b2 brk cont base /\ emitted ret Body s brk cont b b2 /\
      (if tok_eqb end_ T_semi then COk st2 else parse_statement n ret end_ st2) = COk st1.
Lemma emitted_tail ret w w' s brk cont b b1 : tail w s = tail w' s -> emitted ret w s brk cont b b1 -> emitted ret w' s brk cont b b1.
Proof. intros E [X1 X2 X3 X4 X5 X6]. constructor; auto. now rewrite <- E. Qed.
Lemma head_body n ret s : (forall m, head_by m ret s) -> body_by (parse_statement n) ret s.
Proof.
  intros H st st1 r b brk cont base NE V I0 CX E. destruct n; [discriminate|].
  destruct (H n _ _ _ _ _ _ _ _ (or_introl eq_refl) NE V I0 CX E) as (st2 & b2 & V2 & EM & E2). injection E2 as <-. eauto.
Qed.
Lemma head_block n ret s : tail Body s = tail InBlock s -> (forall m, head_by m ret s) -> block_by n ret s.
Proof.
  intros TL H st st1 r b brk cont base NE V I0 CX E. destruct n; [discriminate|].
  destruct (H n _ _ _ _ _ _ _ _ (or_intror eq_refl) (or_intror NE) V I0 CX E) as (st2 & b2 & V2 & EM & E2).
  exists n, st2, b2. split; [exact V2|]. split; [eapply emitted_tail; eauto|exact E2].
Qed.
(* a token that begins a statement, in a switch too *)
Definition opens (t : tok) : Prop := match t with T_rbrace | T_case _ | T_default => False | _ => True end.
Lemma body_spine ps ret s t l : tail Body s = tail InSwitch s -> labels s = [] -> has_default s = false -> tk s = t :: l -> opens t ->
  body_by ps ret s -> spine_by ps ret s.
Proof.
  intros TL LA HD TK OP H n cases dflt td st res r b brk cont base NE TD V I0 CX E. destruct n; [discriminate|]. cbn [parse_cases] in E.
  assert (TT : p_toks st = t :: l ++ r) by (rewrite (proj1 V), TK; reflexivity). rewrite TT in E.
  assert (E' : (st' <~ ps ret T_semi st;; parse_cases ps n ret cases dflt td st') = COk res).
  { destruct t; try destruct OP; cbn match in E; destruct (match cases with [] => dflt =? -1 | _ :: _ => false end); try discriminate E; exact E. }
  clear E. destruct (ps ret T_semi st) as [st2| |] eqn:E2; cbn [cbind] in E'; try discriminate E'.
  destruct (H _ _ _ _ _ _ _ (or_intror NE) V I0 CX E2) as (b2 & V2 & [X1 X2 X3 X4 X5 X6]).
  exists n, st2, b2, [], dflt. rewrite app_nil_r. split; [exact V2|]. split; [exact E'|]. constructor; auto.
  - now apply stepd_weaken.
  - now rewrite <- TL.
  - now rewrite app_nil_r.
  - now rewrite HD.
Qed.
(* tokens of a statement *)
Lemma tk_not_else s r : not_else r -> not_else (tk s ++ r).
Proof.
  revert r. induction s; intros r H; cbn; auto; try (destruct e; exact I).
  rewrite <- app_assoc. auto.
Qed.

Section All.
Variable ret : opcode.
Lemma head_exp n e : (exists P, pops e P) -> head_by n ret (Exp e).
Proof.
  intros G end_ st st1 r b brk cont base EN NE V I0 CX H. assert (TT : p_toks st = T_expr e :: T_semi :: r) by apply V.
  cbn [parse_statement] in H. rewrite TT in H.
  assert (Q : tok_eqb (T_expr e) end_ = false) by (destruct EN; subst; reflexivity). rewrite Q in H.
  destruct (parse_expr_stmt st) as [st2| |] eqn:E; cbn [cbind] in H; try discriminate H. unfold parse_expr_stmt in E.
  cbn [tk app] in V. vexpr E V. vemit E V b1 E1. vemit E V b2 E2.
  exists st2, b2. split; [exact V|]. split; [eapply emit_exp; eauto|exact H].
Qed.
Lemma head_ret n e : (exists P, returns ret e P) -> head_by n ret (Ret e).
Proof.
  intros G end_ st st1 r b brk cont base EN NE V I0 CX H.
  assert (TT : p_toks st = T_return :: match e with Some e => [T_expr e] | None => [] end ++ T_semi :: r) by (rewrite (proj1 V); destruct e; reflexivity).
  cbn [parse_statement] in H. rewrite TT in H.
  assert (Q : tok_eqb T_return end_ = false) by (destruct EN; subst; reflexivity). rewrite Q in H.
  destruct (parse_return ret _) as [st2| |] eqn:E; cbn [cbind] in H; try discriminate H. unfold parse_return in E.
  apply (view_toks _ _ _ _ _ _) with (tk' := match e with Some e => [T_expr e] | None => [] end ++ T_semi :: r) in V.
  match type of E with cbind ?x _ = _ => destruct x as [st3| |] eqn:E3; cbn [cbind] in E; [|discriminate E|discriminate E] end.
  assert (X : exists b1, view st3 r b1 brk cont base /\ match e with Some e => append_bytecode b e | None => push_opcode O_LiteralZero b end = COk b1).
  { destruct e as [e|]; cbn [app set_toks p_toks] in *.
    - vexpr E3 V. vemit E3 V b1 E1. exists b1. auto.
    - apply (view_toks _ _ _ _ _ _) with (tk' := r) in V. vemit E3 V b1 E1. exists b1. auto. }
  clear V E3. destruct X as (b1 & V & E1). vemit E V b2 E2.
  exists st2, b2. split; [exact V|]. split; [eapply emit_ret; eauto|exact H].
Qed.
(* the other statements begin with a word *)
Lemma head_word n end_ st st1 t l b brk cont base : (end_ = T_semi \/ end_ = T_rbrace) -> view st (t :: l) b brk cont base ->
  parse_statement (S n) ret end_ st = COk st1 ->
  forall f, match t with
    | T_if => f = parse_if (parse_statement n) ret | T_while => f = parse_while (parse_statement n) ret
    | T_for => f = parse_for (parse_statement n) ret | T_switch => f = parse_switch (parse_statement n) ret
    | T_do => f = parse_do (parse_statement n) ret
    | T_break => f = parse_jump (p_brk st) E_break_outside | T_continue => f = parse_jump (p_cont st) E_continue_outside
    | _ => False end ->
  exists st2, f (set_toks l st) = COk st2 /\ view (set_toks l st) l b brk cont base /\
    (if tok_eqb end_ T_semi then COk st2 else parse_statement n ret end_ st2) = COk st1.
Proof.
  intros EN V H f F. pose proof (proj1 V) as TT. cbn [parse_statement] in H. rewrite TT in H.
  destruct t; try destruct F;
    (match type of H with (if tok_eqb ?t ?e then _ else _) = _ =>
       let Q := fresh in assert (Q : tok_eqb t e = false) by (destruct EN; subst; reflexivity); rewrite Q in H; clear Q end);
    (match type of H with cbind ?x _ = _ => destruct x as [st2| |] eqn:E; cbn [cbind] in H; [|discriminate H|discriminate H] end);
    (exists st2; split; [first [exact E|reflexivity]|]; split; [eapply view_toks; exact V|exact H]).
Qed.
(* the semicolon behind break and continue *)
Lemma semi_block n st st1 r b brk cont base : view st (T_semi :: r) b brk cont base -> parse_statement n ret T_rbrace st = COk st1 ->
  exists n' st2 b1 b2, append_bytecode b empty_bc = COk b1 /\ push_opcode O_PopOne b1 = COk b2 /\ view st2 r b2 brk cont base /\
    parse_statement n' ret T_rbrace st2 = COk st1.
Proof.
  intros V H. destruct n; [discriminate|]. pose proof (proj1 V) as TT. cbn [parse_statement] in H. rewrite TT in H. cbn [tok_eqb] in H.
  destruct (parse_expr_stmt st) as [st2| |] eqn:E; cbn [cbind] in H; try discriminate H. unfold parse_expr_stmt, parse_expr_to, parse_expr in E.
  rewrite TT in E. cbn [is_terminator cbind tok_eqb] in E. apply (view_toks _ _ _ _ _ _) with (tk' := r) in V.
  assert (E' : (st0 <~ emit (fun c => append_bytecode c empty_bc) (set_toks r st);; emit (push_opcode O_PopOne) st0) = COk st2) by (destruct r; exact E).
  clear E. vemit E' V b1 E1. vemit E' V b2 E2.
  exists n, st2, b1, b2. auto.
Qed.
Lemma cases_step ps n cases dflt td st res t l : p_toks st = t :: l -> opens t -> parse_cases ps n ret cases dflt td st = COk res ->
  exists n' st2, ps ret T_semi st = COk st2 /\ parse_cases ps n' ret cases dflt td st2 = COk res.
Proof.
  intros TT OP E. destruct n; [discriminate|]. cbn [parse_cases] in E. rewrite TT in E.
  assert (E' : (st' <~ ps ret T_semi st;; parse_cases ps n ret cases dflt td st') = COk res).
  { destruct t; try destruct OP; cbn match in E; destruct (match cases with [] => dflt =? -1 | _ :: _ => false end); try discriminate E; exact E. }
  destruct (ps ret T_semi st) as [st2| |]; cbn [cbind] in E'; try discriminate E'. eauto.
Qed.
Lemma jump_stmt s w : s = Break \/ s = Continue -> w <> Body ->
  match w with
  | Body => forall n, body_by (parse_statement n) ret s
  | InBlock => forall n, block_by n ret s
  | InSwitch => forall n, spine_by (parse_statement n) ret s
  end.
Proof.
  intros HS NB.
  assert (J : forall n end_ st st1 r b brk cont base, (end_ = T_semi \/ end_ = T_rbrace) -> view st (tk s ++ r) b brk cont base ->
    parse_statement (S n) ret end_ st = COk st1 ->
    exists st2 b1 t, view st2 (T_semi :: r) b1 brk cont base /\
      (s = Break /\ brk <> [] /\ t = hd O brk \/ s = Continue /\ cont <> [] /\ t = hd O cont) /\
      add_source O_RelativeJump t b = COk b1 /\
      (if tok_eqb end_ T_semi then COk st2 else parse_statement n ret end_ st2) = COk st1).
  { intros n end_ st st1 r b brk cont base EN V H.
    assert (PB : p_brk st = brk) by apply V. assert (PC : p_cont st = cont) by apply V. destruct HS as [-> | ->]; cbn [tk app] in V.
    - destruct (head_word _ _ _ _ _ _ _ _ _ _ EN V H (parse_jump (p_brk st) E_break_outside) eq_refl) as (st2 & E & V2 & H2).
      rewrite PB in E. unfold parse_jump in E. destruct brk as [|t brk]; [discriminate|]. vemit E V2 b1 E1.
      exists st2, b1, t. split; [exact V2|]. split; [left; split; [reflexivity|split; [discriminate|reflexivity]]|auto].
    - destruct (head_word _ _ _ _ _ _ _ _ _ _ EN V H (parse_jump (p_cont st) E_continue_outside) eq_refl) as (st2 & E & V2 & H2).
      rewrite PC in E. unfold parse_jump in E. destruct cont as [|t cont]; [discriminate|]. vemit E V2 b1 E1.
      exists st2, b1, t. split; [exact V2|]. split; [right; split; [reflexivity|split; [discriminate|reflexivity]]|auto]. }
  destruct w; [| |now destruct NB].
  - intros n st st1 r b brk cont base NE V I0 CX H. destruct n; [discriminate|].
    destruct (J _ _ _ _ _ _ _ _ _ (or_intror eq_refl) V H) as (st2 & b1 & t & V1 & HT & E1 & H1).
    destruct (semi_block _ _ _ _ _ _ _ _ V1 H1) as (n' & st3 & b2 & b3 & E2 & E3 & V3 & H3).
    exists n', st3, b3. split; [exact V3|]. split; [eapply jump_emitted_pop; eauto|exact H3].
  - intros m n cases dflt td st res r b brk cont base NE TD V I0 CX H.
    assert (TT : exists t, p_toks st = t :: T_semi :: r /\ opens t) by (pose proof (proj1 V) as TT; destruct HS as [-> | ->]; cbn in TT; eexists; (split; [exact TT|exact I])).
    destruct TT as (t0 & TT & OP). destruct (cases_step _ _ _ _ _ _ _ _ _ TT OP H) as (n1 & st2 & E & H1).
    destruct m; [discriminate|]. destruct (J _ _ _ _ _ _ _ _ _ (or_introl eq_refl) V E) as (st3 & b1 & t & V1 & HT & E1 & H2).
    injection H2 as ->. destruct (cases_step _ _ _ _ _ _ _ T_semi _ (proj1 V1) I H1) as (n2 & st4 & E4 & H4).
    cbn [parse_statement] in E4. rewrite (proj1 V1) in E4. cbn [tok_eqb] in E4. injection E4 as <-.
    apply (view_toks _ _ _ _ _ _) with (tk' := r) in V1.
    destruct (jump_emitted ret s t brk cont b b1 I0 HT E1) as [X1 X2 X3 X4 X5 X6].
    assert (LA : labels s = [] /\ has_default s = false) by (destruct HS as [-> | ->]; auto). destruct LA as [LA HD].
    exists n2, (set_toks r st2), b1, [], dflt. rewrite app_nil_r. split; [exact V1|]. split; [exact H4|].
    constructor; auto.
    + now apply stepd_weaken.
    + now rewrite app_nil_r.
    + now rewrite HD.
Qed.
(* the head statements *)
Ltac word H V EN f := destruct (head_word _ _ _ _ _ _ _ _ _ _ EN V H f eq_refl) as (st2 & E & V2 & H2).

Lemma compiled : forall s w, tidy w s -> good ret s ->
  match w with
  | Body => forall n, body_by (parse_statement n) ret s
  | InBlock => forall n, block_by n ret s
  | InSwitch => forall n, spine_by (parse_statement n) ret s
  end.
Proof.
  assert (HEAD : forall s w t l, tk s = t :: l -> opens t -> (forall w', tail Body s = tail w' s) -> labels s = [] -> has_default s = false ->
    (forall n, head_by n ret s) ->
    match w with
    | Body => forall n, body_by (parse_statement n) ret s
    | InBlock => forall n, block_by n ret s
    | InSwitch => forall n, spine_by (parse_statement n) ret s
    end).
  { intros s w t l TK OP TL LA HD H. destruct w; intros n.
    - apply head_block; auto.
    - eapply body_spine; eauto. apply head_body, H.
    - apply head_body, H. }
  induction s as [|a IHa b0 IHb|e|c s IH|c a IHa b0 IHb|c s IH|s IH c|i c p s IH| | |e|e s IH|h| |s IH]; intros w TD G.
  - (* nothing *)
    destruct w; [| |now destruct TD].
    + intros n st st1 r b brk cont base NE V I0 CX H. exists n, st, b. split; [exact V|]. split; [now apply emitted_skip|exact H].
    + intros m n cases dflt td st res r b brk cont base NE TDL V I0 CX H. exists n, st, b, [], dflt.
      rewrite app_nil_r. split; [exact V|]. split; [exact H|]. constructor; auto; try reflexivity.
      * now apply stepd_refl.
      * intros [].
      * now rewrite app_nil_r.
  - (* a b *)
    destruct TD as (NB & TA & TB). destruct G as [GA GB]. destruct w; [| |now destruct NB].
    + specialize (IHa InBlock TA GA). specialize (IHb InBlock TB GB). cbn in IHa, IHb.
      intros n st st1 r b brk cont base NE V I0 CX H. cbn [tk] in V. rewrite <- app_assoc in V.
      destruct (IHa _ _ _ _ _ _ _ _ (tk_not_else _ _ NE) V I0 CX H) as (n1 & st2 & b1 & V1 & EM1 & H1).
      destruct (IHb _ _ _ _ _ _ _ _ NE V1 (sd_inv _ _ _ (em_step _ _ _ _ _ _ _ EM1)) (em_ctx _ _ _ _ _ _ _ EM1) H1) as (n2 & st3 & b2 & V2 & EM2 & H2).
      exists n2, st3, b2. split; [exact V2|]. split; [eapply emitted_seq; eauto|exact H2].
    + specialize (IHa InSwitch TA GA). specialize (IHb InSwitch TB GB). cbn in IHa, IHb.
      intros m n cases dflt td st res r b brk cont base NE TDL V I0 CX H. cbn [tk] in V. rewrite <- app_assoc in V.
      destruct (IHa _ _ _ _ _ _ _ _ _ _ _ _ (tk_not_else _ _ NE) TDL V I0 CX H) as (n1 & st2 & b1 & new1 & d1 & V1 & H1 & SP1).
      destruct SP1 as [X1 X2 X3 X4 XH XO XN XD XS].
      assert (TDL1 : (td < length (b_jumps b1))%nat) by (pose proof (step_len _ _ _ X1); lia).
      destruct (IHb _ _ _ _ _ _ _ _ _ _ _ _ NE TDL1 V1 (sd_inv _ _ _ X1) X2 H1) as (n2 & st3 & b2 & new2 & d2 & V2 & H2 & SP2).
      destruct SP2 as [Y1 Y2 Y3 Y4 YH YO YN YD YS]. sizes. lens.
      exists n2, st3, b2, (new1 ++ new2), d2. rewrite app_assoc. split; [exact V2|]. split; [exact H2|].
      constructor; auto.
      * eapply stepd_trans; eauto.
      * cbn [tail]. exact (ended_seq _ _ _ _ _ X3 Y3).
      * cbn [weighs]. intros [HW|HW]; [apply X4 in HW|apply Y4 in HW]; lia.
      * cbn [labels]. rewrite map_app. congruence.
      * apply Forall_app. split; [eapply Forall_impl; [|exact XO]|eapply Forall_impl; [|exact YO]]; cbn; intros c0 (z & Z1 & Z2); exists z; (split; [lia|exact Z2]).
      * rewrite app_assoc. auto.
      * cbn [has_default]. destruct (has_default a), (has_default b0); cbn [orb].
        -- destruct XD as (XD1 & z & Z1 & Z2). split; [exact XD1|]. destruct YD as (_ & z2 & Z3 & Z4). exists z2. split; [lia|exact Z4].
        -- destruct XD as (XD1 & z & Z1 & Z2). split; [exact XD1|]. exists z. split; [lia|congruence].
        -- destruct YD as (YD1 & z & Z1 & Z2). split; [congruence|]. exists z. split; [lia|exact Z2].
        -- congruence.
      * intros C B L cl dl SZ R K CL DL. cbn [shape]. exists (B + size b1). reals.
        assert (DF : has_default a = true -> has_default b0 = false).
        { intros HA. rewrite HA in XD. destruct (has_default b0); [|reflexivity]. destruct XD as (_ & z & Z1 & Z2). destruct YD as (YD & _).
          rewrite YD, s16_size in Z2; [pose proof (size_nonneg b); lia|pose proof (size_nonneg b); lia]. }
        split.
        -- apply XS; [lia|assumption| | |].
           ++ eapply lok_pre; [exact Y1|exact K|intros t E; injection E as <-; exact TDL].
           ++ intros c0 IC. apply CL, in_or_app. now left.
           ++ intros HA. rewrite (DF HA) in YD. rewrite <- YD. apply DL. cbn [has_default]. now rewrite HA.
        -- apply YS; auto.
           ++ apply (lok_mono _ _ _ _ _ K). lia.
           ++ intros c0 IC. apply CL, in_or_app. now right.
           ++ intros HB. apply DL. cbn [has_default]. rewrite HB. apply orb_true_r.
  - (* e; *) eapply HEAD; [reflexivity|exact I|reflexivity|reflexivity|reflexivity|]. intros n. now apply head_exp.
  - (* if *) cbn in TD, G. destruct G as [GC G]. specialize (IH Body TD G). cbn in IH. eapply HEAD; [reflexivity|exact I|reflexivity|reflexivity|reflexivity|].
    intros n end_ st st1 r b brk cont base EN NE V I0 CX H. cbn [tk app] in V.
    word H V EN (parse_if (parse_statement n) ret).
    destruct NE as [NE|NE]; [discriminate|]. destruct (emit_if _ _ Body _ _ (IH n) GC _ _ _ _ _ _ _ NE V2 I0 CX E) as (b2 & V3 & EM). eauto.
  - (* if else *) cbn in TD, G. destruct TD as (TA & TB & CA). destruct G as (GC & GA & GB). specialize (IHa Body TA GA). specialize (IHb Body TB GB). cbn in IHa, IHb.
    eapply HEAD; [reflexivity|exact I|reflexivity|reflexivity|reflexivity|].
    intros n end_ st st1 r b brk cont base EN NE V I0 CX H. cbn [tk app] in V. rewrite <- app_assoc in V. cbn [app] in V.
    word H V EN (parse_if (parse_statement n) ret).
    destruct (emit_ifelse _ _ Body _ _ _ (IHa n) (IHb n) GC CA _ _ _ _ _ _ _ NE V2 I0 CX E) as (b2 & V3 & EM). eauto.
  - (* while *) cbn in TD, G. destruct G as [GC G]. specialize (IH Body TD G). cbn in IH. eapply HEAD; [reflexivity|exact I|reflexivity|reflexivity|reflexivity|].
    intros n end_ st st1 r b brk cont base EN NE V I0 CX H. cbn [tk app] in V.
    word H V EN (parse_while (parse_statement n) ret).
    destruct (emit_while _ _ Body _ _ (IH n) GC _ _ _ _ _ _ _ NE V2 I0 CX E) as (b2 & V3 & EM). eauto.
  - (* do *) cbn in TD, G. destruct G as [GC G]. specialize (IH Body TD G). cbn in IH. eapply HEAD; [reflexivity|exact I|reflexivity|reflexivity|reflexivity|].
    intros n end_ st st1 r b brk cont base EN NE V I0 CX H. cbn [tk app] in V. rewrite <- app_assoc in V. cbn [app] in V.
    word H V EN (parse_do (parse_statement n) ret).
    destruct (emit_do _ _ Body _ _ (IH n) GC _ _ _ _ _ _ _ V2 I0 CX E) as (b2 & V3 & EM). eauto.
  - (* for *) cbn in TD, G. destruct G as (GI & GC & GP & G). specialize (IH Body TD G). cbn in IH. eapply HEAD; [reflexivity|exact I|reflexivity|reflexivity|reflexivity|].
    intros n end_ st st1 r b brk cont base EN NE V I0 CX H. cbn [tk app] in V.
    assert (V' : view st (T_for :: T_lparen :: comma i ++ T_semi :: match c with Some c => [T_expr c] | None => [] end ++ T_semi :: comma p ++ T_rparen :: tk s ++ r) b brk cont base).
    { rewrite <- !app_assoc in V. cbn [app] in V. rewrite <- !app_assoc in V. cbn [app] in V. rewrite <- !app_assoc in V. cbn [app] in V. exact V. }
    word H V' EN (parse_for (parse_statement n) ret).
    destruct (emit_for _ _ Body _ _ _ _ (IH n) GI GC GP _ _ _ _ _ _ _ NE V2 I0 CX E) as (b2 & V3 & EM). eauto.
  - (* break *) apply jump_stmt; auto.
  - (* continue *) apply jump_stmt; auto.
  - (* return *) assert (TR : exists l, tk (Ret e) = T_return :: l) by (destruct e; eexists; reflexivity). destruct TR as [l TR].
    eapply HEAD; [exact TR|exact I|reflexivity|reflexivity|reflexivity|]. intros n. now apply head_ret.
  - (* switch *) cbn in TD, G. destruct TD as (TD & FL & EW). destruct G as (GE & GW & G). specialize (IH InSwitch TD G). cbn in IH.
    eapply HEAD; [reflexivity|exact I|reflexivity|reflexivity|reflexivity|].
    intros n end_ st st1 r b brk cont base EN NE V I0 CX H. cbn [tk app] in V. rewrite <- app_assoc in V. cbn [app] in V.
    word H V EN (parse_switch (parse_statement n) ret).
    destruct (emit_switch _ _ Body _ _ (IH n) GE GW FL EW _ _ _ _ _ _ _ V2 I0 CX E) as (b2 & V3 & EM). eauto.
  - (* case *) cbn in TD. subst w. intros m n cases dflt td st res r b brk cont base NE TDL V I0 CX H.
    destruct n; [discriminate|]. cbn [parse_cases] in H. pose proof (proj1 V) as TT. cbn [tk app] in TT. rewrite TT in H.
    destruct (existsb (fun c => sc_hash c =? h) cases) eqn:EX; [discriminate|].
    assert (CU : cur st = b) by apply V. rewrite CU in H.
    exists n, (set_toks r st), b, [mkCase h (Base.s16 (size b))], dflt. split; [eapply view_toks; exact V|]. split; [exact H|].
    constructor; auto; try reflexivity.
    + now apply stepd_refl.
    + intros [].
    + constructor; [|constructor]. exists (size b). split; [lia|reflexivity].
    + intros ND. rewrite map_app. cbn [map sc_hash].
      assert (NI : ~ In h (map sc_hash cases)).
      { intros IN. apply in_map_iff in IN as (c & HC & IC). assert (existsb (fun c => sc_hash c =? h) cases = true); [|congruence].
        apply existsb_exists. exists c. split; [exact IC|]. rewrite HC. apply Z.eqb_refl. }
      apply NoDup_rev in ND. rewrite <- (rev_involutive (map sc_hash cases ++ [h])). apply NoDup_rev. rewrite rev_app_distr. cbn [rev app].
      constructor; [|exact ND]. now rewrite <- in_rev.
    + intros C B L cl dl SZ R K CL DL. cbn [shape]. split; [reflexivity|].
      specialize (CL _ (or_introl eq_refl)). cbn [sc_hash sc_off] in CL. rewrite s16_size in CL; [exact CL|pose proof (size_nonneg b); lia].
  - (* default *) cbn in TD. subst w. intros m n cases dflt td st res r b brk cont base NE TDL V I0 CX H.
    destruct n; [discriminate|]. cbn [parse_cases] in H. pose proof (proj1 V) as TT. cbn [tk app] in TT. rewrite TT in H.
    destruct (Z.eqb_spec dflt (-1)) as [DM|]; cbn [negb] in H; [|discriminate]. assert (CU : cur st = b) by apply V. rewrite CU in H.
    apply (view_toks _ _ _ _ _ _) with (tk' := r) in V. vemit H V b1 E1.
    destruct (step_set _ _ _ I0 E1) as (S1 & OF1 & AL1 & OP1 & LN1 & T1). apply size_of in AL1 as SZ1.
    match type of H with parse_cases _ _ _ _ _ _ ?x = _ => exists n, x, b1, [], (Base.s16 (size b)) end.
    rewrite app_nil_r. split; [exact V|]. split; [exact H|]. constructor; auto; try reflexivity.
    + rewrite OP1. exact CX.
    + intros [].
    + now rewrite app_nil_r.
    + cbn [has_default]. split; [exact DM|]. exists (size b). split; [lia|reflexivity].
    + intros C B L cl dl SZ R K CL DL. cbn [shape]. split; [lia|]. specialize (DL eq_refl). rewrite s16_size in DL; [exact DL|pose proof (size_nonneg b); lia].
  - (* braces *) destruct TD as [NB TD]. cbn in G. specialize (IH InBlock TD G). cbn in IH.
    assert (BODY : forall n, body_by (parse_statement n) ret (Braces s)).
    { intros n st st1 r b brk cont base NE V I0 CX H. destruct n; [discriminate|]. pose proof (proj1 V) as TT. cbn [tk app] in TT. rewrite <- app_assoc in TT. cbn [app] in TT.
      cbn [parse_statement] in H. rewrite TT in H. cbn [tok_eqb] in H. apply (view_toks _ _ _ _ _ _) with (tk' := tk s ++ T_rbrace :: r) in V.
      destruct (IH _ _ _ (T_rbrace :: r) _ _ _ _ I V I0 CX H) as (n' & st2 & b2 & V2 & EM & H2). destruct n'; [discriminate|].
      cbn [parse_statement] in H2. rewrite (proj1 V2) in H2. cbn [tok_eqb] in H2. injection H2 as <-.
      exists b2. split; [eapply view_toks; exact V2|]. now apply emitted_braces. }
    destruct w; [now destruct NB| |exact BODY]. intros n. eapply body_spine; [reflexivity|reflexivity|reflexivity|reflexivity|exact I|apply BODY].
Qed.
End All.
