(* Proofs for C57: a program that computes something means the same on the machine. *)
From Coq Require Import String.
From Verif Require Import Base BaseLemmas OpsModel VmModel VmSpec OpsLocal EmitModel ExprModel ExprSpec ExprNest ExprStack
  OpsProofs2 FuseSpec EvalSpec EvalProofs EvalRun EvalNest EvalBlock ProgSpec ProgCode ProgCtl ProgRun CallRun.
From Verif Require CtlSpec CtlSem.
Open Scope string_scope. Open Scope list_scope. Open Scope Z_scope.
Import CtlSem. Import (coercions) CtlSpec.

(* ---------------------------------------------------------------- values are 32 bit integers *)
Lemma int_value_range {leaf} trap (env : leaf -> option Z) t : (forall x y, In x (operands t) -> env x = Some y -> is_s32 y) ->
  forall z, int_value trap env t = Some z -> is_s32 z.
Proof.
  induction t as [x|s t IH|s x t IH|s l IHl r IHr]; intros F z; cbn [int_value operands] in *.
  - apply F. now left.
  - destruct (look int_prefixes s) as [f|] eqn:L; [|discriminate]. destruct (int_value trap env t) as [y|]; [|discriminate]. intros H.
    apply prefix_int1 in L. destruct L as (c & _ & _ & G). eapply int1_range; [exact (IH F y eq_refl)|]. rewrite G. exact H.
  - discriminate.
  - destruct (look (int_infixes trap) s) as [f|] eqn:L; [|discriminate]. destruct (int_value trap env l) as [x|]; [|discriminate].
    destruct (int_value trap env r) as [y|]; [|discriminate]. intros H. apply infix_int2 in L. destruct L as (n & a & c & _ & _ & G).
    eapply int2_range; [apply IHl; [|reflexivity]|apply IHr; [|reflexivity]|rewrite G; exact H]; intros u v I; apply F, in_or_app; auto.
Qed.
Lemma operand_range trap env nl : exist env nl -> forall n e z, (depth e <= n)%nat -> operand_value trap env e = Some z -> is_s32 z.
Proof.
  intros EX. induction n as [n IH] using (well_founded_induction lt_wf). intros e z D V. destruct e as [c|q c|t]; cbn [operand_value] in V.
  - destruct ((int_min <=? c) && (c <=? 2147483647)) eqn:E; [|discriminate]. injection V as <-. unfold is_s32, EvalSpec.int_min in *. lia.
  - destruct (EX _ _ _ V) as (_ & Q & _). exact Q.
  - cbn [depth] in D. eapply int_value_range; [|exact V]. intros x y IN X. pose proof (max_in depth t x IN). apply (IH (pred n)) with (3 := X); lia.
Qed.
Lemma value_range trap env nl t z : exist env nl -> value_of trap env t = Some z -> is_s32 z.
Proof. intros EX. apply int_value_range. intros x y _ X. eapply operand_range; eauto. Qed.
Lemma assigns_exist trap a env env1 nl : assigns trap a env env1 -> exist env nl -> exist env1 nl.
Proof.
  intros A EX. destruct A as [q n t env old z EQ V|s f q n t env old y z LK EQ V FZ|s d after q n env old LK EQ RZ]; eapply set_exist; eauto.
  - exact (value_range _ _ _ _ _ EX V).
  - destruct (EX _ _ _ EQ) as (_ & RO & _). exact (change_range _ _ _ _ _ _ LK RO (value_range _ _ _ _ _ EX V) FZ).
Qed.
Lemma assigns_all_exist trap l env env1 nl : assigns_all trap l env env1 -> exist env nl -> exist env1 nl.
Proof. induction 1; auto. intros EX. apply IHassigns_all. eapply assigns_exist; eauto. Qed.
Lemma args_range trap env nl args zs : exist env nl -> Forall2 (fun e x => value_of trap env e = Some x) args zs -> Forall int32 zs.
Proof. intros EX. induction 1; constructor; auto. exact (value_range _ _ _ _ _ EX H). Qed.
Lemma computes_exist trap invoke s env o env1 nl : tame invoke -> computes trap invoke s env o env1 -> exist env nl -> exist env1 nl.
Proof.
  intros T. induction 1; intros EX; eauto using assigns_exist, assigns_all_exist.
  destruct (T _ _ _ _ _ H0 (args_range _ _ _ _ _ EX H) (exist_ranged _ _ EX)) as (RZ & RG & _). eapply receives_exist; [eassumption|now apply with_exist|exact RZ].
Qed.
(* a variable that holds an integer goes on holding one *)
Lemma set_domain env q n z q1 n1 : set env q n z q1 n1 = None -> env q1 n1 = None.
Proof. unfold set. destruct (space_eqb q q1 && (n =? n1)); [discriminate|auto]. Qed.
Lemma assigns_domain trap a env env1 q n : assigns trap a env env1 -> env1 q n = None -> env q n = None.
Proof. intros []; apply set_domain. Qed.
Lemma assigns_all_domain trap l env env1 q n : assigns_all trap l env env1 -> env1 q n = None -> env q n = None.
Proof. induction 1; auto. intros H1. eapply assigns_domain; eauto. Qed.
Lemma computes_domain trap invoke s env o env1 nl q n : tame invoke -> computes trap invoke s env o env1 -> exist env nl -> env1 q n = None -> env q n = None.
Proof.
  intros T. induction 1; intros EX N; eauto using assigns_domain, assigns_all_domain, computes_exist, assigns_exist, assigns_all_exist.
  - eapply assigns_all_domain in H2; eauto 7 using computes_exist, assigns_all_exist.
  - destruct (T _ _ _ _ _ H0 (args_range _ _ _ _ _ EX H) (exist_ranged _ _ EX)) as (_ & _ & D).
    assert (X : with_globals m g q n = None) by (destruct H1; [exact N|eapply set_domain; exact N]). destruct q; cbn in X; auto.
Qed.
Lemma computes_result trap invoke s env o env1 nl : tame invoke -> computes trap invoke s env o env1 -> exist env nl -> forall z, o = CtlSpec.ORet z -> int32 z.
Proof.
  intros T. induction 1; intros EX y EY; try discriminate; eauto using computes_exist, assigns_exist.
  - eapply IHcomputes2; eauto 7 using computes_exist, assigns_all_exist.
  - injection EY as <-. exact (value_range _ _ _ _ _ EX H).
  - injection EY as <-. unfold int32, int_min. lia.
Qed.

(* ---------------------------------------------------------------- the selected part of a switch *)
Lemma parts_items s : forall c, statement s = COk c -> Forall2 (fun x y => statement x = COk y) (parts s) (CtlSpec.items c).
Proof.
  induction s; intros x H; cbn [parts]; [injection H as <-; constructor| |..];
    try (assert (HH := H); cbn [statement] in HH; repeat (apply bind_some in HH; destruct HH as (? & ? & HH)); injection HH as <-; cbn [CtlSpec.items]; constructor; [exact H|constructor]).
  cbn [statement] in H. apply bind_some in H as (a & A & H). apply bind_some in H as (b & B & H). injection H as <-. cbn [CtlSpec.items].
  apply Forall2_app; auto.
Qed.
Lemma not_case s c h : statement s = COk c -> c = CtlSpec.Case h -> exists z, s = PCase z /\ h = u32 z.
Proof.
  intros H ->. destruct s; cbn [statement] in H; repeat (apply bind_some in H; destruct H as (? & ? & H)); try discriminate. injection H as <-. eauto.
Qed.
Lemma not_default s c : statement s = COk c -> c = CtlSpec.Default -> s = PDefault.
Proof. intros H ->. destruct s; cbn [statement] in H; repeat (apply bind_some in H; destruct H as (? & ? & H)); try discriminate. reflexivity. Qed.
Lemma u32_inj x z : is_s32 x -> is_s32 z -> u32 x = u32 z -> x = z.
Proof. intros A B E. rewrite <- (s32_small x A), <- (s32_small z B), E. reflexivity. Qed.
Section Chosen.
Variables (ret : opcode) (wide : nat).
Lemma parts_usable s : usable_prog ret wide s -> Forall (usable_prog ret wide) (parts s).
Proof. induction s; intros U; cbn [parts]; [constructor| |..]; try (constructor; [exact U|constructor]). destruct U. apply Forall_app; auto. Qed.
Lemma case_found z l k : is_s32 z -> Forall (usable_prog ret wide) l -> Forall2 (fun x y => statement x = COk y) l k ->
  match after_case z l with
  | Some r => exists r', CtlSpec.from_case (u32 z) k = Some r' /\ Forall2 (fun x y => statement x = COk y) r r' /\ Forall (usable_prog ret wide) r
  | None => CtlSpec.from_case (u32 z) k = None
  end.
Proof.
  intros RZ U F. induction F as [|x y l k E F IH]; [reflexivity|]. inversion U as [|? ? UX UL]; subst. specialize (IH UL).
  destruct x; try solve [cbn [after_case]; assert (Q : CtlSpec.from_case (u32 z) (y :: k) = CtlSpec.from_case (u32 z) k);
    [destruct y; try reflexivity; destruct (not_case _ _ _ E eq_refl) as (? & ? & _); discriminate|rewrite Q; exact IH]].
  cbn [statement] in E. injection E as <-. cbn [after_case CtlSpec.from_case]. destruct (Z.eqb_spec z0 z) as [->|N].
  - rewrite Z.eqb_refl. eauto.
  - destruct (Z.eqb_spec (u32 z0) (u32 z)) as [Q|_]; [|exact IH]. exfalso. apply N. cbn [usable_prog] in UX. apply u32_inj; auto. apply UX.
Qed.
Lemma default_found l k : Forall (usable_prog ret wide) l -> Forall2 (fun x y => statement x = COk y) l k ->
  match after_default l with
  | Some r => exists r', CtlSpec.from_default k = Some r' /\ Forall2 (fun x y => statement x = COk y) r r' /\ Forall (usable_prog ret wide) r
  | None => CtlSpec.from_default k = None
  end.
Proof.
  intros U F. induction F as [|x y l k E F IH]; [reflexivity|]. inversion U as [|? ? UX UL]; subst. specialize (IH UL).
  destruct x; try solve [cbn [after_default]; assert (Q : CtlSpec.from_default (y :: k) = CtlSpec.from_default k);
    [destruct y; try reflexivity; pose proof (not_default _ _ E eq_refl); discriminate|rewrite Q; exact IH]].
  cbn [statement] in E. injection E as <-. cbn [after_default CtlSpec.from_default]. eauto.
Qed.
Lemma in_order_statement l k : Forall2 (fun x y => statement x = COk y) l k -> statement (in_order l) = COk (CtlSpec.seq_of k).
Proof. induction 1 as [|x y l k E F IH]; [reflexivity|]. cbn [in_order statement CtlSpec.seq_of]. now rewrite E, IH. Qed.
Lemma in_order_usable l : Forall (usable_prog ret wide) l -> usable_prog ret wide (in_order l).
Proof. induction 1; cbn [in_order usable_prog]; auto. Qed.
Lemma chosen_selected z s c : is_s32 z -> usable_prog ret wide s -> statement s = COk c ->
  statement (in_order (chosen z s)) = COk (CtlSpec.seq_of (CtlSpec.selected (u32 z) c)) /\ usable_prog ret wide (in_order (chosen z s)).
Proof.
  intros RZ U E. pose proof (parts_usable _ U) as UP. pose proof (parts_items _ _ E) as F. pose proof (case_found z _ _ RZ UP F) as G.
  pose proof (default_found _ _ UP F) as D. unfold chosen, CtlSpec.selected. destruct (after_case z (parts s)) as [r|].
  - destruct G as (r' & -> & F' & U'). auto using in_order_statement, in_order_usable.
  - rewrite G. destruct (after_default (parts s)) as [r|].
    + destruct D as (r' & -> & F' & U'). auto using in_order_statement, in_order_usable.
    + rewrite D. cbn. auto.
Qed.
End Chosen.

(* ---------------------------------------------------------------- programs *)
Section Means.
Variables (k : config) (C : CtlSpec.image) (B fb nl wide : nat) (m0 : mem).
Hypothesis frame : (fb + nl <= B)%nat.
Hypothesis shut : closed B m0.
Hypothesis deep : (3 <= k_fuel k)%nat.
Hypothesis OH : local_fn (k_obj_hash k).
Hypothesis AS : local_fn (k_as_string k).
Hypothesis LL : lib_local (k_lib k).
Hypothesis narrow : (wide <= 254)%nat.
Variables (ret : opcode) (caller : nat) (rp : nat).
Hypothesis RET : ends_a_function ret.
Hypothesis vector : ret = O_Return -> (fb + nl < B)%nat /\ mv m0 (LStack (B - 1)) = VRaw caller rp.
Notation trap := (k_trap k).
Variable invoke : Z -> list Z -> values -> Z -> values -> Prop.
Variable spare : nat.
Hypothesis spacious : k_protect k = true -> (B + wide + 2 + spare < k_limit k)%nat.
Let room : k_protect k = true -> (B + wide + 2 < k_limit k)%nat.
Proof. intros X. specialize (spacious X). lia. Qed.
Hypothesis TAME : tame invoke.
Hypothesis WORK : calls_work k C wide invoke spare.
Notation Rr := (R B fb nl m0).
Notation done := (ended B fb nl m0 ret caller rp).
Notation runM := (run_means (machine k C) C variables Rr).
Notation condM := (cond_means (machine k C) C variables Rr).
Notation meansM := (means (machine k C) (top_hash k) C ret variables (Z * variables) Rr done).
Definition lift (o : CtlSpec.oc Z) (env : variables) : CtlSpec.oc (Z * variables) :=
  match o with CtlSpec.ONormal => CtlSpec.ONormal | CtlSpec.OBreak => CtlSpec.OBreak | CtlSpec.OCont => CtlSpec.OCont | CtlSpec.ORet z => CtlSpec.ORet (z, env) end.
Lemma true_means c b env : usable wide O_BZ c -> compile c = COk b -> holds_true trap env c -> condM b env true env.
Proof.
  intros U E (z & V & N). replace true with (negb (z =? 0)) by (destruct (Z.eqb_spec z 0); [contradiction|reflexivity]). eapply condition_means; eauto.
Qed.
Lemma false_means c b env : usable wide O_BZ c -> compile c = COk b -> holds_false trap env c -> condM b env false env.
Proof. intros U E V. exact (condition_means k C B fb nl wide m0 frame shut deep OH AS LL narrow room c b env 0 U E V). Qed.
Lemma all_means l bs env env1 : Forall (usable_setting wide) l -> compile_settings l = COk bs -> assigns_all trap l env env1 ->
  CtlSpec.runs variables runM bs env env1.
Proof.
  intros U E A. revert bs U E. induction A as [|a l env env1 env2 A AA IH]; intros bs U E; cbn [compile_settings] in E.
  - injection E as <-. constructor.
  - apply bind_some in E as (b & E1 & E). apply bind_some in E as (bs' & E2 & E). injection E as <-. inversion U; subst.
    econstructor; [eapply setting_means; eauto|]. auto.
Qed.
Lemma in_means c b env : match c with Some c => usable wide O_BZ c | None => True end -> compile_option c = COk b -> goes_in trap env c ->
  match b with Some b => condM b env true env | None => env = env end.
Proof.
  intros U E G. destruct c as [c|]; cbn [compile_option] in E.
  - apply bind_some in E as (b' & E1 & E). injection E as <-. eapply true_means; eauto.
  - injection E as <-. reflexivity.
Qed.
Ltac inv E := repeat (let x := fresh "b" in let Q := fresh "Q" in apply bind_some in E; destruct E as (x & Q & E)); injection E as <-.
Lemma lift_goes o env : o = CtlSpec.ONormal \/ o = CtlSpec.OCont -> CtlSpec.goes_on (Z * variables) (lift o env).
Proof. intros [->|[=->]]; [now left|now right]. Qed.
Theorem program_means s env o env1 : computes trap invoke s env o env1 -> forall c, exist env nl -> usable_prog ret wide s -> statement s = COk c ->
  meansM c env (lift o env1) env1.
Proof.
  unfold means. induction 1; intros c0 EX U E; cbn [usable_prog] in U; cbn [statement] in E.
  - injection E as <-. constructor.
  - injection E as <-. constructor.
  - injection E as <-. constructor.
  - inv E. destruct U as [U1 U2]. econstructor; [exact (IHcomputes1 _ EX U1 Q)|]. apply IHcomputes2; eauto using computes_exist.
  - inv E. destruct U as [U1 U2]. apply CtlSpec.X_seq_exit; [exact (IHcomputes _ EX U1 Q)|]. destruct o; cbn; congruence.
  - inv E. constructor. auto.
  - inv E. constructor. eapply setting_means; eauto.
  - inv E. destruct U as [U1 U2]. eapply CtlSpec.X_if; [eapply true_means; eauto|]. auto.
  - inv E. destruct U as [U1 U2]. eapply CtlSpec.X_if_not; eapply false_means; eauto.
  - inv E. destruct U as (U1 & U2 & U3). eapply CtlSpec.X_then; [eapply true_means; eauto|]. auto.
  - inv E. destruct U as (U1 & U2 & U3). eapply CtlSpec.X_else; [eapply false_means; eauto|]. auto.
  - inv E. destruct U as [U1 U2]. eapply CtlSpec.X_while_end; eapply false_means; eauto.
  - assert (E0 := E). inv E. destruct U as [U1 U2]. eapply CtlSpec.X_while; [eapply true_means; eauto|apply IHcomputes1; eauto|now apply lift_goes|].
    apply IHcomputes2; cbn [usable_prog statement]; eauto using computes_exist.
  - inv E. destruct U as [U1 U2]. eapply CtlSpec.X_while_break; [eapply true_means; eauto|]. exact (IHcomputes _ EX U2 Q0).
  - inv E. destruct U as [U1 U2]. eapply CtlSpec.X_while_ret; [eapply true_means; eauto|]. exact (IHcomputes _ EX U2 Q0).
  - inv E. destruct U as [U1 U2]. eapply CtlSpec.X_do_end; [apply IHcomputes; eauto|now apply lift_goes|]. eapply false_means; eauto using computes_exist.
  - assert (E0 := E). inv E. destruct U as [U1 U2]. eapply CtlSpec.X_do; [apply IHcomputes1; eauto|now apply lift_goes|eapply true_means; eauto|].
    apply IHcomputes2; cbn [usable_prog statement]; eauto using computes_exist.
  - inv E. destruct U as [U1 U2]. eapply CtlSpec.X_do_break. exact (IHcomputes _ EX U2 Q).
  - inv E. destruct U as [U1 U2]. eapply CtlSpec.X_do_ret. exact (IHcomputes _ EX U2 Q).
  - destruct U as (U1 & U2 & U3 & U4). inversion U1; subst. apply bind_some in E as (bi & E1 & E). cbn [compile_settings] in E1.
    apply bind_some in E1 as (b1 & E1 & E2). apply bind_some in E2 as (bs & E2 & E3). injection E3 as <-.
    apply bind_some in E as (bc & E4 & E). apply bind_some in E as (bp & E5 & E). apply bind_some in E as (x & E6 & E). injection E as <-.
    eapply CtlSpec.X_for_init; [eapply setting_means; eauto|]. apply IHcomputes; [eauto using assigns_exist|cbn [usable_prog]; auto|]. cbn [statement]. now rewrite E2, E4, E5, E6.
  - destruct U as (U1 & U2 & U3 & U4). cbn [compile_settings compile_option] in E. apply bind_some in E as (bi & E1 & E). injection E1 as <-.
    apply bind_some in E as (bc & E4 & E). apply bind_some in E4 as (bc' & E4 & E4'). injection E4' as <-. inv E.
    eapply CtlSpec.X_for_end; eapply false_means; eauto.
  - assert (E0 := E). destruct U as (U1 & U2 & U3 & U4). apply bind_some in E as (bi & E1 & E). injection E1 as <-. inv E.
    eapply CtlSpec.X_for; [eapply in_means; eauto|apply IHcomputes1; eauto|now apply lift_goes|eapply all_means; eauto|].
    apply IHcomputes2; cbn [usable_prog statement]; eauto using computes_exist, assigns_all_exist.
  - destruct U as (U1 & U2 & U3 & U4). apply bind_some in E as (bi & E1 & E). injection E1 as <-. inv E.
    eapply CtlSpec.X_for_break; [eapply in_means; eauto|]. exact (IHcomputes _ EX U4 Q1).
  - destruct U as (U1 & U2 & U3 & U4). apply bind_some in E as (bi & E1 & E). injection E1 as <-. inv E.
    eapply CtlSpec.X_for_ret; [eapply in_means; eauto|]. exact (IHcomputes _ EX U4 Q1).
  - injection E as <-. constructor.
  - injection E as <-. constructor.
  - cbn [compile_option] in E. apply bind_some in E as (b & E1 & E). apply bind_some in E1 as (b' & E1 & E1'). injection E1' as <-. injection E as <-.
    constructor. eapply returned_means; eauto.
  - injection E as <-. constructor. eapply nothing_means; eauto.
  - inv E. destruct U as [(U1 & U2 & U3 & U4) U5]. pose proof (value_range _ _ _ _ _ EX H) as RZ.
    destruct (chosen_selected ret wide z s _ RZ U5 Q0) as [ST US].
    eapply CtlSpec.X_switch with (o := lift o m1); [eapply selector_means; eauto|apply IHcomputes; eauto|]. destruct H1 as [->| ->]; auto.
  - inv E. destruct U as [(U1 & U2 & U3 & U4) U5]. pose proof (value_range _ _ _ _ _ EX H) as RZ.
    destruct (chosen_selected ret wide z s _ RZ U5 Q0) as [ST US].
    eapply CtlSpec.X_switch_exit; [eapply selector_means; eauto|apply IHcomputes; eauto|]. destruct H1 as [->|[x ->]]; cbn; eauto.
  - inv E. constructor. exact (call_means k C B fb nl wide m0 frame shut deep OH AS LL narrow invoke spare spacious TAME WORK to h args _ m zs z g m1 EX U Q H H0 H1).
Qed.
End Means.
