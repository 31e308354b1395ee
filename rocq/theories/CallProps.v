(* C58: functions of a program over integer variables call each other, and themselves: what a call computes
   on the machine is what the body of the function says. *)
From Coq Require Import String.
From Verif Require Import Base BaseLemmas OpsModel VmModel VmSpec VmProofs OpsLocal EmitModel CcModel ExprModel ExprSpec ExprNest ExprStack LinkModel LinkSpec
  FuseSpec EvalSpec EvalProofs EvalRun EvalProps ProgSpec ProgCode ProgCtl ProgRun CallRun ProgMean ProgCall CallCode ProgProps.
From Verif Require CtlSpec CtlSem VmProps WholeProps.
Open Scope string_scope. Open Scope list_scope. Open Scope Z_scope.
Import CtlSem. Import (coercions) CtlSpec.

(* no function needs more than F places for its parameters and locals *)
Definition frames_fit (F : nat) (c : ctx) : Prop := Forall (fun f => (fn_args f + fn_frame f <= F)%nat) (vm_funs c).

(* Running a file whose statements call functions, at most d calls deep: as C57.  Each nested call needs room
   on the stack for its parameters, its locals and the place it returns to. *)
Theorem c58_run_partial : forall wide l img c k d F m genv ips z env1,
  built wide l img c -> sane k wide c -> frames_fit F c -> closed (k_base k) m -> globals_are genv m ->
  (k_protect k = true -> (k_base k + wide + 2 + d * (F + 1) < k_limit k)%nat) ->
  let env := fun q n => match q with SG => genv n | SL => None end in
  let calls := invokes (k_trap k) l (locals_of c) d in
  finishes (k_trap k) calls (outside l) env z env1 -> proper_end (k_trap k) calls CtlSpec.Body (outside l) env z env1 ->
  exists s2 s3, reaches (machine k img) (mkVm m (c_start c) (k_base k) 0 None None ips) s2 /\ machine k img s2 = Ok (Done s3) /\
    holds (vmem s3) (mv (vmem s3) (LStack (k_base k))) z /\
    globals_are (env1 SG) (vmem s3) /\ rest_kept (env1 SG) (k_base k) m (vmem s3) /\
    (computes (k_trap k) calls (outside l) env (CtlSpec.ORet z) env1 \/ nthZ img (vpc s3) = Some (byte_of O_Stop)).
Proof.
  intros wide l img c k d F m genv ips z env1 BU SA FF CL GA RM env calls FN PE. destruct (built_code _ _ _ _ ltac:(apply SA) BU) as (C & <- & CO).
  exact (run_general wide l c C k m genv ips z env1 calls (d * (F + 1)) CO (calls_tame wide l c C k CO d) (calls_work_nested wide l c C k F CO SA FF d) SA CL GA RM FN PE).
Qed.
(* The host calls the function number i, which calls others. *)
Theorem c58_host_call_partial : forall wide l img c k d F i h ps s f m stop ips genv zs first z env1,
  built wide l img c -> sane k wide c -> frames_fit F c -> nth_error (routines l) i = Some (h, ps, s) -> nth_error (vm_funs c) i = Some f ->
  closed (k_base k) m -> globals_are genv m -> Forall int32 zs -> int32 first ->
  (fn_frame f <> O -> if (length ps <? length zs)%nat then first = nth (length ps) zs 0
                      else u32 (rdi (k_pbits k) m (LStack (S (k_base k) + length ps))) = u32 first) ->
  (k_protect k = true -> (k_base k + 2 + length ps + fn_frame f + wide + 2 + d * (F + 1) < k_limit k)%nat) ->
  nthZ img stop = Some (byte_of O_Stop) ->
  let env := called genv (length ps) (fn_frame f) zs first in
  let calls := invokes (k_trap k) l (locals_of c) d in
  finishes (k_trap k) calls s env z env1 -> proper_end (k_trap k) calls CtlSpec.InBlock s env z env1 ->
  exists s1 s2 s3, host_call (k_pbits k) (k_base k) (k_limit k) (k_protect k) ips stop f (map (fun z => VInt (u32 z)) zs) m = Ok (Run s1) /\
    reaches (machine k img) s1 s2 /\ machine k img s2 = Ok (Done s3) /\
    holds (vmem s3) (mv (vmem s3) (LStack (k_base k))) z /\
    globals_are (env1 SG) (vmem s3) /\ rest_kept (env1 SG) (k_base k) m (vmem s3).
Proof.
  intros wide l img c k d F i h ps s f m stop ips genv zs first z env1 BU SA FF N1 N2 CL GA ZS RF FI RM ST env calls FN PE. destruct (built_code _ _ _ _ ltac:(apply SA) BU) as (C & <- & CO).
  exact (host_call_general wide l c C k i h ps s f m stop ips genv zs first z env1 calls (d * (F + 1)) CO (calls_tame wide l c C k CO d) (calls_work_nested wide l c C k F CO SA FF d) SA N1 N2 CL GA ZS RF FI RM ST FN PE).
Qed.
(* what a call does does not depend on the depth that is allowed *)
Theorem c58_depth : forall trap l locals d d' h zs g z g1, (d <= d')%nat -> invokes trap l locals d h zs g z g1 -> invokes trap l locals d' h zs g z g1.
Proof. intros trap l locals d d' h zs g z g1 L. now apply invokes_more. Qed.

(* ---------------------------------------------------------------- an example *)
(* function fact( n, r ) { calls = calls + 1; if( n <= 1 ) { return 1; } r = fact( n - 1 ); return n * r; }
   calls = 0; x = fact( 5 ); *)
Definition fact_body : prog :=
  PSeq (PSet (Sets SG 0 (Infix "+" (gv 0) (lit 1))))
  (PSeq (PIf (Infix "<=" (lv 0) (lit 1)) (PBraces (PReturn (Some (lit 1)))))
  (PSeq (PCall (Some (SL, 1)) 77 [Infix "-" (lv 0) (lit 1)]) (PReturn (Some (Infix "*" (lv 0) (lv 1)))))).
Definition fact_file : list pitem := [PFunction 77 [1; 2] fact_body; PGlobal (PSet (Sets SG 0 (lit 0))); PGlobal (PCall (Some (SG, 1)) 77 [lit 5])].
Definition fact_items : list CtlSem.item :=
  [Function 77 [1; 2] (px_code fact_body); Global (px_code (PSet (Sets SG 0 (lit 0)))); Global (px_code (PCall (Some (SG, 1)) 77 [lit 5]))].
Definition fact_image : list Z := Eval vm_compute in px_image fact_items.
Definition fact_ctx : ctx := Eval vm_compute in match create_context fact_image with Some c => c | None => mkC 0 0 [] end.
Ltac use_argument := split; [is_fine|]; split; [arith|]; split; [eexists _, _; (split; [vm_compute; reflexivity|]); (split; [vm_compute; reflexivity|]); vm_compute; reflexivity|]; split; [vm_compute; repeat constructor|]; intros ? X; first [discriminate X|injection X as <-; cbn; tauto].
Ltac use_call := split; [cbn; lia|]; split; [lia|]; split; [vm_compute; discriminate|]; constructor; [use_argument|constructor].
Example c58_ex_built : built 4 fact_file fact_image fact_ctx.
Proof.
  assert (X : exists g us, compile_units 200 (CtlSem.source fact_items) = COk (g, us) /\ link g us 0 [] [] = COk fact_image /\ Forall unit_fits us /\ Forall (fun u => lenZ (b_all (u_code u)) < 32768) us /\ lenZ (b_all g) < 32768).
  { eexists _, _. split; [vm_compute; reflexivity|]. split; [vm_compute; reflexivity|]. split; [|split].
    - constructor; [|constructor]. vm_compute. intuition discriminate.
    - constructor; [|constructor]. vm_compute. reflexivity.
    - vm_compute. reflexivity. }
  destruct X as (g & us & CM & LK & UF & US & GS).
  exists fact_items, 200%nat, g, us, 0, [], []. split.
  { constructor; [|constructor; [|constructor; [|constructor]]].
    - constructor; [|vm_compute; reflexivity|].
      + split; [use_set|]. split; [split; [use_expr|use_expr]|]. split; [use_call|use_expr].
      + vm_compute. intuition discriminate.
    - constructor; [use_set|vm_compute; reflexivity|]. vm_compute. intuition discriminate.
    - constructor; [use_call|vm_compute; reflexivity|]. vm_compute. intuition discriminate. }
  split; [exact CM|]. split; [exact LK|]. split; [vm_compute; reflexivity|]. split; [lia|]. split; [vm_compute; reflexivity|]. split; [vm_compute; discriminate|].
  split; [exact UF|]. split; [exact US|]. split; [exact GS|]. intros h ps s [E|[]]. injection E as <- _ _. vm_compute. discriminate.
Qed.
Example c58_ex_fit : frames_fit 2 fact_ctx.
Proof. constructor; [cbn; lia|constructor]. Qed.
Fixpoint factorial (n : nat) : Z := match n with O => 1 | S p => Z.of_nat n * factorial p end.
Definition fact_is : function_is fact_file 77 0 [1; 2] fact_body.
Proof. split; [reflexivity|]. intros j ps s L. lia. Qed.
Lemma fact_test trap env n : env SL 0 = Some n -> value_of trap env (Infix "<=" (lv 0) (lit 1)) = Some (if n <=? 1 then 1 else 0).
Proof. intros E. unfold value_of. cbn. rewrite E. cbn. destruct (n <=? 1); reflexivity. Qed.
Lemma fact_less trap env n : env SL 0 = Some n -> value_of trap env (Infix "-" (lv 0) (lit 1)) = Some (s32 (n - 1)).
Proof. intros E. unfold value_of. cbn -[s32]. rewrite E. reflexivity. Qed.
Lemma fact_times trap env n r : env SL 0 = Some n -> env SL 1 = Some r -> value_of trap env (Infix "*" (lv 0) (lv 1)) = Some (s32 (n * r)).
Proof. intros E E1. unfold value_of. cbn -[s32 Z.mul]. rewrite E, E1. reflexivity. Qed.
(* fact( n ) is the factorial modulo 2^32, for every n, and counts its calls *)
Lemma fact_computes trap n : forall (g : values) c, Z.of_nat n < 2147483648 -> g 0 = Some c ->
  exists g1, g1 0 = Some (s32 (c + Z.of_nat (Nat.max n 1))) /\ forall first, int32 first -> exists env1,
    computes trap (invokes trap fact_file (locals_of fact_ctx) n) fact_body (called g 2 0 [Z.of_nat n] first) (CtlSpec.ORet (s32 (factorial n))) env1 /\ forall x, env1 SG x = g1 x.
Proof.
  induction n as [|n IH]; intros g c RN GC.
  - exists (fun x => if 0 =? x then Some (s32 (c + 1)) else g x). split; [reflexivity|]. intros first RF.
    exists (set (called g 2 0 [0] first) SG 0 (s32 (c + 1))). split; [|reflexivity].
    eapply E_seq; [apply E_set, A_set with (old := c); [exact GC|unfold value_of; cbn -[s32]; rewrite GC; reflexivity]|].
    apply E_seq_exit; [|discriminate]. apply E_if; [|apply E_braces, E_ret; reflexivity]. exists 1. split; [reflexivity|discriminate].
  - destruct (Nat.eq_dec n 0) as [->|NZ].
    { exists (fun x => if 0 =? x then Some (s32 (c + 1)) else g x). split; [reflexivity|]. intros first RF.
      exists (set (called g 2 0 [1] first) SG 0 (s32 (c + 1))). split; [|reflexivity].
      eapply E_seq; [apply E_set, A_set with (old := c); [exact GC|unfold value_of; cbn -[s32]; rewrite GC; reflexivity]|].
      apply E_seq_exit; [|discriminate]. apply E_if; [|apply E_braces, E_ret; reflexivity]. exists 1. split; [reflexivity|discriminate]. }
    set (gg := fun x => if 0 =? x then Some (s32 (c + 1)) else g x).
    destruct (IH gg (s32 (c + 1)) ltac:(lia) eq_refl) as (g1 & G1 & ALL).
    exists g1. split.
    { rewrite G1. f_equal. apply s32_inj_u32. rewrite <- u32_add_l, u32_s32, u32_add_l. f_equal. lia. }
    intros first RF. set (env := called g 2 0 [Z.of_nat (S n)] first). set (env2 := set env SG 0 (s32 (c + 1))).
    exists (set (with_globals env2 g1) SL 1 (s32 (factorial n))). split; [|reflexivity].
    assert (L0 : env SL 0 = Some (Z.of_nat (S n))) by reflexivity.
    eapply E_seq; [apply E_set, A_set with (old := c); [exact GC|unfold value_of; cbn -[s32]; rewrite GC; reflexivity]|]. fold env2.
    assert (L2 : env2 SL 0 = Some (Z.of_nat (S n))) by reflexivity.
    eapply E_seq; [apply E_if_not; unfold holds_false; rewrite (fact_test _ _ _ L2); replace (Z.of_nat (S n) <=? 1) with false by lia; reflexivity|].
    eapply E_seq with (m1 := set (with_globals env2 g1) SL 1 (s32 (factorial n))).
    + apply E_call with (zs := [Z.of_nat n]) (z := s32 (factorial n)) (g := g1).
      * constructor; [|constructor]. rewrite (fact_less _ _ _ L2). f_equal. replace (Z.of_nat (S n) - 1) with (Z.of_nat n) by lia. apply s32_id. unfold is_s32. lia.
      * cbn [invokes]. exists O, [1; 2], fact_body. split; [exact fact_is|]. intros f0 RF0. destruct (ALL f0 RF0) as (env1 & CO & EG). exists env1. cbv zeta.
        split; [left; exact CO|]. split; [intros ? _ _; exact CO|exact EG].
      * apply T_set with (old := 0). reflexivity.
    + apply E_ret. rewrite (fact_times _ _ (Z.of_nat (S n)) (s32 (factorial n)) eq_refl eq_refl). f_equal. apply s32_inj_u32. cbn [factorial]. rewrite <- u32_mul_r, u32_s32, u32_mul_r. reflexivity.
Qed.
(* the host calls fact( n ) *)
Example c58_ex_fact : forall k m stop ips n c0, sane k 4 fact_ctx -> closed (k_base k) m -> int32 c0 -> mv m (LGlobal 0) = VInt (u32 c0) -> Z.of_nat n < 2147483648 ->
  (k_protect k = true -> (k_base k + 10 + 3 * n < k_limit k)%nat) -> nthZ fact_image stop = Some (byte_of O_Stop) ->
  exists f s1 s2 s3, nth_error (vm_funs fact_ctx) 0 = Some f /\
    host_call (k_pbits k) (k_base k) (k_limit k) (k_protect k) ips stop f [VInt (Z.of_nat n)] m = Ok (Run s1) /\
    reaches (machine k fact_image) s1 s2 /\ machine k fact_image s2 = Ok (Done s3) /\
    holds (vmem s3) (mv (vmem s3) (LStack (k_base k))) (s32 (factorial n)) /\ mv (vmem s3) (LGlobal 0) = VInt (u32 (c0 + Z.of_nat (Nat.max n 1))).
Proof.
  intros k m stop ips n c0 SA CL RC M0 RN RM ST. eexists.
  destruct (fact_computes (k_trap k) n (one_global c0) c0 RN eq_refl) as (g1 & G1 & ALL).
  assert (R0 : int32 0) by (unfold int32, int_min; lia). destruct (ALL 0 R0) as (env1 & CO & EG).
  destruct (c58_host_call_partial 4 fact_file fact_image fact_ctx k n 2 0 77 [1; 2] fact_body _ m stop ips (one_global c0) [Z.of_nat n] 0 (s32 (factorial n)) env1 c58_ex_built SA c58_ex_fit eq_refl eq_refl CL)
    as (s1 & s2 & s3 & HC & RE & DN & HO & GA & _).
  - intros q z G. unfold one_global in G. destruct (Z.eqb_spec q 0) as [->|]; [|discriminate]. injection G as <-. auto with zarith.
  - constructor; [unfold int32, int_min; lia|constructor].
  - exact R0.
  - intros NZ. destruct NZ. reflexivity.
  - intros Q. specialize (RM Q). cbn -[Nat.mul Nat.add]. cbn [length fn_frame]. lia.
  - exact ST.
  - left. exact CO.
  - intros c E T. exact CO.
  - exists s1, s2, s3. split; [reflexivity|]. cbn [map] in HC. replace (u32 (Z.of_nat n)) with (Z.of_nat n) in HC by (symmetry; unfold u32; apply Z.mod_small; lia).
    split; [exact HC|]. split; [exact RE|]. split; [exact DN|]. split; [exact HO|]. rewrite <- EG in G1.
    destruct (GA 0 _ G1) as (_ & _ & Q). rewrite u32_s32 in Q. exact Q.
Qed.
(* the file: x is 120, and five calls were counted *)
Definition two_globals (a b : Z) : values := fun n => if n =? 0 then Some a else if n =? 1 then Some b else None.
Example c58_ex_run : forall k m ips, sane k 4 fact_ctx -> closed (k_base k) m -> mv m (LGlobal 0) = VInt 7 -> mv m (LGlobal 1) = VInt 8 ->
  (k_protect k = true -> (k_base k + 24 < k_limit k)%nat) ->
  exists s2 s3, reaches (machine k fact_image) (mkVm m (c_start fact_ctx) (k_base k) 0 None None ips) s2 /\ machine k fact_image s2 = Ok (Done s3) /\
    mv (vmem s3) (LGlobal 0) = VInt 5 /\ mv (vmem s3) (LGlobal 1) = VInt 120.
Proof.
  intros k m ips SA CL M0 M1 RM.
  set (env := fun q n => match q with SG => two_globals 7 8 n | SL => None end).
  set (env0 := set env SG 0 0). destruct (fact_computes (k_trap k) 5 (env0 SG) 0 ltac:(lia) eq_refl) as (g1 & G1 & ALL).
  set (env1 := set (with_globals env0 g1) SG 1 120).
  assert (D1 : exists old, g1 1 = Some old).
  { destruct (ALL 0 ltac:(unfold int32, int_min; lia)) as (e & CO & EG). rewrite <- EG. destruct (e SG 1) eqn:E; [eauto|].
    destruct (built_code 4 fact_file fact_image fact_ctx ltac:(lia) c58_ex_built) as (C & _ & CC).
    assert (EX : exist (called (env0 SG) 2 0 [5] 0) 2).
    { apply (called_exist (env0 SG) 2 0 [5] 0); [|lia|constructor; [unfold int_min; lia|constructor]|unfold int_min; lia].
      intros n z. cbv beta iota delta [env0 env set two_globals space_eqb andb]. destruct (Z.eqb_spec 0 n); [intros [= <-]; unfold int_min; lia|]. destruct (Z.eqb_spec n 0); [lia|]. destruct (Z.eqb_spec n 1); [intros [= <-]; unfold int_min; lia|discriminate]. }
    pose proof (computes_domain _ _ _ _ _ _ 2 SG 1 (calls_tame 4 fact_file fact_ctx C k CC 5) CO EX E) as X. discriminate X. }
  destruct D1 as (old & D1).
  assert (CO : computes (k_trap k) (invokes (k_trap k) fact_file (locals_of fact_ctx) 6) (outside fact_file) env CtlSpec.ONormal env1).
  { eapply E_seq; [apply E_set, A_set with (old := 7); reflexivity|]. eapply E_seq; [|apply E_skip].
    apply E_call with (zs := [5]) (z := 120) (g := g1); [constructor; [reflexivity|constructor]| |apply T_set with (old := old); exact D1].
    exists O, [1; 2], fact_body. split; [exact fact_is|]. intros f0 RF0. destruct (ALL f0 RF0) as (e & CE & EG). exists e. cbv zeta.
    split; [left; exact CE|]. split; [intros ? _ _; exact CE|exact EG]. }
  destruct (c58_run_partial 4 fact_file fact_image fact_ctx k 6 2 m (two_globals 7 8) ips 0 env1 c58_ex_built SA c58_ex_fit CL) as (s2 & s3 & RE & ST & _ & GA & _ & _).
  - intros n z G. unfold two_globals in G. destruct (Z.eqb_spec n 0) as [->|]; [injection G as <-; unfold int32, int_min; auto with zarith|]. destruct (Z.eqb_spec n 1) as [->|]; [injection G as <-; unfold int32, int_min; auto with zarith|discriminate].
  - intros Q. specialize (RM Q). lia.
  - right. auto.
  - intros c E T. vm_compute in E. injection E as <-. discriminate T.
  - exists s2, s3. split; [exact RE|]. split; [exact ST|]. split; [|apply (GA 1 120); reflexivity]. destruct (GA 0 5) as (_ & _ & Q); [exact G1|exact Q].
Qed.

(* ---------------------------------------------------------------- where it fails *)
(* function f( a ) { g = 2; h = a + 1; }  g = 1; f( g );
   A variable is passed by reference: a is 2 once g is, and h is 3. *)
Definition by_ref : list pitem :=
  [PFunction 77 [1] (PSeq (PSet (Sets SG 0 (lit 2))) (PSet (Sets SG 1 (Infix "+" (lv 0) (lit 1))))); PGlobal (PSet (Sets SG 0 (lit 1))); PGlobal (PCall None 77 [gv 0])].
Definition by_ref_items : list CtlSem.item := Eval vm_compute in map (fun i => match i with PFunction h ps s => Function h ps (px_code s) | PGlobal s => Global (px_code s) end) by_ref.
Definition by_ref_image : list Z := Eval vm_compute in px_image by_ref_items.
Definition by_ref_ctx : ctx := Eval vm_compute in match create_context by_ref_image with Some c => c | None => mkC 0 0 [] end.
Theorem c58_reference_refuted : 
  (* the file says that h is 2 *)
  (let env := fun q n => match q with SG => two_globals 0 0 n | SL => None end in
   exists env1, computes true (invokes true by_ref (locals_of by_ref_ctx) 1) (outside by_ref) env CtlSpec.ONormal env1 /\ env1 SG 1 = Some 2) /\
  (* it is compiled, and then h is 3 *)
  Forall2 (fun i x => match i, x with PFunction h ps s, Function h' ps' b => h = h' /\ ps = ps' /\ statement s = COk b | PGlobal s, Global b => statement s = COk b | _, _ => False end) by_ref by_ref_items /\
  (exists s, px_go by_ref_ctx by_ref_image 200 (mkVm px_empty (c_start by_ref_ctx) 0 0 None None 10) = Ok (Done s) /\ mv (vmem s) (LGlobal 1) = VInt 3) /\
  sane (px_machine by_ref_ctx) 4 by_ref_ctx.
Proof.
  split; [|split; [|split]].
  - cbv zeta. set (env := fun q n => match q with SG => two_globals 0 0 n | SL => None end). set (env0 := set env SG 0 1).
    set (g1 := fun n => if 1 =? n then Some 2 else if 0 =? n then Some 2 else env0 SG n). exists (with_globals env0 g1). split; [|reflexivity].
    eapply E_seq; [apply E_set, A_set with (old := 0); reflexivity|]. eapply E_seq; [|apply E_skip].
    apply E_call with (zs := [1]) (z := 0) (g := g1); [constructor; [reflexivity|constructor]| |apply T_drop].
    exists O, [1], (PSeq (PSet (Sets SG 0 (lit 2))) (PSet (Sets SG 1 (Infix "+" (lv 0) (lit 1))))). split; [split; [reflexivity|intros j ? ? L; lia]|].
    intros first RF. exists (set (set (called (env0 SG) 1 0 [1] first) SG 0 2) SG 1 2). cbv zeta. split; [|split; [|reflexivity]].
    + right. split; [reflexivity|]. eapply E_seq; [apply E_set, A_set with (old := 1); reflexivity|]. apply E_set, A_set with (old := 0); reflexivity.
    + intros c E T. vm_compute in E. injection E as <-. discriminate T.
  - repeat (constructor; [first [split; [reflexivity|]; split; [reflexivity|]; vm_compute; reflexivity|vm_compute; reflexivity]|]). constructor.
  - eexists. split; [vm_compute; reflexivity|]. vm_compute. reflexivity.
  - split; [cbn; lia|]. split; [intros ? ? ? ? ? ?; reflexivity|]. split; [intros ? ? ? ? ? ?; reflexivity|]. split; [intros h f E; discriminate E|]. split; [lia|reflexivity].
Qed.

Print Assumptions c58_run_partial.
Print Assumptions c58_host_call_partial.
Print Assumptions c58_depth.
Print Assumptions c58_ex_fact.
Print Assumptions c58_ex_run.
Print Assumptions c58_reference_refuted.
