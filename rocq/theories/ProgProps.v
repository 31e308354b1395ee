(* C57: programs over integer variables compute on the machine what they say.  Here they call no functions;
   calls are C58 (CallProps). *)
From Coq Require Import String.
From Verif Require Import Base BaseLemmas OpsModel VmModel VmSpec VmProofs OpsLocal EmitModel CcModel ExprModel ExprSpec ExprNest ExprStack LinkModel LinkSpec
  FuseSpec EvalSpec EvalProofs EvalRun EvalProps ProgSpec ProgCode ProgCtl ProgRun CallRun ProgMean ProgCall CallCode.
From Verif Require CtlSpec CtlSem VmProps WholeProps.
Open Scope string_scope. Open Scope list_scope. Open Scope Z_scope.
Import CtlSem. Import (coercions) CtlSpec.

(* ---------------------------------------------------------------- the theorems *)
(* Running a file: the code outside functions, started on the empty stack with the globals genv, ends; the
   globals are then what it computes, and the host gets its result.  When it ends without a return, the
   machine is left where the functions that the host calls return to. *)
Theorem c57_run_partial : forall wide l img c k m genv ips z env1,
  built wide l img c -> sane k wide c -> closed (k_base k) m -> globals_are genv m ->
  (k_protect k = true -> (k_base k + wide + 2 < k_limit k)%nat) ->
  let env := fun q n => match q with SG => genv n | SL => None end in
  finishes (k_trap k) no_calls (outside l) env z env1 -> proper_end (k_trap k) no_calls CtlSpec.Body (outside l) env z env1 ->
  exists s2 s3, reaches (machine k img) (mkVm m (c_start c) (k_base k) 0 None None ips) s2 /\ machine k img s2 = Ok (Done s3) /\
    holds (vmem s3) (mv (vmem s3) (LStack (k_base k))) z /\
    globals_are (env1 SG) (vmem s3) /\ rest_kept (env1 SG) (k_base k) m (vmem s3) /\
    (computes (k_trap k) no_calls (outside l) env (CtlSpec.ORet z) env1 \/ nthZ img (vpc s3) = Some (byte_of O_Stop)).
Proof.
  intros wide l img c k m genv ips z env1 BU SA CL GA RM env FN PE. destruct (built_code _ _ _ _ ltac:(apply SA) BU) as (C & <- & CO).
  apply (run_general wide l c C k m genv ips z env1 no_calls 0 CO no_calls_tame (no_calls_work k C wide) SA); auto. intros X. specialize (RM X). lia.
Qed.

(* The host calls the function number i of the file with the integers zs.  [stop]: where the code outside
   functions ended. *)
Theorem c57_host_call_partial : forall wide l img c k i h ps s f m stop ips genv zs first z env1,
  built wide l img c -> sane k wide c -> nth_error (routines l) i = Some (h, ps, s) -> nth_error (vm_funs c) i = Some f ->
  closed (k_base k) m -> globals_are genv m -> Forall int32 zs -> int32 first ->
  (* the first local: the first argument too many, or what is left on the stack *)
  (fn_frame f <> O -> if (length ps <? length zs)%nat then first = nth (length ps) zs 0
                      else u32 (rdi (k_pbits k) m (LStack (S (k_base k) + length ps))) = u32 first) ->
  (k_protect k = true -> (k_base k + 2 + length ps + fn_frame f + wide + 2 < k_limit k)%nat) ->
  nthZ img stop = Some (byte_of O_Stop) ->
  let env := called genv (length ps) (fn_frame f) zs first in
  finishes (k_trap k) no_calls s env z env1 -> proper_end (k_trap k) no_calls CtlSpec.InBlock s env z env1 ->
  exists s1 s2 s3, host_call (k_pbits k) (k_base k) (k_limit k) (k_protect k) ips stop f (map (fun z => VInt (u32 z)) zs) m = Ok (Run s1) /\
    reaches (machine k img) s1 s2 /\ machine k img s2 = Ok (Done s3) /\
    holds (vmem s3) (mv (vmem s3) (LStack (k_base k))) z /\
    globals_are (env1 SG) (vmem s3) /\ rest_kept (env1 SG) (k_base k) m (vmem s3).
Proof.
  intros wide l img c k i h ps s f m stop ips genv zs first z env1 BU SA N1 N2 CL GA ZS RF FI RM ST env FN PE. destruct (built_code _ _ _ _ ltac:(apply SA) BU) as (C & <- & CO).
  apply (host_call_general wide l c C k i h ps s f m stop ips genv zs first z env1 no_calls 0 CO no_calls_tame (no_calls_work k C wide) SA); auto. intros X. specialize (RM X). lia.
Qed.

(* A call inside the program: the values of the arguments are on top of the stack.  If the result is used,
   it takes their place. *)
Theorem c57_call_partial : forall wide l img c k i h ps s f st ret genv zs first z env1,
  built wide l img c -> sane k wide c -> nth_error (routines l) i = Some (h, ps, s) -> nth_error (vm_funs c) i = Some f ->
  decode img (vpc st) = Some (ICall (length zs) i, ret) -> 0 <= ret -> (length zs <= vsp st)%nat ->
  let p := (vsp st - length zs)%nat in
  closed p (vmem st) -> globals_are genv (vmem st) -> integers (vmem st) p zs -> int32 first ->
  (fn_frame f <> O -> u32 (rdi (k_pbits k) (vmem st) (LStack (p + length ps))) = u32 first) ->
  (k_protect k = true -> (p + 1 + length ps + fn_frame f + wide + 2 < k_limit k)%nat) ->
  let env := called genv (length ps) (fn_frame f) zs first in
  finishes (k_trap k) no_calls s env z env1 -> proper_end (k_trap k) no_calls CtlSpec.InBlock s env z env1 ->
  exists t, reaches (machine k img) st t /\ vpc t = ret /\ vsp t = p /\ vfb t = vfb st /\
    globals_are (env1 SG) (vmem t) /\ rest_kept (env1 SG) p (vmem st) (vmem t) /\
    forall r, decode img ret = Some (IPushRet, r) ->
    exists u, reaches (machine k img) st u /\ vpc u = r /\ vsp u = S p /\ vfb u = vfb st /\ mv (vmem u) (LStack p) = VInt (u32 z) /\
      globals_are (env1 SG) (vmem u) /\ rest_kept (env1 SG) p (vmem st) (vmem u).
Proof.
  intros wide l img c k i h ps s f st ret genv zs first z env1 BU SA N1 N2 DC R0 LE p CL GA ZS RF FI RM env FN PE. destruct (built_code _ _ _ _ ltac:(apply SA) BU) as (C & <- & CO).
  apply (call_general wide l c C k i h ps s f st ret genv zs first z env1 no_calls 0 CO no_calls_tame (no_calls_work k C wide) SA N1 N2 DC); auto. intros X. specialize (RM X). unfold p in RM. lia.
Qed.

(* ---------------------------------------------------------------- an example *)
(* function f( n, s, i ) { for( i = 1; i <= n; i++ ) { if( i == 3 ) { continue; } s += i; } g = g + 1; return s; }
   g = 41; *)
Definition ex_f : prog :=
  PSeq (PFor [(Sets SL 2 (lit 1))] (Some (Infix "<=" (lv 2) (lv 0))) [Steps "++" true SL 2]
         (PBraces (PSeq (PIf (Infix "==" (lv 2) (lit 3)) (PBraces PContinue)) (PSet (Changes "+=" SL 1 (lv 2))))))
  (PSeq (PSet (Sets SG 0 (Infix "+" (gv 0) (lit 1)))) (PReturn (Some (lv 1)))).
Definition ex_file : list pitem := [PFunction 77 [1; 2; 3] ex_f; PGlobal (PSet (Sets SG 0 (lit 41)))].
Ltac use_misled := eexists _, _, _, _; (split; [vm_compute; reflexivity|]); (split; [vm_compute; reflexivity|]); (split; [vm_compute; reflexivity|]); (split; [vm_compute; reflexivity|]); split; vm_compute; reflexivity.
Ltac arith := unfold arithmetic, gv, lv, lit, par; cbn [of_integers integer_operand]; repeat match goal with |- _ /\ _ => split end; first [unfold EvalSpec.int_min; lia|let H := fresh in intros H; discriminate H].
Ltac use_expr := split; [is_fine|]; split; [arith|]; split; [use_misled|]; vm_compute; repeat constructor.
Ltac use_known := cbv beta iota delta [usable_setting]; lazymatch goal with |- True => exact I | |- ?t <> None => let h := eval hnf in t in change (h <> None); discriminate end.
Ltac use_step := split; [lia|use_known].
Ltac use_set := split; [split; [lia|]; split; [is_fine|]; split; [arith|]; split; [vm_compute; discriminate|]; split; [vm_compute; repeat constructor|]; split; [use_misled|]; vm_compute; repeat constructor|use_known].
Lemma ex_usable : usable_prog O_Return 2 ex_f.
Proof.
  split; [split; [constructor; [use_set|constructor]|]; split; [use_expr|]; split; [constructor; [use_step|constructor]|]; split; [split; [use_expr|exact I]|use_set]|].
  split; [use_set|use_expr].
Qed.
Definition px_code (s : prog) : CtlSpec.stmt := match statement s with COk c => c | _ => CtlSpec.Skip end.
Definition ex_items : list CtlSem.item := [Function 77 [1; 2; 3] (px_code ex_f); Global (px_code (PSet (Sets SG 0 (lit 41))))].
Definition px_image (items : list CtlSem.item) : list Z :=
  match compile_units 200 (CtlSem.source items) with COk (g, us) => match link g us 0 [] [] with COk img => img | _ => [] end | _ => [] end.
Definition ex_image : list Z := Eval vm_compute in px_image ex_items.
Definition ex_ctx : ctx := Eval vm_compute in match create_context ex_image with Some c => c | None => mkC 0 0 [] end.
Example c57_ex_built : built 2 ex_file ex_image ex_ctx.
Proof.
  assert (X : exists g us, compile_units 200 (CtlSem.source ex_items) = COk (g, us) /\ link g us 0 [] [] = COk ex_image /\ Forall unit_fits us /\ Forall (fun u => lenZ (b_all (u_code u)) < 32768) us /\ lenZ (b_all g) < 32768).
  { eexists _, _. split; [vm_compute; reflexivity|]. split; [vm_compute; reflexivity|]. split; [|split].
    - constructor; [|constructor]. vm_compute. intuition discriminate.
    - constructor; [|constructor]. vm_compute. reflexivity.
    - vm_compute. reflexivity. }
  destruct X as (g & us & CM & LK & UF & US & GS).
  exists ex_items, 200%nat, g, us, 0, [], []. split.
  { constructor; [|constructor; [|constructor]].
    - constructor; [exact ex_usable|vm_compute; reflexivity|]. vm_compute. intuition discriminate.
    - constructor; [use_set|vm_compute; reflexivity|]. vm_compute. intuition discriminate. }
  split; [exact CM|]. split; [exact LK|]. split; [vm_compute; reflexivity|]. split; [lia|]. split; [vm_compute; reflexivity|]. split; [vm_compute; discriminate|].
  split; [exact UF|]. split; [exact US|]. split; [exact GS|]. intros h ps s [E|[]]. injection E as <- _ _. vm_compute. discriminate.
Qed.
(* 1 + 2 + ... + k without the 3 *)
Definition sum_to (k : Z) : Z := k * (k + 1) / 2 - (if 3 <=? k then 3 else 0).
Lemma sum_step i : 1 <= i -> sum_to i = sum_to (i - 1) + (if i =? 3 then 0 else i).
Proof.
  intros R. unfold sum_to. replace ((i - 1) * (i - 1 + 1)) with (i * (i - 1)) by lia. replace (i * (i + 1)) with (i * (i - 1) + i * 2) by lia.
  rewrite Z.div_add by lia. destruct (Z.leb_spec 3 i), (Z.leb_spec 3 (i - 1)), (Z.eqb_spec i 3); lia.
Qed.
Lemma int_small z : int32 z -> (int_min <=? z) && (z <=? 2147483647) = true.
Proof. unfold int32, int_min. lia. Qed.
Definition ex_loop : prog := PFor [] (Some (Infix "<=" (lv 2) (lv 0))) [Steps "++" true SL 2]
         (PBraces (PSeq (PIf (Infix "==" (lv 2) (lit 3)) (PBraces PContinue)) (PSet (Changes "+=" SL 1 (lv 2))))).
Lemma ex_loop_computes trap no_calls d : forall env n i, env SL 0 = Some n -> env SL 1 = Some (s32 (sum_to (i - 1))) -> env SL 2 = Some i ->
  1 <= i -> i + Z.of_nat d = n + 1 -> n < 2147483647 ->
  exists env1, computes trap no_calls ex_loop env CtlSpec.ONormal env1 /\ env1 SL 1 = Some (s32 (sum_to n)) /\ env1 SG = env SG.
Proof.
  induction d as [|d IH]; intros env n i E0 E1 E2 R1 RN RM.
  - exists env. split; [|split; [|reflexivity]].
    + apply E_for_end. unfold holds_false, value_of. cbn -[s32 Z.mul Z.div]. rewrite E2, E0. cbn. replace (i <=? n) with false by lia. reflexivity.
    + rewrite E1. do 3 f_equal. lia.
  - assert (G : goes_in trap env (Some (Infix "<=" (lv 2) (lv 0)))).
    { exists 1. split; [|discriminate]. unfold value_of. cbn. rewrite E2, E0. cbn. replace (i <=? n) with true by lia. reflexivity. }
    set (env1 := if i =? 3 then env else set env SL 1 (s32 (s32 (sum_to (i - 1)) + i))).
    set (env2 := set env1 SL 2 (i + 1)).
    assert (Q0 : env2 SL 0 = Some n) by (unfold env2, env1; destruct (i =? 3); exact E0).
    assert (Q2 : env2 SL 2 = Some (i + 1)) by reflexivity.
    assert (Q1 : env2 SL 1 = Some (s32 (sum_to (i + 1 - 1)))).
    { replace (i + 1 - 1) with i by lia. rewrite sum_step by lia. unfold env2, env1, set. destruct (Z.eqb_spec i 3) as [->|N]; cbn -[s32 sum_to]; [rewrite E1; do 2 f_equal; lia|].
      f_equal. generalize (sum_to (i - 1)). intros a. apply s32_inj_u32. rewrite <- u32_add_l, u32_s32, u32_add_l. reflexivity. }
    destruct (IH env2 n (i + 1) Q0 Q1 Q2 ltac:(lia) ltac:(lia) RM) as (env3 & C3 & V3 & G3).
    exists env3. split; [|split; [exact V3|rewrite G3; unfold env2, env1; destruct (i =? 3); reflexivity]].
    assert (AL : assigns_all trap [Steps "++" true SL 2] env1 env2).
    { eapply A_cons; [|apply A_nil]. apply (A_step trap "++" 1 true SL 2 env1 i).
      - reflexivity.
      - unfold env1. destruct (i =? 3); exact E2.
      - unfold EvalSpec.int_min. lia. }
    destruct (Z.eqb_spec i 3) as [->|N].
    + eapply E_for with (o := CtlSpec.OCont); [exact G| |now right|exact AL|exact C3]. apply E_braces. apply E_seq_exit; [|discriminate]. apply E_if; [|apply E_braces, E_continue].
      exists 1. split; [|discriminate]. unfold value_of. cbn. rewrite E2. reflexivity.
    + eapply E_for with (o := CtlSpec.ONormal); [exact G| |now left|exact AL|exact C3]. apply E_braces. eapply E_seq.
      * apply E_if_not. unfold holds_false, value_of. cbn. rewrite E2. cbn. destruct (Z.eqb_spec i 3); [lia|reflexivity].
      * apply E_set. apply A_change with (f := fun x y => Some (s32 (x + y))) (old := s32 (sum_to (i - 1))) (y := i); [reflexivity|exact E1| |reflexivity]. unfold value_of. cbn. exact E2.
Qed.
(* f( n, 0, _ ) is the sum, and counts in the global *)
Lemma ex_finishes trap (env : variables) n g x : 0 <= n < 2147483647 -> env SL 0 = Some n -> env SL 1 = Some 0 -> env SL 2 = Some x -> env SG 0 = Some g ->
  exists env1, computes trap no_calls ex_f env (CtlSpec.ORet (s32 (sum_to n))) env1 /\ env1 SG 0 = Some (s32 (g + 1)).
Proof.
  intros R E0 E1 E2 EG. set (env1 := set env SL 2 1).
  destruct (ex_loop_computes trap no_calls (Z.to_nat n) env1 n 1 E0 E1 eq_refl ltac:(lia) ltac:(lia) ltac:(lia)) as (env2 & C2 & V2 & G2).
  exists (set env2 SG 0 (s32 (g + 1))). split; [|reflexivity].
  eapply E_seq; [eapply E_for_init; [apply A_set with (old := x); [exact E2|reflexivity]|exact C2]|].
  eapply E_seq; [apply E_set, A_set with (old := g)|apply E_ret].
  - now rewrite G2.
  - unfold value_of. cbn -[s32]. rewrite G2. cbn -[s32]. rewrite EG. reflexivity.
  - unfold value_of. cbn -[s32 sum_to]. exact V2.
Qed.
(* the globals of the example *)
Definition one_global (g : Z) : Z -> option Z := fun n => if n =? 0 then Some g else None.
Example c57_ex_run : forall k m ips, sane k 2 ex_ctx -> closed (k_base k) m -> mv m (LGlobal 0) = VInt 0 ->
  (k_protect k = true -> (k_base k + 4 < k_limit k)%nat) ->
  exists s2 s3, reaches (machine k ex_image) (mkVm m (c_start ex_ctx) (k_base k) 0 None None ips) s2 /\ machine k ex_image s2 = Ok (Done s3) /\
    mv (vmem s3) (LGlobal 0) = VInt 41.
Proof.
  intros k m ips SA CL M0 RM.
  set (env := fun q n => match q with SG => one_global 0 n | SL => None end).
  assert (CO : computes (k_trap k) no_calls (outside ex_file) env CtlSpec.ONormal (set env SG 0 41)).
  { eapply E_seq; [|apply E_skip]. apply E_set, A_set with (old := 0); reflexivity. }
  destruct (c57_run_partial 2 ex_file ex_image ex_ctx k m (one_global 0) ips 0 (set env SG 0 41) c57_ex_built SA CL) as (s2 & s3 & RE & ST & _ & GA & _ & _).
  - intros n z G. unfold one_global in G. destruct (Z.eqb_spec n 0) as [->|]; [|discriminate]. injection G as <-. split; [lia|]. split; [unfold int32, int_min; lia|exact M0].
  - intros Q. specialize (RM Q). lia.
  - right. auto.
  - intros c E T. vm_compute in E. injection E as <-. discriminate T.
  - exists s2, s3. split; [exact RE|]. split; [exact ST|]. apply (GA 0 41). reflexivity.
Qed.
Example c57_ex_call : forall k m stop ips n g, sane k 2 ex_ctx -> closed (k_base k) m -> int32 g -> mv m (LGlobal 0) = VInt (u32 g) ->
  (k_protect k = true -> (k_base k + 9 < k_limit k)%nat) -> nthZ ex_image stop = Some (byte_of O_Stop) -> 0 <= n < 2147483647 ->
  exists f s1 s2 s3, nth_error (vm_funs ex_ctx) 0 = Some f /\
    host_call (k_pbits k) (k_base k) (k_limit k) (k_protect k) ips stop f [VInt (u32 n)] m = Ok (Run s1) /\
    reaches (machine k ex_image) s1 s2 /\ machine k ex_image s2 = Ok (Done s3) /\
    holds (vmem s3) (mv (vmem s3) (LStack (k_base k))) (s32 (sum_to n)) /\ mv (vmem s3) (LGlobal 0) = VInt (u32 (g + 1)).
Proof.
  intros k m stop ips n g SA CL RG M0 RM ST RN. eexists. 
  set (env := called (one_global g) 3 0 [n] 0).
  destruct (ex_finishes (k_trap k) env n g 0 RN eq_refl eq_refl eq_refl eq_refl) as (env1 & CO & EG).
  destruct (c57_host_call_partial 2 ex_file ex_image ex_ctx k 0 77 [1; 2; 3] ex_f _ m stop ips (one_global g) [n] 0 (s32 (sum_to n)) env1 c57_ex_built SA eq_refl eq_refl CL)
    as (s1 & s2 & s3 & HC & RE & DN & HO & GA & _).
  - intros q z G. unfold one_global in G. destruct (Z.eqb_spec q 0) as [->|]; [|discriminate]. injection G as <-. auto with zarith.
  - constructor; [unfold int32, int_min; lia|constructor].
  - unfold int32, int_min; lia.
  - intros NZ. destruct NZ. reflexivity.
  - intros Q. specialize (RM Q). cbn. lia.
  - exact ST.
  - left. exact CO.
  - intros c E T. exact CO.
  - exists s1, s2, s3. split; [reflexivity|]. split; [exact HC|]. split; [exact RE|]. split; [exact DN|]. split; [exact HO|].
    destruct (GA 0 _ EG) as (_ & _ & Q). rewrite u32_s32 in Q. exact Q.
Qed.

(* ---------------------------------------------------------------- where it fails *)
(* function f() { return 5; }  if( g == 0 ) { return; }  g = g + 1;
   The return leaves the machine in front of g = g + 1, and not at a place where it stops.  When the host
   calls f afterwards, f returns to that place: the rest of the file is executed, g is 1, and the host does
   not get 5. *)
Definition px_early : list pitem :=
  [PFunction 77 [] (PReturn (Some (lit 5))); PGlobal (PIf (Infix "==" (gv 0) (lit 0)) (PBraces (PReturn None))); PGlobal (PSet (Sets SG 0 (Infix "+" (gv 0) (lit 1))))].
Definition px_early_items : list CtlSem.item :=
  [Function 77 [] (px_code (PReturn (Some (lit 5)))); Global (px_code (PIf (Infix "==" (gv 0) (lit 0)) (PBraces (PReturn None)))); Global (px_code (PSet (Sets SG 0 (Infix "+" (gv 0) (lit 1)))))].
Definition px_early_image : list Z := Eval vm_compute in px_image px_early_items.
Definition px_early_ctx : ctx := Eval vm_compute in match create_context px_early_image with Some c => c | None => mkC 0 0 [] end.
Definition px_machine (c : ctx) : config := {|
  k_pbits := fun _ => 0; k_obj_hash := fun _ _ => 0; k_as_string := fun _ _ => []; k_trap := true;
  k_hash_index := fun _ _ _ m => Ok m; k_new_table := fun _ m => m; k_lib := fun _ => None; k_native := fun _ => None;
  k_ext := fun _ _ => UB; k_funs := vm_funs c; k_base := O; k_limit := 100%nat; k_protect := true; k_slices := true;
  k_fuel := 5%nat; k_ips := 10 |}.
Fixpoint px_go (c : ctx) (img : list Z) (n : nat) (s : vm) : res outcome :=
  match n with
  | O => OutOfFuel
  | S n => match machine (px_machine c) img s with Ok (Run s') => px_go c img n s' | o => o end
  end.
Definition px_empty : mem := mkMem (fun _ => VInt 0) (fun _ => None) (fun _ _ => 0) O.
(* the host runs the file and then calls the function number i *)
Definition px_run_and_call (c : ctx) (img : list Z) (i : nat) (argv : list OpsModel.value) : option (OpsModel.value * OpsModel.value * OpsModel.value) :=
  match px_go c img 200 (mkVm px_empty (c_start c) 0 0 None None 10), nth_error (vm_funs c) i with
  | Ok (Done s), Some f =>
    match host_call (fun _ => 0) 0 100 true 10 (vpc s) f argv (vmem s) with
    | Ok (Run s1) => match px_go c img 200 s1 with Ok (Done s2) => Some (mv (vmem s) (LGlobal 0), mv (vmem s2) (LGlobal 0), match mv (vmem s2) (LStack 0) with VRef x => mv (vmem s2) x | v => v end) | _ => None end
    | _ => None
    end
  | _, _ => None
  end.
Example c57_sane_ex : sane (px_machine ex_ctx) 2 ex_ctx.
Proof.
  split; [cbn; lia|]. split; [intros ? ? ? ? ? ?; reflexivity|]. split; [intros ? ? ? ? ? ?; reflexivity|]. split; [intros h f E; discriminate E|]. split; [lia|reflexivity].
Qed.
Example c57_ex_run_and_call : px_run_and_call ex_ctx ex_image 0 [VInt 4] = Some (VInt 41, VInt 42, VInt 7).
Proof. vm_compute. reflexivity. Qed.
Theorem c57_early_return_refuted : built 2 px_early px_early_image px_early_ctx /\ sane (px_machine px_early_ctx) 2 px_early_ctx /\
  (forall env, computes true no_calls (PReturn (Some (lit 5))) env (CtlSpec.ORet 5) env) /\
  px_run_and_call px_early_ctx px_early_image 0 [] = Some (VInt 0, VInt 1, VInt 0).
Proof.
  split; [|split; [|split; [|vm_compute; reflexivity]]].
  - assert (X : exists g us, compile_units 200 (CtlSem.source px_early_items) = COk (g, us) /\ link g us 0 [] [] = COk px_early_image /\
      Forall unit_fits us /\ Forall (fun u => lenZ (b_all (u_code u)) < 32768) us /\ lenZ (b_all g) < 32768).
    { eexists _, _. split; [vm_compute; reflexivity|]. split; [vm_compute; reflexivity|]. split; [|split].
      - constructor; [|constructor]. vm_compute. intuition discriminate.
      - constructor; [|constructor]. vm_compute. reflexivity.
      - vm_compute. reflexivity. }
    destruct X as (g & us & CM & LK & UF & US & GS).
    exists px_early_items, 200%nat, g, us, 0, [], []. split.
    { constructor; [|constructor; [|constructor; [|constructor]]].
      - constructor; [use_expr|vm_compute; reflexivity|]. vm_compute. intuition discriminate.
      - constructor; [split; [use_expr|exact I]|vm_compute; reflexivity|]. vm_compute. intuition discriminate.
      - constructor; [use_set|vm_compute; reflexivity|]. vm_compute. intuition discriminate. }
    split; [exact CM|]. split; [exact LK|]. split; [vm_compute; reflexivity|]. split; [lia|]. split; [vm_compute; reflexivity|]. split; [vm_compute; discriminate|].
    split; [exact UF|]. split; [exact US|]. split; [exact GS|]. intros h ps s [E|[]]. injection E as <- _ _. vm_compute. discriminate.
  - split; [cbn; lia|]. split; [intros ? ? ? ? ? ?; reflexivity|]. split; [intros ? ? ? ? ? ?; reflexivity|]. split; [intros h f E; discriminate E|]. split; [lia|reflexivity].
  - intros env. apply E_ret. reflexivity.
Qed.

Print Assumptions c57_run_partial.
Print Assumptions c57_host_call_partial.
Print Assumptions c57_call_partial.
Print Assumptions c57_ex_run.
Print Assumptions c57_ex_call.
Print Assumptions c57_early_return_refuted.
