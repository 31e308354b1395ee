(* C29: yielding is transparent to the script. *)
From Verif Require Import Base BaseLemmas HashModel FloatModel OpsModel VmModel VmSpec FuseSpec FuseRules YieldSpec YieldLocal YieldProofs.

Section Theorems.
Variable pbits : value -> Z.
Variable obj_hash : mem -> value -> Z.
Variable as_string : mem -> value -> list Z.
Variable trap : bool.
Variable hash_index : loc -> loc -> loc -> mem -> res mem.
Variable new_table : loc -> mem -> mem.
Variable lib_fn : Z -> option (nat -> nat -> mem -> res (mem * bool)).
Variable native_fn : Z -> option (nat -> nat -> mem -> res mem).
Variable ext : opcode -> vm -> res outcome.
Variable code : list Z.
Variable funs : list fn.
Variable base limit : nat.
Variable protect : bool.
Variable fuel : nat.
Let plain := plain pbits obj_hash as_string trap hash_index new_table lib_fn native_fn ext code funs base limit protect fuel.
Let hosted := hosted pbits obj_hash as_string trap hash_index new_table lib_fn native_fn ext code funs base limit protect fuel.
Let continued := continued pbits obj_hash as_string trap hash_index new_table lib_fn native_fn ext code funs base limit protect fuel.
Let run := run pbits obj_hash as_string trap hash_index new_table lib_fn native_fn ext code funs base limit protect.

(* an uninterrupted run is a run of the interpreter loop with time slices off *)
Theorem c29_plain_is_run n s o : plain n [] s o -> run false fuel n s = Ok o.
Proof.
  remember [] as l eqn:L. induction 1 as [n l s t o i q D T AP ST PL IH| |s o i q D T AP ST EN]; cbn [VmModel.run].
  - unfold run. cbn [VmModel.run]. rewrite ST. cbn [bind]. apply IH, L.
  - discriminate L.
  - unfold run. cbn [VmModel.run]. rewrite ST. cbn [bind]. destruct o; auto; contradiction.
Qed.

Hypothesis OH : local_fn obj_hash.
Hypothesis AS : local_fn as_string.
Hypothesis LL : lib_local lib_fn.
Hypothesis NL : native_local native_fn.
Hypothesis EL : ext_local ext base.
Hypothesis HI : index_local hash_index.
Hypothesis NT : table_local new_table.

Lemma near_start k s : vr0 s = None -> vr1 s = None -> near code s (with_slice k s).
Proof.
  intros R0 R1. split; [left|unfold regs_ok; now rewrite R1].
  constructor; auto. constructor; auto.
Qed.

(* The host may stop the program wherever the interpreter looks at the slice counter, any number of
   times and with any slices, and continue it: the program ends as the uninterrupted run, in which the
   yields are calls that return what the host replies.
   Partial: the uninterrupted run ends (normally or with an error); no value in use refers to the free
   part of the stack, and the clauses of [apt] hold (the first-local and the result clause are needed, see the refutations). *)
Theorem c29_hosted_partial n l s o : vr0 s = None -> vr1 s = None -> plain n l s o ->
  forall turns, (n <= length turns)%nat -> exists o', hosted turns l s = Ok o' /\ same_end base o o'.
Proof.
  intros R0 R1 P turns LE.
  apply (hosted_near pbits obj_hash as_string trap hash_index new_table lib_fn native_fn ext code funs base limit protect fuel OH AS LL NL EL HI NT n l s o P s turns); auto.
  replace s with (with_slice (vslice s) s) at 2 by (destruct s; reflexivity). now apply near_start.
Qed.

(* The same for the calls of the API: wr_callFunction from any slice counter, then wr_continue until
   the context is no longer yielded, each with its own number of instructions per slice. *)
Theorem c29_continued_partial n l s o : vr0 s = None -> vr1 s = None -> plain n l s o ->
  forall k N slices, (n <= N)%nat -> (n <= length slices)%nat ->
  exists o', continued N slices l (with_slice k s) = Ok o' /\ same_end base o o'.
Proof.
  intros R0 R1 P k N slices LN LS.
  apply (continued_near pbits obj_hash as_string trap hash_index new_table lib_fn native_fn ext code funs base limit protect fuel OH AS LL NL EL HI NT N slices n l s o); auto.
  now apply near_start.
Qed.

Lemma host_call_slice k k' stop f argv m s : host_call pbits base limit protect k stop f argv m = Ok (Run s) ->
  host_call pbits base limit protect k' stop f argv m = Ok (Run (with_slice k' s)) /\ vr0 s = None /\ vr1 s = None.
Proof.
  unfold host_call, call_fn, need, checked_run. cbn [vsp vmem vfb vpc vslice].
  destruct (_ <? _)%nat; [discriminate|]. destruct (_ && _ && _); [discriminate|]. destruct (protect && _); [discriminate|].
  destruct (_ <? _)%nat; [discriminate|]. destruct (protect && _); [discriminate|].
  intros H. inversion H; subst s. cbn. auto.
Qed.
(* a function called by the host *)
Theorem c29_call_partial stop f argv m n l s o :
  host_call pbits base limit protect 0 stop f argv m = Ok (Run s) -> plain n l s o ->
  forall ips N slices, (n <= N)%nat -> (n <= length slices)%nat ->
  exists s' o', host_call pbits base limit protect ips stop f argv m = Ok (Run s') /\
  continued N slices l s' = Ok o' /\ same_end base o o'.
Proof.
  intros H P ips N slices LN LS. destruct (host_call_slice 0 ips stop f argv m s H) as [H' [R0 R1]].
  destruct (c29_continued_partial n l s o R0 R1 P ips N slices LN LS) as (o'&E&S).
  exists (with_slice ips s), o'. auto.
Qed.
End Theorems.

(* ---- an example ---- *)
(* function main(n) { var i = 0; var s; while( i < n ) { s = yield( g() ); ++i; } return i + s; }
   function g() { var k = 5; return k + k; } *)
Definition ops_bytes (l : list (opcode * list Z)) : list Z := flat_map (fun c => byte_of (fst c) :: snd c) l.
Definition ex_code : list Z := ops_bytes
  [(O_Stop, []);                                     (* 0 *)
   (O_LiteralInt8ToLocal, [1; 0]);                   (* 1: main *)
   (O_LLCompareLTBZ8, [0; 1; 16; 0]);                (* 4 *)
   (O_CallFunctionByIndex, [0; 1; 1]);               (* 9 *)
   (O_PushIndexFunctionReturnValue, []);             (* 13 *)
   (O_Yield, [1]);                                   (* 14 *)
   (O_AssignToLocalAndPop, [2]);                     (* 16 *)
   (O_IncLocal, [1]);                                (* 18 *)
   (O_RelativeJump8, [239; 0]);                      (* 20 *)
   (O_LLBinaryAddition, [1; 2]);                     (* 23 *)
   (O_Return, []);                                   (* 26 *)
   (O_LiteralInt8ToLocal, [0; 5]);                   (* 27: g *)
   (O_LLBinaryAddition, [0; 0]);                     (* 30 *)
   (O_Return, [])].                                  (* 33 *)
Definition ex_funs : list fn := [mkFn 1 2 4 1; mkFn 0 1 2 27].
Definition h0 (m : mem) (v : value) : Z := 0.
Definition str0 (m : mem) (v : value) : list Z := [].
Definition mem0 : mem := mkMem (fun _ => VInt 0) (fun _ => None) (fun _ _ => 0) 0%nat.
Definition step0 (code : list Z) (funs : list fn) :=
  step (fun _ => 0) h0 str0 false (fun _ _ _ _ => UB) (fun _ m => m) (fun _ => None) (fun _ => None) (fun _ _ => UB) code funs 0 100 true.
Definition run0 (code : list Z) (funs : list fn) :=
  run (fun _ => 0) h0 str0 false (fun _ _ _ _ => UB) (fun _ m => m) (fun _ => None) (fun _ => None) (fun _ _ => UB) code funs 0 100 true.
Definition plain0 (code : list Z) (funs : list fn) :=
  plain (fun _ => 0) h0 str0 false (fun _ _ _ _ => UB) (fun _ m => m) (fun _ => None) (fun _ => None) (fun _ _ => UB) code funs 0 100 true 20.
Definition continued0 (code : list Z) (funs : list fn) :=
  continued (fun _ => 0) h0 str0 false (fun _ _ _ _ => UB) (fun _ m => m) (fun _ => None) (fun _ => None) (fun _ _ => UB) code funs 0 100 true 20.
Definition call0 (f : fn) (argv : list value) (ips : Z) : vm :=
  match host_call (fun _ => 0) 0 100 true ips 0 f argv mem0 with Ok (Run s) => s | _ => mkVm mem0 0 0 0 None None 0 end.
(* the k-th state of the uninterrupted run, the host replying 40 *)
Fixpoint ex_st (k : nat) : vm :=
  match k with
  | O => call0 (mkFn 1 2 4 1) [VInt 1] 0
  | S j => match step0 ex_code ex_funs false 20 (ex_st j) with
           | Ok (Run t) | Ok (Done t) => t
           | Ok (Yielded n _ t) => answered n (VInt 40) t
           | _ => ex_st j
           end
  end.
Ltac closes := intros [[|]|[|[|[|[|[|[|[|[|[|]]]]]]]]]| | | |] L; vm_compute; exact I.
Ltac tidies := split; [closes|split; [closes|vm_compute; lia]].
Ltac named := let k := fresh in let H := fresh in cbn; intros k H; repeat (destruct H as [H|H]; [subst k; lia|]); contradiction.
Ltac apts := split; [vm_compute; named|].
Ltac go k i q := apply (plain_run _ _ _ _ _ _ _ _ _ _ _ _ _ _ _ _ _ (ex_st k) (ex_st (S k)) _ i q); [vm_compute; reflexivity|tidies|apts|vm_compute; reflexivity|].
Lemma produces_by i s w : (forall v, match exec (fun _ => 0) h0 str0 false (fun _ _ _ _ => UB) (fun _ m => m) (fun _ => None) (fun _ => None) (fun _ _ => UB) ex_code ex_funs 0 100 true false 20 i (fill s v) with
  Ok (Run t) => mv (vmem t) (LStack (vsp s)) = w | _ => False end) ->
  produces (fun _ => 0) h0 str0 false (fun _ _ _ _ => UB) (fun _ m => m) (fun _ => None) (fun _ => None) (fun _ _ => UB) ex_code ex_funs 0 100 true 20 i s.
Proof. intros H. exists w. intros v. specialize (H v). destruct (exec _ _ _ _ _ _ _ _ _ _ _ _ _ _ _ _ _ _) as [[t|?|?|?]| |] eqn:E; try contradiction. eauto. Qed.
Lemma ex_plain : plain0 ex_code ex_funs 15 [VInt 40] (ex_st 0) (Done (ex_st 15)).
Proof.
  unfold plain0.
  go 0%nat (ILitTo SL 1 (VInt 0)) 4; [exact I|]. go 1%nat (ICmp2B CLt SL 0 1 23) 9; [exact I|].
  go 2%nat (ICall 0 1) 13; [intros f E; injection E as <-; right; split; [reflexivity|eexists; eexists; reflexivity]|].
  go 3%nat (ILitTo SL 0 (VInt 5)) 30; [exact I|].
  go 4%nat (IBin2 BAdd SL SL 0 0) 33; [apply (produces_by _ _ (VInt 10)); vm_compute; reflexivity|].
  go 5%nat IReturn 34; [exact I|]. go 6%nat IPushRet 14; [reflexivity|].
  apply (plain_yield _ _ _ _ _ _ _ _ _ _ _ _ _ _ _ _ _ _ (ex_st 7) 1 (match step0 ex_code ex_funs false 20 (ex_st 7) with Ok (Yielded _ _ t) => t | _ => ex_st 0 end) _ (IYield 1) 16);
    [vm_compute; reflexivity|tidies|apts; exact I|vm_compute; reflexivity|].
  replace (answered 1 _ _) with (ex_st 8) by (vm_compute; reflexivity).
  go 8%nat (IAssignTo SL 2) 18; [exact I|]. go 9%nat (IIncVar 1 SL 1) 20; [exact I|]. go 10%nat (IJump 4) 23; [exact I|]. go 11%nat (ICmp2B CLt SL 0 1 23) 9; [exact I|].
  go 12%nat (IBin2 BAdd SL SL 1 2) 26; [apply (produces_by _ _ (VInt 41)); vm_compute; reflexivity|].
  go 13%nat IReturn 27; [exact I|].
  apply (plain_end _ _ _ _ _ _ _ _ _ _ _ _ _ _ _ (ex_st 14) (Done (ex_st 15)) IStop 1); [vm_compute; reflexivity|tidies|apts; reflexivity|vm_compute; reflexivity|exact I].
Qed.
Lemma yields_by code funs s v :
  match run0 code funs true 20 15 s with
  | Ok (Yielded 1 false t) => match run0 code funs true 20 15 (resume 1 1 false (reply v t)) with Ok (Yielded 0 true u) => true | _ => false end
  | _ => false
  end = true ->
  exists t u, run0 code funs true 20 15 s = Ok (Yielded 1 false t) /\
              run0 code funs true 20 15 (resume 1 1 false (reply v t)) = Ok (Yielded 0 true u).
Proof.
  destruct (run0 code funs true 20 15 s) as [[?|?|[|[|?]] [|] t|?]| |]; try discriminate.
  destruct (run0 code funs true 20 15 (resume 1 1 false (reply v t))) as [[?|?|[|?] [|] u|?]| |] eqn:E; try discriminate. eauto.
Qed.
(* the script returns 41 however it is interrupted;
   with slices of one jump it asks the host once and is then stopped at the jump *)
Example c29_example :
  host_call (fun _ => 0) 0 100 true 0 0 (mkFn 1 2 4 1) [VInt 1] mem0 = Ok (Run (ex_st 0)) /\
  plain0 ex_code ex_funs 15 [VInt 40] (ex_st 0) (Done (ex_st 15)) /\ mv (vmem (ex_st 15)) (LStack 0) = VInt 41 /\
  (forall ips N slices, (15 <= N)%nat -> (15 <= length slices)%nat ->
   exists t, continued0 ex_code ex_funs N slices [VInt 40] (call0 (mkFn 1 2 4 1) [VInt 1] ips) = Ok (Done t) /\ mv (vmem t) (LStack 0) = VInt 41) /\
  (exists t u, run0 ex_code ex_funs true 20 15 (call0 (mkFn 1 2 4 1) [VInt 1] 1) = Ok (Yielded 1 false t) /\
               run0 ex_code ex_funs true 20 15 (resume 1 1 false (reply (VInt 40) t)) = Ok (Yielded 0 true u)).
Proof.
  split; [vm_compute; reflexivity|]. split; [exact ex_plain|]. split; [vm_compute; reflexivity|]. split.
  - intros ips N slices LN LS.
    destruct (c29_continued_partial (fun _ => 0) h0 str0 false (fun _ _ _ _ => UB) (fun _ m => m) (fun _ => None) (fun _ => None) (fun _ _ => UB) ex_code ex_funs 0 100 true 20
      ltac:(intros ? ? ? ? ? ? ?; reflexivity) ltac:(intros ? ? ? ? ? ? ?; reflexivity) ltac:(intros ? ? E; discriminate E) ltac:(intros ? ? E; discriminate E)
      ltac:(intros ? ? ? ? ?; constructor) ltac:(intros ? ? ? ? ? ? ? ? ? ?; constructor) ltac:(intros ? ? ? ? ? ? ?; auto)
      15 [VInt 40] (ex_st 0) (Done (ex_st 15)) ltac:(vm_compute; reflexivity) ltac:(vm_compute; reflexivity) ex_plain ips N slices LN LS) as (o'&E&S).
    destruct o' as [|t| |]; try contradiction. exists t. split.
    + replace (call0 _ _ ips) with (with_slice ips (ex_st 0)) by (vm_compute; reflexivity). exact E.
    + destruct S as (_&_&S). rewrite <- S; [vm_compute; reflexivity|]. vm_compute. lia.
  - apply yields_by. vm_compute. reflexivity.
Qed.

(* ---- where it is false ---- *)
(* [code] called as a function by the host returns v without time slices; with one instruction per
   slice it is stopped once, continued, and returns v' *)
Definition differs (code : list Z) (funs : list fn) (s : Z -> vm) (v v' : value) : Prop :=
  exists t u w, run0 code funs false 20 20 (s 1) = Ok (Done t) /\ mv (vmem t) (LStack 0) = v /\
    run0 code funs true 20 20 (s 1) = Ok (Yielded 0 true u) /\
    run0 code funs true 20 20 (resume 5 0 true u) = Ok (Done w) /\ mv (vmem w) (LStack 0) = v'.
Lemma differs_by code funs s v v' :
  match run0 code funs false 20 20 (s 1), run0 code funs true 20 20 (s 1) with
  | Ok (Done t), Ok (Yielded 0 true u) =>
    match run0 code funs true 20 20 (resume 5 0 true u) with
    | Ok (Done w) => mv (vmem t) (LStack 0) = v /\ mv (vmem w) (LStack 0) = v'
    | _ => False
    end
  | _, _ => False
  end -> differs code funs s v v'.
Proof.
  unfold differs. destruct (run0 code funs false 20 20 (s 1)) as [[?|t|? ? ?|?]| |]; try contradiction.
  destruct (run0 code funs true 20 20 (s 1)) as [[?|?|[|?] [|] u|?]| |]; try contradiction.
  destruct (run0 code funs true 20 20 (resume 5 0 true u)) as [[?|w|? ? ?|?]| |] eqn:E; try contradiction.
  intros [H H']. exists t, u, w. auto.
Qed.
Ltac differ := apply differs_by; vm_compute; split; reflexivity.

(* The first local of a function is not initialized: it keeps the payload of what was on the stack
   before (see c30's refutations), and the yield clears that.
   function main() { 7; if( 1 ) { } return g(); }   function g() { var x; return x; } *)
Definition stale_code : list Z := ops_bytes
  [(O_Stop, []);                                     (* 0 *)
   (O_LiteralInt8, [7]);                             (* 1: main *)
   (O_PopOne, []);                                   (* 3 *)
   (O_RelativeJump8, [2; 0]);                        (* 4 *)
   (O_CallFunctionByIndex, [0; 1; 1]);               (* 7 *)
   (O_PushIndexFunctionReturnValue, []);             (* 11 *)
   (O_Return, []);                                   (* 12 *)
   (O_LoadFromLocal, [0]);                           (* 13: g *)
   (O_Return, [])].                                  (* 15 *)
Theorem c29_stale_local_refuted :
  differs stale_code [mkFn 0 0 1 1; mkFn 0 1 2 13] (call0 (mkFn 0 0 1 1) []) (VInt 7) (VInt 0).
Proof. differ. Qed.

(* The global code leaves no result: the slot that is read as its result holds what was there before. *)
Theorem c29_global_result_refuted :
  differs (ops_bytes [(O_LiteralInt8, [7]); (O_PopOne, []); (O_RelativeJump8, [2; 0]); (O_GlobalStop, [])]) []
    (fun ips => mkVm mem0 0 0 0 None None ips) (VInt 7) (VInt 0).
Proof. differ. Qed.

(* An operator on two variables that does not apply to their types leaves its result slot alone.
   function main() { 7; if( 1 ) { } return g0 & g1; }   with the floats 2.5 in g0 and g1 *)
Definition op_code : list Z := ops_bytes
  [(O_Stop, []);                                     (* 0 *)
   (O_LiteralInt8, [7]);                             (* 1: main *)
   (O_PopOne, []);                                   (* 3 *)
   (O_RelativeJump8, [2; 0]);                        (* 4 *)
   (O_GGValues, [0; 1]);                             (* 7 *)
   (O_BinaryAndSkipLoad, []);                        (* 10 *)
   (O_Return, [])].                                  (* 11 *)
Definition float_mem : mem := wr (wr mem0 (LGlobal 0) (VFlt 1075838976)) (LGlobal 1) (VFlt 1075838976).
Definition call1 (ips : Z) : vm :=
  match host_call (fun _ => 0) 0 100 true ips 0 (mkFn 0 0 1 1) [] float_mem with Ok (Run s) => s | _ => mkVm mem0 0 0 0 None None 0 end.
Theorem c29_no_result_refuted : differs op_code [mkFn 0 0 1 1] call1 (VInt 7) (VInt 0).
Proof. differ. Qed.

Print Assumptions c29_plain_is_run.
Print Assumptions c29_hosted_partial.
Print Assumptions c29_continued_partial.
Print Assumptions c29_call_partial.
Print Assumptions c29_example.
Print Assumptions c29_stale_local_refuted.
Print Assumptions c29_global_result_refuted.
Print Assumptions c29_no_result_refuted.
