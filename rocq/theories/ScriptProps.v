(* C61: from the characters of a source file to what the machine computes.  The statement is in terms of
   ScriptSpec (how a program is written; which variable a name is), TokenSpec and ParseSpec (tokens and
   expressions), ProgSpec (what the program means), TextModel.compile_text, LinkModel.link and create_context (the
   compiler on the characters, the linker, the loader) and VmModel (the machine). *)
From Coq Require Import String.
From Verif Require Import Base BaseLemmas HashModel OpsModel VmModel VmSpec OpsLocal EmitModel CcModel ExprModel ExprSpec ExprNest LinkModel LinkSpec
  FuseSpec EvalSpec EvalProofs EvalRun EvalProps ProgSpec ProgCtl ProgRun CallCode ProgProps
  TokenModel TokenSpec TokenProps ParseModel ParseSpec ParseProps TextModel TextSpec TextProps ScriptSpec ScriptCode.
From Verif Require CtlSpec.
Open Scope string_scope. Open Scope list_scope. Open Scope Z_scope.
Import CtlSem.

(* The file is run: the globals are those that its statements compute. *)
Theorem c61_run_partial : forall a wide l src globals locals img c k m genv ips z env1,
  built_from_text a wide l src globals locals img c -> sane k wide c -> closed (k_base k) m -> globals_are genv m ->
  (k_protect k = true -> (k_base k + wide + 2 < k_limit k)%nat) ->
  let env := fun q n => match q with SG => genv n | SL => None end in
  finishes (k_trap k) no_calls (ProgSpec.outside l) env z env1 -> proper_end (k_trap k) no_calls CtlSpec.Body (ProgSpec.outside l) env z env1 ->
  exists s2 s3, reaches (machine k img) (mkVm m (c_start c) (k_base k) 0 None None ips) s2 /\ machine k img s2 = Ok (Done s3) /\
    holds (vmem s3) (mv (vmem s3) (LStack (k_base k))) z /\
    globals_are (env1 SG) (vmem s3) /\ rest_kept (env1 SG) (k_base k) m (vmem s3) /\
    (computes (k_trap k) no_calls (ProgSpec.outside l) env (CtlSpec.ORet z) env1 \/ nthZ img (vpc s3) = Some (byte_of O_Stop)).
Proof.
  intros a wide l src globals locals img c k m genv ips z env1 BU SA CL GA RM env FN PE. destruct (script_code _ _ _ _ _ _ _ _ ltac:(apply SA) BU) as (C & <- & CO & _).
  apply (run_general wide l c C k m genv ips z env1 no_calls 0 CO no_calls_tame (no_calls_work k C wide) SA); auto. intros X. specialize (RM X). lia.
Qed.
(* The host calls the function number i of the file, in which the names ls are declared. *)
Theorem c61_host_call_partial : forall a wide l src globals locals img c k i h ps s ls m stop ips genv zs first z env1,
  built_from_text a wide l src globals locals img c -> sane k wide c -> nth_error (routines l) i = Some (h, ps, s) -> nth_error locals i = Some ls ->
  closed (k_base k) m -> globals_are genv m -> Forall int32 zs -> int32 first ->
  (* the first local: the first argument too many, or what is left on the stack *)
  ((length ps < length ls)%nat -> if (length ps <? length zs)%nat then first = nth (length ps) zs 0
                      else u32 (rdi (k_pbits k) m (LStack (S (k_base k) + length ps))) = u32 first) ->
  (k_protect k = true -> (k_base k + 2 + length ls + wide + 2 < k_limit k)%nat) ->
  nthZ img stop = Some (byte_of O_Stop) ->
  let env := called genv (length ps) (length ls - length ps) zs first in
  finishes (k_trap k) no_calls s env z env1 -> proper_end (k_trap k) no_calls CtlSpec.InBlock s env z env1 ->
  exists f s1 s2 s3, nth_error (vm_funs c) i = Some f /\
    host_call (k_pbits k) (k_base k) (k_limit k) (k_protect k) ips stop f (map (fun z => VInt (u32 z)) zs) m = Ok (Run s1) /\
    reaches (machine k img) s1 s2 /\ machine k img s2 = Ok (Done s3) /\
    holds (vmem s3) (mv (vmem s3) (LStack (k_base k))) z /\
    globals_are (env1 SG) (vmem s3) /\ rest_kept (env1 SG) (k_base k) m (vmem s3).
Proof.
  intros a wide l src globals locals img c k i h ps s ls m stop ips genv zs first z env1 BU SA N1 N2 CL GA ZS RF FI RM ST env FN PE.
  destruct (script_code _ _ _ _ _ _ _ _ ltac:(apply SA) BU) as (C & <- & CO & _ & _ & LS).
  destruct (nth_error (vm_funs c) i) as [f|] eqn:NF.
  2: { exfalso. destruct CO as (LN & _). apply nth_error_None in NF. assert (i < length (routines l))%nat by (apply nth_error_Some; congruence). lia. }
  exists f. pose proof (LS i ls f N2 NF) as LE.
  assert (LA : fn_args f = length ps) by (destruct CO as (_ & CF & _); destruct (CF i h ps s f N1 NF) as (b & _ & _ & X & _); exact X).
  assert (EN : env = called genv (length ps) (fn_frame f) zs first) by (unfold env; f_equal; lia). rewrite EN in FN, PE.
  destruct (host_call_general wide l c C k i h ps s f m stop ips genv zs first z env1 no_calls 0 CO no_calls_tame (no_calls_work k C wide) SA) as (s1 & s2 & s3 & R); auto.
  - intros NZ. apply FI. lia.
  - intros X. specialize (RM X). lia.
  - exists s1, s2, s3. split; [reflexivity|exact R].
Qed.
(* What is loaded: the functions of the file, in its order, with the parameters and locals that it declares,
   and room for its globals. *)
Theorem c61_loaded_partial : forall a wide l src globals locals img c,
  (wide <= 254)%nat -> built_from_text a wide l src globals locals img c ->
  c_globals c = lenZ globals /\ length (vm_funs c) = length (routines l) /\ length locals = length (routines l) /\
  forall i h ps s ls f, nth_error (routines l) i = Some (h, ps, s) -> nth_error locals i = Some ls -> nth_error (vm_funs c) i = Some f ->
    fn_args f = length ps /\ fn_frame f = (length ls - length ps)%nat.
Proof.
  intros a wide l src globals locals img c W BU. destruct (script_code _ _ _ _ _ _ _ _ W BU) as (C & _ & CO & CG & LL & LS). destruct CO as (LN & CF & _).
  split; [exact CG|]. split; [exact LN|]. split; [exact LL|]. intros i h ps s ls f N1 N2 N3. destruct (CF i h ps s f N1 N3) as (b & _ & _ & X & _). pose proof (LS i ls f N2 N3). lia.
Qed.

(* ---------------------------------------------------------------- an example *)
Definition tx_setup : setup := mkSetup 64 (fun _ => 0) [] [] true.
Definition tx_image : list Z := Eval vm_compute in
  match compile_text 64 (fun _ => 0) [] [] true 200 tx_src with POk (g, us) => match link g us 0 [] [] with COk img => img | _ => [] end | _ => [] end.
Definition tx_ctx : ctx := Eval vm_compute in match create_context tx_image with Some c => c | None => mkC 0 0 [] end.
Ltac say t := exists t; split; [toks|]; split; [den|cps].
Example c61_ex_says : file_says tx_names [] tx_file tx_words [nm "g"] [[nm "n"; nm "i"; nm "s"]].
Proof.
  apply (FS_outside _ [] _ [sign "var"; sign "g"; sign "="; int "41" 41; sign ";"] [nm "g"]).
  - apply (TS_var_global _ [] (nm "g") (lit 41) [int "41" 41]); [idf|cbn; tauto|nin|]. say (ni 41).
  - apply (FS_function _ [nm "g"] (nm "sum") [nm "n"; nm "i"] tx_f
      [sign "var"; sign "s"; sign "="; int "0" 0; sign ";";
       sign "for"; sign "("; sign "i"; sign "="; int "1" 1; sign ";"; sign "i"; sign "<="; sign "n"; sign ";"; sign "i"; sign "++"; sign ")"; sign "{";
       sign "if"; sign "("; sign "i"; sign "=="; int "3" 3; sign ")"; sign "{"; sign "continue"; sign ";"; sign "}"; sign "s"; sign "+="; sign "i"; sign ";"; sign "}";
       sign "g"; sign "="; sign "g"; sign "+"; int "1" 1; sign ";"; sign "return"; sign "s"; sign ";"] [nm "n"; nm "i"; nm "s"] [] [] [nm "g"] []).
    + idf.
    + repeat (constructor; [idf|]). constructor.
    + repeat constructor; intros X; [destruct X as [X|[]]; discriminate X|destruct X].
    + repeat (constructor; [cbn; tauto|]). constructor.
    + refine (TS_sequence _ _ _ _ _ [sign "var"; sign "s"; sign "="; int "0" 0; sign ";"] _ _ _ _ _ (TS_var_local _ [nm "g"] [nm "n"; nm "i"] (nm "s") (lit 0) [int "0" 0] _ _ _ _) _); [idf|cbn; tauto|nin|say (ni 0)|].
      refine (TS_sequence _ _ _ _ _ [sign "for"; sign "("; sign "i"; sign "="; int "1" 1; sign ";"; sign "i"; sign "<="; sign "n"; sign ";"; sign "i"; sign "++"; sign ")"; sign "{";
        sign "if"; sign "("; sign "i"; sign "=="; int "3" 3; sign ")"; sign "{"; sign "continue"; sign ";"; sign "}"; sign "s"; sign "+="; sign "i"; sign ";"; sign "}"] _ _ _ _ _ _ _).
      { refine (TS_for _ _ _ _ _ _ _ [sign "i"; sign "="; int "1" 1] [sign "i"; sign "<="; sign "n"] [sign "i"; sign "++"] _ _ _ _ _ _ _).
        - apply SS_one. say (Infix "=" (na "i") (ni 1)).
        - say (Infix "<=" (na "i") (na "n")).
        - apply SS_one. say (Postfix "++" [] (na "i")).
        - refine (TS_braces _ _ _ _ [sign "if"; sign "("; sign "i"; sign "=="; int "3" 3; sign ")"; sign "{"; sign "continue"; sign ";"; sign "}"; sign "s"; sign "+="; sign "i"; sign ";"] _ _ _).
          refine (TS_sequence _ _ _ _ _ [sign "if"; sign "("; sign "i"; sign "=="; int "3" 3; sign ")"; sign "{"; sign "continue"; sign ";"; sign "}"] _ _ _ _ _ _ _).
          + refine (TS_if _ _ _ _ _ [sign "i"; sign "=="; int "3" 3] _ _ _ _ _); [say (Infix "==" (na "i") (ni 3))|].
            exact (TS_braces _ _ _ _ [sign "continue"; sign ";"] _ _ (TS_continue _ _ _)).
          + refine (TS_set _ _ _ _ [sign "s"; sign "+="; sign "i"] _). say (Infix "+=" (na "s") (na "i")). }
      refine (TS_sequence _ _ _ _ _ [sign "g"; sign "="; sign "g"; sign "+"; int "1" 1; sign ";"] _ _ _ _ _ _ _).
      { refine (TS_set _ _ _ _ [sign "g"; sign "="; sign "g"; sign "+"; int "1" 1] _). say (Infix "=" (na "g") (Infix "+" (na "g") (ni 1))). }
      refine (TS_return _ _ _ _ [sign "s"] _). say (na "s").
    + apply FS_end.
Qed.
Lemma tx_usable : usable_prog O_Return 2 tx_f.
Proof.
  split; [use_set|]. split; [split; [constructor; [use_set|constructor]|]; split; [use_expr|]; split; [constructor; [use_step|constructor]|]; split; [split; [use_expr|exact I]|use_set]|].
  split; [use_set|use_expr].
Qed.
Example c61_ex_built : built_from_text tx_setup 2 tx_file tx_src [nm "g"] [[nm "n"; nm "i"; nm "s"]] tx_image tx_ctx.
Proof.
  split; [cbn; lia|]. split; [intros c v []|]. exists tx_names, tx_words. split; [exact c60_ex_names|]. split; [exact c61_ex_says|]. split; [exact c60_ex_written|].
  assert (X : exists r, compile_units 200 (source tx_items) = COk r) by (eexists; vm_compute; reflexivity). destruct X as (r & X).
  exists tx_items, 200%nat, r. split; [|split; [exact X|]].
  { constructor; [|constructor; [|constructor]].
    - constructor; [use_set|vm_compute; reflexivity|]. vm_compute. intuition discriminate.
    - constructor; [exact tx_usable|vm_compute; reflexivity|]. vm_compute. intuition discriminate. }
  assert (Y : exists g us, text_compiles tx_setup 200 tx_src g us /\ link g us 0 [] [] = COk tx_image /\ Forall unit_fits us /\ Forall (fun u => lenZ (b_all (u_code u)) < 32768) us /\ lenZ (b_all g) < 32768).
  { eexists _, _. split; [vm_compute; reflexivity|]. split; [vm_compute; reflexivity|]. split; [|split].
    - constructor; [|constructor]. vm_compute. intuition discriminate.
    - constructor; [|constructor]. vm_compute. reflexivity.
    - vm_compute. reflexivity. }
  destruct Y as (g & us & CM & LK & UF & US & GS). exists g, us, 0, [], [].
  split; [exact CM|]. split; [exact LK|]. split; [vm_compute; reflexivity|]. split; [lia|]. split; [vm_compute; reflexivity|]. split; [vm_compute; discriminate|].
  split; [exact UF|]. split; [exact US|]. split; [exact GS|]. intros h ps s [E|[]]. injection E as <- _ _. vm_compute. discriminate.
Qed.
(* what the example computes: sum( n, _ ) is 1 + 2 + ... + n without the 3, and counts in the global *)
Definition tx_loop : prog := PFor [] (Some (Infix "<=" (lv 1) (lv 0))) [Steps "++" true SL 1]
         (PBraces (PSeq (PIf (Infix "==" (lv 1) (lit 3)) (PBraces PContinue)) (PSet (Changes "+=" SL 2 (lv 1))))).
Lemma tx_loop_computes trap no_calls d : forall env n i, env SL 0 = Some n -> env SL 2 = Some (s32 (sum_to (i - 1))) -> env SL 1 = Some i ->
  1 <= i -> i + Z.of_nat d = n + 1 -> n < 2147483647 ->
  exists env1, computes trap no_calls tx_loop env CtlSpec.ONormal env1 /\ env1 SL 2 = Some (s32 (sum_to n)) /\ env1 SG = env SG.
Proof.
  induction d as [|d IH]; intros env n i E0 E1 E2 R1 RN RM.
  - exists env. split; [|split; [|reflexivity]].
    + apply E_for_end. unfold holds_false, value_of. cbn -[s32 Z.mul Z.div]. rewrite E2, E0. cbn. replace (i <=? n) with false by lia. reflexivity.
    + rewrite E1. do 3 f_equal. lia.
  - assert (G : goes_in trap env (Some (Infix "<=" (lv 1) (lv 0)))).
    { exists 1. split; [|discriminate]. unfold value_of. cbn. rewrite E2, E0. cbn. replace (i <=? n) with true by lia. reflexivity. }
    set (env1 := if i =? 3 then env else set env SL 2 (s32 (s32 (sum_to (i - 1)) + i))).
    set (env2 := set env1 SL 1 (i + 1)).
    assert (Q0 : env2 SL 0 = Some n) by (unfold env2, env1; destruct (i =? 3); exact E0).
    assert (Q2 : env2 SL 1 = Some (i + 1)) by reflexivity.
    assert (Q1 : env2 SL 2 = Some (s32 (sum_to (i + 1 - 1)))).
    { replace (i + 1 - 1) with i by lia. rewrite sum_step by lia. unfold env2, env1, set. destruct (Z.eqb_spec i 3) as [->|N]; cbn -[s32 sum_to]; [rewrite E1; do 2 f_equal; lia|].
      f_equal. generalize (sum_to (i - 1)). intros a. apply s32_inj_u32. rewrite <- u32_add_l, u32_s32, u32_add_l. reflexivity. }
    destruct (IH env2 n (i + 1) Q0 Q1 Q2 ltac:(lia) ltac:(lia) RM) as (env3 & C3 & V3 & G3).
    exists env3. split; [|split; [exact V3|rewrite G3; unfold env2, env1; destruct (i =? 3); reflexivity]].
    assert (AL : assigns_all trap [Steps "++" true SL 1] env1 env2).
    { eapply A_cons; [|apply A_nil]. apply (A_step trap "++" 1 true SL 1 env1 i).
      - reflexivity.
      - unfold env1. destruct (i =? 3); exact E2.
      - unfold EvalSpec.int_min. lia. }
    destruct (Z.eqb_spec i 3) as [->|N].
    + eapply E_for with (o := CtlSpec.OCont); [exact G| |now right|exact AL|exact C3]. apply E_braces. apply E_seq_exit; [|discriminate]. apply E_if; [|apply E_braces, E_continue].
      exists 1. split; [|discriminate]. unfold value_of. cbn. rewrite E2. reflexivity.
    + eapply E_for with (o := CtlSpec.ONormal); [exact G| |now left|exact AL|exact C3]. apply E_braces. eapply E_seq.
      * apply E_if_not. unfold holds_false, value_of. cbn. rewrite E2. cbn. destruct (Z.eqb_spec i 3); [lia|reflexivity].
      * apply E_set. apply A_change with (f := fun x y => Some (s32 (x + y))) (old := s32 (sum_to (i - 1))) (y := i); [reflexivity|exact E1| |reflexivity]. unfold value_of. cbn. exact E2.
Qed.
Lemma tx_finishes trap (env : variables) n g x y : 0 <= n < 2147483647 -> env SL 0 = Some n -> env SL 1 = Some x -> env SL 2 = Some y -> env SG 0 = Some g ->
  exists env1, computes trap no_calls tx_f env (CtlSpec.ORet (s32 (sum_to n))) env1 /\ env1 SG 0 = Some (s32 (g + 1)).
Proof.
  intros R E0 E1 E2 EG. set (env0 := set env SL 2 0). set (env1 := set env0 SL 1 1).
  destruct (tx_loop_computes trap no_calls (Z.to_nat n) env1 n 1 E0 eq_refl eq_refl ltac:(lia) ltac:(lia) ltac:(lia)) as (env2 & C2 & V2 & G2).
  exists (set env2 SG 0 (s32 (g + 1))). split; [|reflexivity].
  eapply E_seq; [apply E_set, A_set with (old := y); [exact E2|reflexivity]|].
  eapply E_seq; [eapply E_for_init; [apply A_set with (old := x); [exact E1|reflexivity]|exact C2]|].
  eapply E_seq; [apply E_set, A_set with (old := g)|apply E_ret].
  - now rewrite G2.
  - unfold value_of. cbn -[s32]. rewrite G2. cbn -[s32]. rewrite EG. reflexivity.
  - unfold value_of. cbn -[s32 sum_to]. exact V2.
Qed.
Example c61_ex_call : forall k m stop ips n g first, sane k 2 tx_ctx -> closed (k_base k) m -> int32 g -> mv m (LGlobal 0) = VInt (u32 g) ->
  int32 first -> u32 (rdi (k_pbits k) m (LStack (S (k_base k) + 2))) = u32 first ->
  (k_protect k = true -> (k_base k + 9 < k_limit k)%nat) -> nthZ tx_image stop = Some (byte_of O_Stop) -> 0 <= n < 2147483647 ->
  exists f s1 s2 s3, nth_error (vm_funs tx_ctx) 0 = Some f /\
    host_call (k_pbits k) (k_base k) (k_limit k) (k_protect k) ips stop f [VInt (u32 n)] m = Ok (Run s1) /\
    reaches (machine k tx_image) s1 s2 /\ machine k tx_image s2 = Ok (Done s3) /\
    holds (vmem s3) (mv (vmem s3) (LStack (k_base k))) (s32 (sum_to n)) /\ mv (vmem s3) (LGlobal 0) = VInt (u32 (g + 1)).
Proof.
  intros k m stop ips n g first SA CL RG M0 RF FI RM ST RN.
  set (env := called (one_global g) 2 1 [n] first).
  destruct (tx_finishes (k_trap k) env n g 0 first RN eq_refl eq_refl eq_refl eq_refl) as (env1 & CO & EG).
  destruct (c61_host_call_partial tx_setup 2 tx_file tx_src [nm "g"] [[nm "n"; nm "i"; nm "s"]] tx_image tx_ctx k 0 (name_hash (nm "sum")) [name_hash (nm "n"); name_hash (nm "i")] tx_f [nm "n"; nm "i"; nm "s"]
    m stop ips (one_global g) [n] first (s32 (sum_to n)) env1 c61_ex_built SA eq_refl eq_refl CL)
    as (f & s1 & s2 & s3 & NF & HC & RE & DN & HO & GA & _).
  - intros q z G. unfold one_global in G. destruct (Z.eqb_spec q 0) as [->|]; [|discriminate]. injection G as <-. auto with zarith.
  - constructor; [unfold int32, int_min; lia|constructor].
  - exact RF.
  - intros _. exact FI.
  - intros Q. specialize (RM Q). cbn [length]. lia.
  - exact ST.
  - left. exact CO.
  - intros c E T. exact CO.
  - exists f, s1, s2, s3. split; [exact NF|]. split; [exact HC|]. split; [exact RE|]. split; [exact DN|]. split; [exact HO|].
    destruct (GA 0 _ EG) as (_ & _ & Q). rewrite u32_s32 in Q. exact Q.
Qed.
Example c61_ex_run : forall k m ips, sane k 2 tx_ctx -> closed (k_base k) m -> mv m (LGlobal 0) = VInt 0 ->
  (k_protect k = true -> (k_base k + 4 < k_limit k)%nat) ->
  exists s2 s3, reaches (machine k tx_image) (mkVm m (c_start tx_ctx) (k_base k) 0 None None ips) s2 /\ machine k tx_image s2 = Ok (Done s3) /\
    mv (vmem s3) (LGlobal 0) = VInt 41.
Proof.
  intros k m ips SA CL M0 RM.
  set (env := fun q n => match q with SG => one_global 0 n | SL => None end).
  assert (CO : computes (k_trap k) no_calls (ProgSpec.outside tx_file) env CtlSpec.ONormal (set env SG 0 41)).
  { eapply E_seq; [|apply E_skip]. apply E_set, A_set with (old := 0); reflexivity. }
  destruct (c61_run_partial tx_setup 2 tx_file tx_src _ _ tx_image tx_ctx k m (one_global 0) ips 0 (set env SG 0 41) c61_ex_built SA CL) as (s2 & s3 & RE & DN & _ & GA & _ & _).
  - intros n z G. unfold one_global in G. destruct (Z.eqb_spec n 0) as [->|]; [|discriminate]. injection G as <-. split; [lia|]. split; [unfold int32, int_min; lia|exact M0].
  - intros Q. specialize (RM Q). lia.
  - right. auto.
  - intros c E T. vm_compute in E. injection E as <-. discriminate T.
  - exists s2, s3. split; [exact RE|]. split; [exact DN|]. apply (GA 0 41). reflexivity.
Qed.
Example c61_ex_sane : sane (px_machine tx_ctx) 2 tx_ctx.
Proof.
  split; [cbn; lia|]. split; [intros ? ? ? ? ? ?; reflexivity|]. split; [intros ? ? ? ? ? ?; reflexivity|]. split; [intros h f E; discriminate E|]. split; [lia|reflexivity].
Qed.
Example c61_ex_run_and_call : px_run_and_call tx_ctx tx_image 0 [VInt 4] = Some (VInt 41, VInt 42, VInt 7).
Proof. vm_compute. reflexivity. Qed.

Print Assumptions c61_run_partial.
Print Assumptions c61_host_call_partial.
Print Assumptions c61_loaded_partial.
