(* C62: from the characters of a source file whose functions call each other to what the machine computes.  The
   statement is in the terms of C61, with ProgSpec.invokes for what a call does. *)
From Coq Require Import String.
From Verif Require Import Base BaseLemmas HashModel OpsModel VmModel VmSpec OpsLocal EmitModel CcModel ExprModel ExprSpec ExprNest LinkModel LinkSpec
  FuseSpec EvalSpec EvalProofs EvalRun EvalProps ProgSpec ProgCtl ProgRun CallCode ProgProps CallProps
  TokenModel TokenSpec TokenProps ParseModel ParseSpec ParseProps TextModel TextSpec TextProps ScriptSpec ScriptCode ScriptProps.
From Verif Require CtlSpec.
Open Scope string_scope. Open Scope list_scope. Open Scope Z_scope.
Import CtlSem.

(* how many names the function number i declares with var: all its names but the parameters *)
Definition declared (l : list pitem) (locals : list (list (list Z))) (i : nat) : nat :=
  match nth_error (routines l) i, nth_error locals i with Some (_, ps, _), Some ls => (length ls - length ps)%nat | _, _ => O end.

Lemma invokes_same trap l locals locals' : (forall i r, nth_error (routines l) i = Some r -> locals i = locals' i) ->
  forall d h zs g z g1, invokes trap l locals d h zs g z g1 -> invokes trap l locals' d h zs g z g1.
Proof.
  intros EQ. induction d as [|d IH]; intros h zs g z g1 V; [destruct V|]. cbn [invokes] in *. destruct V as (i & ps & s & FI & ALL).
  exists i, ps, s. split; [exact FI|]. rewrite <- (EQ i _ (proj1 FI)). intros first RF. destruct (ALL first RF) as (env1 & FN & PE & G). exists env1. cbv zeta in *.
  assert (M : forall s env o env1, computes trap (invokes trap l locals d) s env o env1 -> computes trap (invokes trap l locals' d) s env o env1) by (apply computes_more; exact IH).
  split; [destruct FN as [X|[E X]]; [left|right]; auto|]. split; [|exact G]. intros c E T. apply M. exact (PE c E T).
Qed.
Lemma declared_loaded a wide l src globals locals img c : (wide <= 254)%nat -> built_from_text a wide l src globals locals img c ->
  forall i r, nth_error (routines l) i = Some r -> declared l locals i = ProgSpec.locals_of c i.
Proof.
  intros W BU i [[h ps] s] N. destruct (c61_loaded_partial _ _ _ _ _ _ _ _ W BU) as (_ & LF & LL & EA). unfold declared, ProgSpec.locals_of. rewrite N.
  assert (i < length (routines l))%nat by (apply nth_error_Some; congruence).
  destruct (nth_error locals i) as [ls|] eqn:N2; [|apply nth_error_None in N2; lia]. destruct (nth_error (vm_funs c) i) as [f|] eqn:N3; [|apply nth_error_None in N3; lia].
  symmetry. apply (EA i h ps s ls f); auto.
Qed.
Lemma fits_loaded a wide l src globals locals img c F : (wide <= 254)%nat -> built_from_text a wide l src globals locals img c ->
  Forall (fun ls => (length ls <= F)%nat) locals -> frames_fit F c.
Proof.
  intros W BU FF. destruct (c61_loaded_partial _ _ _ _ _ _ _ _ W BU) as (_ & LF & LL & EA). destruct (script_code _ _ _ _ _ _ _ _ W BU) as (C & _ & _ & _ & _ & LS).
  apply Forall_forall. intros f IN. apply In_nth_error in IN as (i & N3). assert (i < length (vm_funs c))%nat by (apply nth_error_Some; congruence).
  destruct (nth_error locals i) as [ls|] eqn:N2; [|apply nth_error_None in N2; lia]. pose proof (LS i ls f N2 N3). apply nth_error_In in N2. rewrite Forall_forall in FF. specialize (FF _ N2). cbv beta in *. lia.
Qed.

(* The file is run; its statements and its functions call functions, at most d calls deep, none of which has more
   than F parameters and variables. *)
Theorem c62_run_partial : forall a wide l src globals locals img c k d F m genv ips z env1,
  built_from_text a wide l src globals locals img c -> sane k wide c -> Forall (fun ls => (length ls <= F)%nat) locals ->
  closed (k_base k) m -> globals_are genv m ->
  (k_protect k = true -> (k_base k + wide + 2 + d * (F + 1) < k_limit k)%nat) ->
  let env := fun q n => match q with SG => genv n | SL => None end in
  let calls := invokes (k_trap k) l (declared l locals) d in
  finishes (k_trap k) calls (ProgSpec.outside l) env z env1 -> proper_end (k_trap k) calls CtlSpec.Body (ProgSpec.outside l) env z env1 ->
  exists s2 s3, reaches (machine k img) (mkVm m (c_start c) (k_base k) 0 None None ips) s2 /\ machine k img s2 = Ok (Done s3) /\
    holds (vmem s3) (mv (vmem s3) (LStack (k_base k))) z /\
    globals_are (env1 SG) (vmem s3) /\ rest_kept (env1 SG) (k_base k) m (vmem s3) /\
    (computes (k_trap k) calls (ProgSpec.outside l) env (CtlSpec.ORet z) env1 \/ nthZ img (vpc s3) = Some (byte_of O_Stop)).
Proof.
  intros a wide l src globals locals img c k d F m genv ips z env1 BU SA FF CL GA RM env calls FN PE.
  assert (W : (wide <= 254)%nat) by apply SA. pose proof (fits_loaded _ _ _ _ _ _ _ _ F W BU FF) as FC. pose proof (declared_loaded _ _ _ _ _ _ _ _ W BU) as DL.
  destruct (script_code _ _ _ _ _ _ _ _ W BU) as (C & <- & CO & _).
  set (calls' := invokes (k_trap k) l (ProgSpec.locals_of c) d).
  assert (M : forall s env o env1, computes (k_trap k) calls s env o env1 -> computes (k_trap k) calls' s env o env1) by (apply computes_more; apply invokes_same; exact DL).
  assert (M' : forall s env o env1, computes (k_trap k) calls' s env o env1 -> computes (k_trap k) calls s env o env1) by (apply computes_more; apply invokes_same; intros i r N; symmetry; eapply DL; eauto).
  destruct (run_general wide l c C k m genv ips z env1 calls' (d * (F + 1)) CO (calls_tame wide l c C k CO d) (calls_work_nested wide l c C k F CO SA FC d) SA CL GA RM) as (s2 & s3 & R1 & R2 & R3 & R4 & R5 & R6).
  - destruct FN as [X|[E X]]; [left|right]; auto.
  - intros x E T. apply M. exact (PE x E T).
  - exists s2, s3. split; [exact R1|]. split; [exact R2|]. split; [exact R3|]. split; [exact R4|]. split; [exact R5|]. destruct R6 as [X|X]; [left; apply M'; exact X|now right].
Qed.
(* The host calls the function number i of the file, in which the names ls are declared. *)
Theorem c62_host_call_partial : forall a wide l src globals locals img c k d F i h ps s ls m stop ips genv zs first z env1,
  built_from_text a wide l src globals locals img c -> sane k wide c -> Forall (fun ls => (length ls <= F)%nat) locals ->
  nth_error (routines l) i = Some (h, ps, s) -> nth_error locals i = Some ls ->
  closed (k_base k) m -> globals_are genv m -> Forall int32 zs -> int32 first ->
  (* the first local: the first argument too many, or what is left on the stack *)
  ((length ps < length ls)%nat -> if (length ps <? length zs)%nat then first = nth (length ps) zs 0
                      else u32 (rdi (k_pbits k) m (LStack (S (k_base k) + length ps))) = u32 first) ->
  (k_protect k = true -> (k_base k + 2 + length ls + wide + 2 + d * (F + 1) < k_limit k)%nat) ->
  nthZ img stop = Some (byte_of O_Stop) ->
  let env := called genv (length ps) (length ls - length ps) zs first in
  let calls := invokes (k_trap k) l (declared l locals) d in
  finishes (k_trap k) calls s env z env1 -> proper_end (k_trap k) calls CtlSpec.InBlock s env z env1 ->
  exists f s1 s2 s3, nth_error (vm_funs c) i = Some f /\
    host_call (k_pbits k) (k_base k) (k_limit k) (k_protect k) ips stop f (map (fun z => VInt (u32 z)) zs) m = Ok (Run s1) /\
    reaches (machine k img) s1 s2 /\ machine k img s2 = Ok (Done s3) /\
    holds (vmem s3) (mv (vmem s3) (LStack (k_base k))) z /\
    globals_are (env1 SG) (vmem s3) /\ rest_kept (env1 SG) (k_base k) m (vmem s3).
Proof.
  intros a wide l src globals locals img c k d F i h ps s ls m stop ips genv zs first z env1 BU SA FF N1 N2 CL GA ZS RF FI RM ST env calls FN PE.
  assert (W : (wide <= 254)%nat) by apply SA. pose proof (fits_loaded _ _ _ _ _ _ _ _ F W BU FF) as FC. pose proof (declared_loaded _ _ _ _ _ _ _ _ W BU) as DL.
  destruct (script_code _ _ _ _ _ _ _ _ W BU) as (C & <- & CO & _ & _ & LS).
  destruct (nth_error (vm_funs c) i) as [f|] eqn:NF.
  2: { exfalso. destruct CO as (LN & _). apply nth_error_None in NF. assert (i < length (routines l))%nat by (apply nth_error_Some; congruence). lia. }
  exists f. pose proof (LS i ls f N2 NF) as LE.
  assert (LA : fn_args f = length ps) by (destruct CO as (_ & CF & _); destruct (CF i h ps s f N1 NF) as (b & _ & _ & X & _); exact X).
  assert (EN : env = called genv (length ps) (fn_frame f) zs first) by (unfold env; f_equal; lia). rewrite EN in FN, PE.
  set (calls' := invokes (k_trap k) l (ProgSpec.locals_of c) d).
  assert (M : forall s env o env1, computes (k_trap k) calls s env o env1 -> computes (k_trap k) calls' s env o env1) by (apply computes_more; apply invokes_same; exact DL).
  destruct (host_call_general wide l c C k i h ps s f m stop ips genv zs first z env1 calls' (d * (F + 1)) CO (calls_tame wide l c C k CO d) (calls_work_nested wide l c C k F CO SA FC d) SA) as (s1 & s2 & s3 & R); auto.
  - intros NZ. apply FI. lia.
  - intros X. specialize (RM X). lia.
  - destruct FN as [X|[E X]]; [left|right]; auto.
  - intros x E T. apply M. exact (PE x E T).
  - exists s1, s2, s3. split; [reflexivity|exact R].
Qed.

(* ---------------------------------------------------------------- an example *)
Definition hash_fact : Z := Eval vm_compute in name_hash (nm "fact").
Definition hash_n : Z := Eval vm_compute in name_hash (nm "n").
Definition cx_body : prog :=
  PSeq (PSet (Sets SG 0 (Infix "+" (gv 0) (lit 1))))
  (PSeq (PIf (Infix "<=" (lv 0) (lit 1)) (PBraces (PReturn (Some (lit 1)))))
  (PSeq (PCall (Some (SL, 1)) hash_fact [Infix "-" (lv 0) (lit 1)]) (PReturn (Some (Infix "*" (lv 0) (lv 1)))))).
Definition cx_file : list pitem := [PGlobal (PSet (Sets SG 0 (lit 0))); PFunction hash_fact [hash_n] cx_body; PGlobal (PCall (Some (SG, 1)) hash_fact [lit 5])].
Definition cx_items : list CtlSem.item :=
  [Global (px_code (PSet (Sets SG 0 (lit 0)))); Function hash_fact [hash_n] (px_code cx_body); Global (px_code (PCall (Some (SG, 1)) hash_fact [lit 5]))].
Definition cx_src : list Z := TokenModel.text
  "var calls = 0 ; function fact ( n ) { calls = calls + 1 ; if ( n <= 1 ) { return 1 ; } var r = fact ( n - 1 ) ; return n * r ; } var x = fact ( 5 ) ; ".
Definition cx_words : list tok :=
  [sign "var"; sign "calls"; sign "="; int "0" 0; sign ";"; sign "function"; sign "fact"; sign "("; sign "n"; sign ")"; sign "{";
   sign "calls"; sign "="; sign "calls"; sign "+"; int "1" 1; sign ";";
   sign "if"; sign "("; sign "n"; sign "<="; int "1" 1; sign ")"; sign "{"; sign "return"; int "1" 1; sign ";"; sign "}";
   sign "var"; sign "r"; sign "="; sign "fact"; sign "("; sign "n"; sign "-"; int "1" 1; sign ")"; sign ";";
   sign "return"; sign "n"; sign "*"; sign "r"; sign ";"; sign "}";
   sign "var"; sign "x"; sign "="; sign "fact"; sign "("; int "5" 5; sign ")"; sign ";"].
Definition cx_names : list (list Z) := [nm "calls"; nm "x"; nm "n"; nm "r"].
Definition cx_globals : list (list Z) := [nm "calls"; nm "x"].
Definition cx_locals : list (list (list Z)) := [[nm "n"; nm "r"]].
Definition cx_image : list Z := Eval vm_compute in
  match compile_text 64 (fun _ => 0) [] [] true 200 cx_src with POk (g, us) => match link g us 0 [] [] with COk img => img | _ => [] end | _ => [] end.
Definition cx_ctx : ctx := Eval vm_compute in match create_context cx_image with Some c => c | None => mkC 0 0 [] end.
Example c62_ex_written : written 64 (fun _ => 0) [] cx_words cx_src.
Proof. change cx_src with (with_blanks cx_words). apply easy_written. vm_compute. reflexivity. Qed.
Example c62_ex_names : all_different cx_names.
Proof.
  split.
  - intros x y X Y. unfold cx_names in X, Y. cbn [In] in X, Y.
    repeat (destruct X as [<-|X]; [repeat (destruct Y as [<-|Y]; [split; intros H; first [reflexivity|vm_compute in H; discriminate H]|]); destruct Y|]); destruct X.
  - intros x y X Y. unfold cx_names in X, Y. cbn [In] in X, Y.
    repeat (destruct X as [<-|X]; [repeat (destruct Y as [<-|Y]; [intros H; vm_compute in H; discriminate H|]); destruct Y|]); destruct X.
Qed.
Ltac arg t := constructor; [|constructor]; exists t; eexists; (split; [toks|]); (split; [den|]); (split; [cps|]); split; vm_compute; reflexivity.
Example c62_ex_says : file_says cx_names [] cx_file cx_words cx_globals cx_locals.
Proof.
  apply (FS_outside _ [] _ [sign "var"; sign "calls"; sign "="; int "0" 0; sign ";"] [nm "calls"]).
  - apply (TS_var_global _ [] (nm "calls") (lit 0) [int "0" 0]); [idf|cbn; tauto|nin|]. say (ni 0).
  - change hash_fact with (name_hash (nm "fact")) at 1.
    apply (FS_function _ [nm "calls"] (nm "fact") [nm "n"] cx_body
      [sign "calls"; sign "="; sign "calls"; sign "+"; int "1" 1; sign ";";
       sign "if"; sign "("; sign "n"; sign "<="; int "1" 1; sign ")"; sign "{"; sign "return"; int "1" 1; sign ";"; sign "}";
       sign "var"; sign "r"; sign "="; sign "fact"; sign "("; sign "n"; sign "-"; int "1" 1; sign ")"; sign ";";
       sign "return"; sign "n"; sign "*"; sign "r"; sign ";"] [nm "n"; nm "r"] [PGlobal (PCall (Some (SG, 1)) hash_fact [lit 5])]
      [sign "var"; sign "x"; sign "="; sign "fact"; sign "("; int "5" 5; sign ")"; sign ";"] cx_globals []).
    + idf.
    + repeat (constructor; [idf|]). constructor.
    + repeat constructor; intros X; destruct X.
    + repeat (constructor; [cbn; tauto|]). constructor.
    + refine (TS_sequence _ _ _ _ _ [sign "calls"; sign "="; sign "calls"; sign "+"; int "1" 1; sign ";"] _ _ _ _ _ _ _).
      { refine (TS_set _ _ _ _ [sign "calls"; sign "="; sign "calls"; sign "+"; int "1" 1] _). say (Infix "=" (na "calls") (Infix "+" (na "calls") (ni 1))). }
      refine (TS_sequence _ _ _ _ _ [sign "if"; sign "("; sign "n"; sign "<="; int "1" 1; sign ")"; sign "{"; sign "return"; int "1" 1; sign ";"; sign "}"] _ _ _ _ _ _ _).
      { refine (TS_if _ _ _ _ _ [sign "n"; sign "<="; int "1" 1] _ _ _ _ _); [say (Infix "<=" (na "n") (ni 1))|].
        refine (TS_braces _ _ _ _ [sign "return"; int "1" 1; sign ";"] _ _ _). refine (TS_return _ _ _ _ [int "1" 1] _). say (ni 1). }
      refine (TS_sequence _ _ _ _ _ [sign "var"; sign "r"; sign "="; sign "fact"; sign "("; sign "n"; sign "-"; int "1" 1; sign ")"; sign ";"] _ _ _ _ _ _ _).
      { refine (TS_var_call_local _ [nm "calls"] [nm "n"] (nm "r") (nm "fact") [Infix "-" (lv 0) (lit 1)] [[sign "n"; sign "-"; int "1" 1]] _ _ _ _ _ _); [idf|cbn; tauto|nin|idf|vm_compute; discriminate|].
        arg (Infix "-" (na "n") (ni 1)). }
      refine (TS_return _ _ _ _ [sign "n"; sign "*"; sign "r"] _). say (Infix "*" (na "n") (na "r")).
    + apply (FS_outside _ [nm "calls"] _ [sign "var"; sign "x"; sign "="; sign "fact"; sign "("; int "5" 5; sign ")"; sign ";"] cx_globals [] [] cx_globals []); [|apply FS_end].
      refine (TS_var_call_global _ [nm "calls"] (nm "x") (nm "fact") [lit 5] [[int "5" 5]] _ _ _ _ _ _); [idf|cbn; tauto|nin|idf|vm_compute; discriminate|].
      arg (ni 5).
Qed.
Ltac use_named_call := split; [cbn; lia|]; split; [unfold hash_fact; lia|]; split; [vm_compute; discriminate|]; constructor; [use_argument|constructor].
Lemma cx_usable : usable_prog O_Return 4 cx_body.
Proof. split; [use_set|]. split; [split; [use_expr|use_expr]|]. split; [use_named_call|use_expr]. Qed.
Example c62_ex_built : built_from_text tx_setup 4 cx_file cx_src cx_globals cx_locals cx_image cx_ctx.
Proof.
  split; [cbn; lia|]. split; [intros c v []|]. exists cx_names, cx_words. split; [exact c62_ex_names|]. split; [exact c62_ex_says|]. split; [exact c62_ex_written|].
  assert (X : exists r, compile_units 200 (source cx_items) = COk r) by (eexists; vm_compute; reflexivity). destruct X as (r & X).
  exists cx_items, 200%nat, r. split; [|split; [exact X|]].
  { constructor; [|constructor; [|constructor; [|constructor]]].
    - constructor; [use_set|vm_compute; reflexivity|]. vm_compute. intuition discriminate.
    - constructor; [exact cx_usable|vm_compute; reflexivity|]. vm_compute. intuition discriminate.
    - clear X; constructor; [use_named_call|vm_compute; reflexivity|]. vm_compute. intuition discriminate. }
  assert (Y : exists g us, text_compiles tx_setup 200 cx_src g us /\ link g us 0 [] [] = COk cx_image /\ Forall unit_fits us /\ Forall (fun u => lenZ (b_all (u_code u)) < 32768) us /\ lenZ (b_all g) < 32768).
  { eexists _, _. split; [vm_compute; reflexivity|]. split; [vm_compute; reflexivity|]. split; [|split].
    - constructor; [|constructor]. vm_compute. intuition discriminate.
    - constructor; [|constructor]. vm_compute. reflexivity.
    - vm_compute. reflexivity. }
  destruct Y as (g & us & CM & LK & UF & US & GS). exists g, us, 0, [], [].
  split; [exact CM|]. split; [exact LK|]. split; [vm_compute; reflexivity|]. split; [lia|]. split; [vm_compute; reflexivity|]. split; [vm_compute; discriminate|].
  split; [exact UF|]. split; [exact US|]. split; [exact GS|]. intros h ps s [E|[]]. injection E as <- _ _. vm_compute. discriminate.
Qed.
Example c62_ex_fit : Forall (fun ls : list (list Z) => (length ls <= 2)%nat) cx_locals.
Proof. constructor; [cbn; lia|constructor]. Qed.
Definition cx_is : function_is cx_file hash_fact 0 [hash_n] cx_body.
Proof. split; [reflexivity|]. intros j ps s L. lia. Qed.
(* fact( n ) is the factorial modulo 2^32, for every n, and counts its calls *)
Lemma cx_computes trap n : forall (g : values) c, Z.of_nat n < 2147483648 -> g 0 = Some c ->
  exists g1, g1 0 = Some (s32 (c + Z.of_nat (Nat.max n 1))) /\ g1 1 = g 1 /\ forall first, int32 first -> exists env1,
    computes trap (invokes trap cx_file (declared cx_file cx_locals) n) cx_body (called g 1 1 [Z.of_nat n] first) (CtlSpec.ORet (s32 (factorial n))) env1 /\ forall x, env1 SG x = g1 x.
Proof.
  induction n as [|n IH]; intros g c RN GC.
  - exists (fun x => if 0 =? x then Some (s32 (c + 1)) else g x). split; [reflexivity|]. split; [reflexivity|]. intros first RF.
    exists (set (called g 1 1 [0] first) SG 0 (s32 (c + 1))). split; [|reflexivity].
    eapply E_seq; [apply E_set, A_set with (old := c); [exact GC|unfold value_of; cbn -[s32]; rewrite GC; reflexivity]|].
    apply E_seq_exit; [|discriminate]. apply E_if; [|apply E_braces, E_ret; reflexivity]. exists 1. split; [reflexivity|discriminate].
  - destruct (Nat.eq_dec n 0) as [->|NZ].
    { exists (fun x => if 0 =? x then Some (s32 (c + 1)) else g x). split; [reflexivity|]. split; [reflexivity|]. intros first RF.
      exists (set (called g 1 1 [1] first) SG 0 (s32 (c + 1))). split; [|reflexivity].
      eapply E_seq; [apply E_set, A_set with (old := c); [exact GC|unfold value_of; cbn -[s32]; rewrite GC; reflexivity]|].
      apply E_seq_exit; [|discriminate]. apply E_if; [|apply E_braces, E_ret; reflexivity]. exists 1. split; [reflexivity|discriminate]. }
    set (gg := fun x => if 0 =? x then Some (s32 (c + 1)) else g x).
    destruct (IH gg (s32 (c + 1)) ltac:(lia) eq_refl) as (g1 & G1 & G2 & ALL).
    exists g1. split.
    { rewrite G1. f_equal. apply s32_inj_u32. rewrite <- u32_add_l, u32_s32, u32_add_l. f_equal. lia. }
    split; [exact G2|].
    intros first RF. set (env := called g 1 1 [Z.of_nat (S n)] first). set (env2 := set env SG 0 (s32 (c + 1))).
    exists (set (with_globals env2 g1) SL 1 (s32 (factorial n))). split; [|reflexivity].
    assert (L0 : env SL 0 = Some (Z.of_nat (S n))) by reflexivity.
    eapply E_seq; [apply E_set, A_set with (old := c); [exact GC|unfold value_of; cbn -[s32]; rewrite GC; reflexivity]|]. fold env2.
    assert (L2 : env2 SL 0 = Some (Z.of_nat (S n))) by reflexivity.
    eapply E_seq; [apply E_if_not; unfold holds_false; rewrite (fact_test _ _ _ L2); replace (Z.of_nat (S n) <=? 1) with false by lia; reflexivity|].
    eapply E_seq with (m1 := set (with_globals env2 g1) SL 1 (s32 (factorial n))).
    + apply E_call with (zs := [Z.of_nat n]) (z := s32 (factorial n)) (g := g1).
      * constructor; [|constructor]. rewrite (fact_less _ _ _ L2). f_equal. replace (Z.of_nat (S n) - 1) with (Z.of_nat n) by lia. apply s32_id. unfold is_s32. lia.
      * cbn [invokes]. exists O, [hash_n], cx_body. split; [exact cx_is|]. intros f0 RF0. destruct (ALL f0 RF0) as (env1 & CO & EG). exists env1. cbv zeta.
        split; [left; exact CO|]. split; [intros ? _ _; exact CO|exact EG].
      * apply T_set with (old := first). reflexivity.
    + apply E_ret. rewrite (fact_times _ _ (Z.of_nat (S n)) (s32 (factorial n)) eq_refl eq_refl). f_equal. apply s32_inj_u32. cbn [factorial]. rewrite <- u32_mul_r, u32_s32, u32_mul_r. reflexivity.
Qed.
(* the host calls fact( n ) *)
Example c62_ex_fact : forall k m stop ips n c0 first, sane k 4 cx_ctx -> closed (k_base k) m -> int32 c0 -> mv m (LGlobal 0) = VInt (u32 c0) -> Z.of_nat n < 2147483648 ->
  int32 first -> u32 (rdi (k_pbits k) m (LStack (S (k_base k) + 1))) = u32 first ->
  (k_protect k = true -> (k_base k + 10 + 3 * n < k_limit k)%nat) -> nthZ cx_image stop = Some (byte_of O_Stop) ->
  exists f s1 s2 s3, nth_error (vm_funs cx_ctx) 0 = Some f /\
    host_call (k_pbits k) (k_base k) (k_limit k) (k_protect k) ips stop f [VInt (u32 (Z.of_nat n))] m = Ok (Run s1) /\
    reaches (machine k cx_image) s1 s2 /\ machine k cx_image s2 = Ok (Done s3) /\
    holds (vmem s3) (mv (vmem s3) (LStack (k_base k))) (s32 (factorial n)) /\ mv (vmem s3) (LGlobal 0) = VInt (u32 (c0 + Z.of_nat (Nat.max n 1))).
Proof.
  intros k m stop ips n c0 first SA CL RC M0 RN RF FI RM ST.
  destruct (cx_computes (k_trap k) n (one_global c0) c0 RN eq_refl) as (g1 & G1 & _ & ALL).
  destruct (ALL first RF) as (env1 & CO & EG).
  destruct (c62_host_call_partial tx_setup 4 cx_file cx_src cx_globals cx_locals cx_image cx_ctx k n 2 0 hash_fact [hash_n] cx_body [nm "n"; nm "r"] m stop ips (one_global c0) [Z.of_nat n] first (s32 (factorial n)) env1
    c62_ex_built SA c62_ex_fit eq_refl eq_refl CL) as (f & s1 & s2 & s3 & NF & HC & RE & DN & HO & GA & _).
  - intros q z G. unfold one_global in G. destruct (Z.eqb_spec q 0) as [->|]; [|discriminate]. injection G as <-. auto with zarith.
  - constructor; [unfold int32, int_min; lia|constructor].
  - exact RF.
  - intros _. exact FI.
  - intros Q. specialize (RM Q). cbn [length]. lia.
  - exact ST.
  - left. exact CO.
  - intros c E T. exact CO.
  - exists f, s1, s2, s3. split; [exact NF|]. split; [exact HC|]. split; [exact RE|]. split; [exact DN|]. split; [exact HO|]. rewrite <- EG in G1.
    destruct (GA 0 _ G1) as (_ & _ & Q). rewrite u32_s32 in Q. exact Q.
Qed.
(* the file: x is 120, and five calls were counted *)
Example c62_ex_run : forall k m ips, sane k 4 cx_ctx -> closed (k_base k) m -> mv m (LGlobal 0) = VInt 0 -> mv m (LGlobal 1) = VInt 0 ->
  (k_protect k = true -> (k_base k + 24 < k_limit k)%nat) ->
  exists s2 s3, reaches (machine k cx_image) (mkVm m (c_start cx_ctx) (k_base k) 0 None None ips) s2 /\ machine k cx_image s2 = Ok (Done s3) /\
    mv (vmem s3) (LGlobal 0) = VInt 5 /\ mv (vmem s3) (LGlobal 1) = VInt 120.
Proof.
  intros k m ips SA CL M0 M1 RM.
  set (env := fun q n => match q with SG => two_globals 0 0 n | SL => None end).
  set (env0 := set env SG 0 0). destruct (cx_computes (k_trap k) 5 (env0 SG) 0 ltac:(lia) eq_refl) as (g1 & G1 & G2 & ALL).
  set (env1 := set (with_globals env0 g1) SG 1 120).
  assert (CO : computes (k_trap k) (invokes (k_trap k) cx_file (declared cx_file cx_locals) 6) (ProgSpec.outside cx_file) env CtlSpec.ONormal env1).
  { eapply E_seq; [apply E_set, A_set with (old := 0); reflexivity|]. eapply E_seq; [|apply E_skip].
    apply E_call with (zs := [5]) (z := 120) (g := g1); [constructor; [reflexivity|constructor]| |apply T_set with (old := 0); exact G2].
    exists O, [hash_n], cx_body. split; [exact cx_is|]. intros f0 RF0. destruct (ALL f0 RF0) as (e & CE & EG). exists e. cbv zeta.
    split; [left; exact CE|]. split; [intros ? _ _; exact CE|exact EG]. }
  destruct (c62_run_partial tx_setup 4 cx_file cx_src cx_globals cx_locals cx_image cx_ctx k 6 2 m (two_globals 0 0) ips 0 env1 c62_ex_built SA c62_ex_fit CL) as (s2 & s3 & RE & ST & _ & GA & _ & _).
  - intros n z G. unfold two_globals in G. destruct (Z.eqb_spec n 0) as [->|]; [injection G as <-; unfold int32, int_min; auto with zarith|]. destruct (Z.eqb_spec n 1) as [->|]; [injection G as <-; unfold int32, int_min; auto with zarith|discriminate].
  - intros Q. specialize (RM Q). lia.
  - right. auto.
  - intros c E T. vm_compute in E. injection E as <-. discriminate T.
  - exists s2, s3. split; [exact RE|]. split; [exact ST|]. split; [|apply (GA 1 120); reflexivity]. destruct (GA 0 5) as (_ & _ & Q); [exact G1|exact Q].
Qed.
Example c62_ex_sane : sane (px_machine cx_ctx) 4 cx_ctx.
Proof.
  split; [cbn; lia|]. split; [intros ? ? ? ? ? ?; reflexivity|]. split; [intros ? ? ? ? ? ?; reflexivity|]. split; [intros h f E; discriminate E|]. split; [lia|reflexivity].
Qed.
Example c62_ex_run_and_call : exists s, px_go cx_ctx cx_image 400 (mkVm px_empty (c_start cx_ctx) 0 0 None None 10) = Ok (Done s) /\ mv (vmem s) (LGlobal 0) = VInt 5 /\ mv (vmem s) (LGlobal 1) = VInt 120.
Proof. eexists. split; [vm_compute; reflexivity|]. split; vm_compute; reflexivity. Qed.

(* ---------------------------------------------------------------- where it fails *)
(* A comma before the parenthesis is accepted: f( 1, ) is compiled as f( 1 ) *)
Theorem c62_trailing_comma_refuted :
  plain "function f( a ) { return a; } var x = f( 1, );" = plain "function f( a ) { return a; } var x = f( 1 );" /\
  (exists r, plain "function f( a ) { return a; } var x = f( 1 );" = POk r) /\
  plain "function f( a ) { return a; } var x = f( , 1 );" <> plain "function f( a ) { return a; } var x = f( 1 );".
Proof. split; [vm_compute; reflexivity|]. split; [eexists; vm_compute; reflexivity|]. intros H. vm_compute in H. discriminate H. Qed.

Print Assumptions c62_run_partial.
Print Assumptions c62_host_call_partial.
Print Assumptions c62_trailing_comma_refuted.
