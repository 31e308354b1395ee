(* C39: what the linker puts in an image and what the loader reads from it. *)
From Verif Require Import Base BaseLemmas HashModel OpsModel VmModel EmitModel CcModel LinkModel LinkSpec LayProofs TableProofs LinkProofs.

(* A linked image can be loaded.  The loader reads for each function its name, its argument count and its
   frame as compiled, and a position at which its code stands; the position of the first instruction is
   that of the code outside functions.  In that code everything is as compiled except the places listed,
   and these are: a call of a function of the program is a call of that function, any other call is a call
   by name, a goto jumps to its label, an object reference is the position of the function's name map.
   Missing: images of 65536 bytes and more and functions with more than 254 locals (refuted below); that
   every unit the compiler makes is completable. *)
Theorem c39_link_partial : forall main us flags symbols source img,
  link main us flags symbols source = COk img ->
  0 <= flags < 256 -> lenZ source < 2147483648 -> lenZ img <= 65535 ->
  Forall unit_fits us -> unnamed us yield_hash ->
  completable main -> names_fit main -> Forall (fun u => completable (u_code u) /\ names_fit (u_code u)) us -> 1 <= lenZ (b_all main) ->
  exists c, create_context img = Some c /\ c_globals c = lenZ (b_locals main) /\
    Forall2 (fun u f => describes u f /\ linked_at us (c_funs c) img (l_off f) (u_code u)) us (c_funs c) /\
    linked_at us (c_funs c) img (c_start c) main.
Proof. exact link_spec. Qed.

(* what does not fit the 8 bit fields for the number of globals, functions and frame slots is rejected,
   and so is a goto without label *)
Lemma signatures_frame us : forall code u, In u us -> 255 < u32 (frame_of u) -> signatures us code = CErr E_compiler_panic.
Proof.
  induction us as [|v us IH]; intros code u I F; [destruct I|]. cbn [signatures]. unfold signature.
  destruct (255 <? u32 (frame_of v)) eqn:E; cbn [cbind]; [reflexivity|]. destruct I as [->|I]; [|eapply IH; eauto]. apply Z.ltb_ge in E. lia.
Qed.
Lemma goto_all_no_label js gs : forall h g l, In (h, g) gs -> (forall j, In j js -> j_goto j <> h) -> forall l', goto_all js gs l <> COk l'.
Proof.
  induction gs as [|[h' g'] gs IH]; intros h g l I N l' E; [destruct I|]. cbn [goto_all] in E.
  destruct (goto_one js (h', g') l) as [l1| |] eqn:E1; cbn [cbind] in E; try discriminate E.
  destruct I as [[= -> ->]|I]; [|exact (IH _ _ _ I N _ E)].
  unfold goto_one in E1. cbn [fst snd] in E1. destruct (find (fun j => j_goto j =? h) js) as [j|] eqn:F; [|discriminate].
  apply find_some in F as [F1 F2]. apply Z.eqb_eq in F2. exact (N _ F1 F2).
Qed.
Theorem c39_rejects : forall main us flags symbols source,
  (255 < lenZ (b_locals main) \/ 255 < lenZ us \/ (exists u, In u us /\ 255 < lenZ (b_locals (u_code u)) - u_args u < 4294967296) ->
   link main us flags symbols source = CErr E_compiler_panic) /\
  (forall b h g, (b = main \/ exists u, In u us /\ b = u_code u) -> In (h, g) (b_gotos b) -> (forall j, In j (b_jumps b) -> j_goto j <> h) ->
   forall img, link main us flags symbols source <> COk img).
Proof.
  intros main us flags symbols source. split.
  - intros H. unfold link, header. destruct (Z.ltb_spec 255 (lenZ (b_locals main))); [reflexivity|]. destruct (Z.ltb_spec 255 (lenZ us)); [reflexivity|].
    destruct H as [H|[H|(u & I & F)]]; [lia|lia|]. rewrite (signatures_frame us _ u I); [reflexivity|]. unfold frame_of, u32. rewrite Z.mod_small; lia.
  - intros b h g B I N img H. unfold link in H. steps. cbv zeta in H. steps. destruct a0 as [c1 ls]. steps. destruct a0 as [[c2 l2] n2].
    assert (G : forall us b code x, link_code us b code = COk x -> In (h, g) (b_gotos b) -> (forall j, In j (b_jumps b) -> j_goto j <> h) -> False).
    { intros vs b' code x K I' N'. unfold link_code in K. cbv zeta in K. steps. exact (goto_all_no_label _ _ _ _ _ I' N' _ E2). }
    destruct B as [->|(u & IU & ->)]; [exact (G _ _ _ _ E0 I N)|].
    assert (SAME := exports_same main us). set (vs := exports main us) in *.
    assert (IV : exists v, In v vs /\ u_code v = u_code u).
    { clear - SAME IU. induction SAME as [|x y us vs (_ & _ & S) _ IH]; [destruct IU|]. destruct IU as [->|IU]; [exists y; split; [now left|exact S]|].
      destruct (IH IU) as (v & A & B). exists v. split; [now right|exact B]. }
    destruct IV as (v & IV & EV). clear - E1 G IV EV I N. revert IV E1. generalize 3, c1, ls, (@nil Z). generalize vs at 1 3.
    induction vs0 as [|w vs0 IH]; intros pos code l ns IV K; [destruct IV|]. cbn [link_units] in K. steps. destruct a as [[c3 l3] n3].
    destruct IV as [->|IV]; [|exact (IH _ _ _ _ IV K)]. unfold link_unit in E. steps. destruct a as [c4 n4]. steps. destruct a0 as [c5 l5].
    rewrite EV in E2. exact (G _ _ _ _ E2 I N).
Qed.
Print Assumptions c39_link_partial.
Print Assumptions c39_rejects.

(* ---- an example ---- *)
Definition blk (l : list (opcode * list Z)) : bcode :=
  fold_left (fun b x => match push_opcode (fst x) b with COk b1 => push_data (snd x) b1 | _ => b end) l empty_bc.
Definition calls (fns objs : list (Z * list Z)) (b : bcode) : bcode := mkB (b_all b) (b_ops b) (b_locals b) fns objs (b_jumps b) (b_gotos b).
(* function f( a ) { return a; }  g = f( 4 );  print( 1 );  yield();  new f;  l: goto l; *)
Definition f_hash : Z := 4242.
Definition src : list tok :=
  [ T_function f_hash [11]; T_lbrace; T_return; T_expr (blk [(O_LoadFromLocal, [0])]); T_semi; T_rbrace;
    T_expr (calls [(f_hash, [2])] [] (blk [(O_LiteralInt8, [4]); (O_FUNCTION_CALL_PLACEHOLDER, [1; 88; 88; 88; 88]); (O_LoadFromGlobal, [0]); (O_Assign, [])])); T_semi;
    T_expr (calls [(555, [2])] [] (blk [(O_LiteralInt8, [1]); (O_FUNCTION_CALL_PLACEHOLDER, [1; 88; 88; 88; 88])])); T_semi;
    T_expr (calls [(yield_hash, [0])] [] (blk [(O_Yield, [0])])); T_semi;
    T_expr (calls [(f_hash, [0])] [(f_hash, [7])] (blk [(O_FUNCTION_CALL_PLACEHOLDER, [0; 88; 88; 88; 88]); (O_NewObjectTable, [0; 0])])); T_semi;
    T_label 99; T_goto 99; T_semi ].
Definition compiled1 : cres (bcode * list cunit) := Eval vm_compute in compile_units 100 src.
Definition main1 : bcode := Eval vm_compute in match compiled1 with COk (b, _) => b | _ => empty_bc end.
Definition units1 : list cunit := Eval vm_compute in match compiled1 with COk (_, us) => us | _ => [] end.
Definition image1 : list Z := Eval vm_compute in match link main1 units1 0 [] [] with COk i => i | _ => [] end.
Ltac small := repeat first [ apply Forall_nil | apply Forall_cons | apply FOP_nil | apply FOP_cons | split ]; unfold disjoint; cbn; lia.
Lemma main1_completable : completable main1 /\ names_fit main1.
Proof.
  split; [split|].
  - unfold completable. change (intervals main1) with [(2, 6); (12, 6); (18, 2); (21, 6); (28, 2); (31, 3)]. change (lenZ (b_all main1)) with 37. small.
  - change (intervals main1) with [(2, 6); (12, 6); (18, 2); (21, 6); (28, 2); (31, 3)]. small.
  - unfold names_fit. change (call_sites main1) with [(4242, 2); (555, 12); (1821831854, 18); (4242, 21)]. small.
Qed.
(* the hypotheses of the theorem hold; the loaded context; the calls, the goto and the object reference *)
Example c39_example : compile_units 100 src = COk (main1, units1) /\ link main1 units1 0 [] [] = COk image1 /\ lenZ image1 <= 65535 /\ Forall unit_fits units1 /\ unnamed units1 yield_hash /\ Forall (fun u => completable (u_code u) /\ names_fit (u_code u)) units1 /\ create_context image1 = Some (mkC 0 14 [mkLF 51 65 f_hash 1 0 2]) /\ linked_at units1 [mkLF 51 65 f_hash 1 0 2] image1 14 main1 /\ linked_at units1 [mkLF 51 65 f_hash 1 0 2] image1 65 (blk [(O_LoadFromLocal, [0]); (O_Return, [])]) /\ decode image1 (14 + 2) = Some (ICall 1 0, 14 + 7) /\ decode image1 (14 + 7) = Some (IPushRet, 14 + 8) /\ decode image1 (14 + 12) = Some (ICallHash true 1 555, 14 + 18) /\ decode image1 (14 + 18) = Some (IYield 0, 14 + 20) /\ decode image1 (14 + 21) = Some (ICall 0 0, 14 + 27) /\ rdu16 image1 (14 + 28) = Some 51 /\ decode image1 (14 + 31) = Some (IJump (14 + 31), 14 + 34).
Proof.
  destruct main1_completable as [CM NM].
  assert (L : link main1 units1 0 [] [] = COk image1) by (vm_compute; reflexivity).
  assert (LI : lenZ image1 <= 65535) by (vm_compute; discriminate).
  assert (UF : Forall unit_fits units1) by (constructor; [|constructor]; vm_compute; intuition discriminate).
  assert (UY : unnamed units1 yield_hash) by (constructor; [vm_compute; discriminate|constructor]).
  assert (CU : Forall (fun u => completable (u_code u) /\ names_fit (u_code u)) units1) by (repeat constructor).
  split; [vm_compute; reflexivity|]. split; [exact L|]. split; [exact LI|]. split; [exact UF|]. split; [exact UY|]. split; [exact CU|].
  destruct (c39_link_partial main1 units1 0 [] [] image1 L ltac:(lia) ltac:(vm_compute; reflexivity) LI UF UY CM NM CU ltac:(vm_compute; discriminate)) as (c & CC & _ & FS & LM).
  assert (CV : create_context image1 = Some (mkC 0 14 [mkLF 51 65 f_hash 1 0 2])) by (vm_compute; reflexivity).
  rewrite CV in CC. injection CC as <-. cbn [c_funs c_start] in *. inversion FS as [|? ? ? ? [_ LU] _]; subst.
  split; [exact CV|]. split; [exact LM|]. split; [exact LU|]. repeat split.
Qed.

(* ---- what is not rejected and goes wrong ---- *)
(* positions are 16 bits wide: behind 65536 bytes of code the position of a function is read modulo 65536 *)
Definition code_of (l : list Z) : bcode := mkB l [] [] [] [] [] [].
Definition f_unit : cunit := mkU f_hash 0 false (code_of [2; 19]).
Lemma bare_completable l : completable (code_of l).
Proof. split; constructor. Qed.
Lemma put_prefix a l i v : 0 <= i < lenZ a -> put (a ++ l) i v = COk (Base.upd a (Z.to_nat i) v ++ l).
Proof.
  intros R. pose proof (lenZ_nonneg l). unfold put. rewrite lenZ_app. rewrite (proj2 (Z.leb_le 0 i)), (proj2 (Z.ltb_lt i (lenZ a + lenZ l))) by lia. cbn [andb]. f_equal.
  assert (G : forall (a : list Z) n, (n < length a)%nat -> Base.upd (a ++ l) n v = Base.upd a n v ++ l).
  { clear. induction a as [|x a IH]; intros [|n] L; cbn in *; try lia; [reflexivity|]. f_equal. apply IH. lia. }
  apply G. unfold lenZ in R. lia.
Qed.
(* the image: the header, the code, the function *)
Lemma link_big l : lenZ l = 65536 ->
  link (code_of l) [f_unit] 0 [] [] = COk (append_crc ([0; 1; 0; 0; 0; 14; 0; 146; 16; 0; 0; 0; 0; 1] ++ l ++ [2; 19])).
Proof.
  intros L. unfold link. change (header (code_of l) [f_unit] 0 [] []) with (COk [0; 1; 0; 170; 187; 204; 221; 146; 16; 0; 0; 0; 0; 1] : cres (list Z)).
  cbn [cbind]. change (exports (code_of l) [f_unit]) with [f_unit].
  change (link_code [f_unit] (code_of l) [0; 1; 0; 170; 187; 204; 221; 146; 16; 0; 0; 0; 0; 1]) with (COk ([0; 1; 0; 170; 187; 204; 221; 146; 16; 0; 0; 0; 0; 1] ++ l, []) : cres (list Z * list (Z * Z))).
  cbn [cbind link_units]. unfold link_unit. cbn [u_export f_unit]. unfold put2. rewrite put_prefix by (vm_compute; intuition congruence). cbn [cbind]. rewrite put_prefix by (vm_compute; intuition congruence). cbn [cbind].
  rewrite put_prefix by (vm_compute; intuition congruence). cbn [cbind]. rewrite put_prefix by (vm_compute; intuition congruence). cbn [cbind]. rewrite lenZ_app, L.
  set (c := Base.upd _ _ _). vm_compute in c. subst c.
  unfold link_code. cbn [u_code f_unit b_jumps b_gotos b_all b_fns code_of goto_all cbind call_all link_units lookups_of b_objs flat_map app rev lookups_put].
  reflexivity.
Qed.
Theorem c39_large_image_refuted : exists main u img c f,
  link main [u] 0 [] [] = COk img /\ unit_fits u /\ completable main /\ completable (u_code u) /\
  create_context img = Some c /\ c_funs c = [f] /\ nthZ img (l_off f) <> nthZ (b_all (u_code u)) 0.
Proof.
  assert (X : exists l, lenZ l = 65536 /\ nthZ l 0 = Some 17).
  { exists (17 :: repeat 17 (Z.to_nat 65535)). split; [unfold lenZ; cbn [length]; rewrite repeat_length, Nat2Z.inj_succ, Z2Nat.id by lia; reflexivity|reflexivity]. }
  destruct X as (l & L & N). exists (code_of l), f_unit. set (code := [0; 1; 0; 0; 0; 14; 0; 146; 16; 0; 0; 0; 0; 1] ++ l ++ [2; 19]).
  assert (LC : lenZ code = 65552) by (unfold code; rewrite !lenZ_app, L; reflexivity).
  exists (append_crc code), (mkC 0 14 [mkLF 0 14 f_hash 0 0 1]), (mkLF 0 14 f_hash 0 0 1).
  split; [apply link_big, L|]. split; [vm_compute; intuition discriminate|]. split; [apply bare_completable|]. split; [apply bare_completable|]. split; [|split; [reflexivity|]].
  - assert (AC : wr_createContext_accepts (append_crc code) = true).
    { apply HashProofs.accepts_iff. split; [apply HashProofs.append_crc_valid; unfold lenZ in LC; lia|]. exists 1. split; [reflexivity|].
      unfold append_crc. rewrite lenZ_app, LC, len_pack32. lia. }
    unfold create_context. rewrite AC. reflexivity.
  - cbn [l_off]. unfold append_crc, code. rewrite <- app_assoc. change 14 with (lenZ [0; 1; 0; 0; 0; 14; 0; 146; 16; 0; 0; 0; 0; 1] + 0). rewrite nthZ_app2 by lia.
    rewrite <- app_assoc, nthZ_app1 by lia. rewrite N. discriminate.
Qed.
(* "function f( a0, ..., a255 ) {}" is compiled and linked, and loaded as a function without arguments *)
Definition upto (n : nat) : list Z := map Z.of_nat (seq 1 n).
Theorem c39_arguments_refuted : exists src main u img c f,
  src = [T_function f_hash (upto 256); T_lbrace; T_rbrace] /\ compile_units 100 src = COk (main, [u]) /\ u_args u = 256 /\ link main [u] 0 [] [] = COk img /\ create_context img = Some c /\ c_funs c = [f] /\ l_args f = 0.
Proof.
  eexists _, _, _, _, _, _. split; [reflexivity|]. split; [vm_compute; reflexivity|]. split; [reflexivity|].
  split; [vm_compute; reflexivity|]. split; [vm_compute; reflexivity|]. split; reflexivity.
Qed.
(* a frame of 255 slots is accepted; the distance to the caller's stack is then read as 0, not 256 *)
Theorem c39_frame_refuted : exists src main u img c f,
  src = [T_function f_hash (upto 255); T_lbrace; T_rbrace] /\ compile_units 100 src = COk (main, [u]) /\ link main [u] 0 [] [] = COk img /\ create_context img = Some c /\ c_funs c = [f] /\ l_args f = 255 /\ l_frame f = 0 /\ l_adjust f = 0.
Proof.
  eexists _, _, _, _, _, _. split; [reflexivity|]. split; [vm_compute; reflexivity|].
  split; [vm_compute; reflexivity|]. split; [vm_compute; reflexivity|]. split; [reflexivity|]. repeat split.
Qed.
(* a function of the program named yield: the call "yield(); g = 2" is written over the code behind it *)
Theorem c39_yield_name_refuted : exists src main u img c,
  src = [T_function yield_hash []; T_lbrace; T_rbrace;
         T_expr (calls [(yield_hash, [0])] [] (blk [(O_Yield, [0])])); T_semi;
         T_expr (blk [(O_LiteralInt8, [2]); (O_LoadFromGlobal, [0]); (O_Assign, [])]); T_semi] /\ compile_units 100 src = COk (main, [u]) /\ completable main /\ link main [u] 0 [] [] = COk img /\ create_context img = Some c /\ exists i, untouched main i /\ nthZ img (c_start c + i) <> nthZ (b_all main) i.
Proof.
  eexists _, _, _, _, _. split; [reflexivity|]. split; [vm_compute; reflexivity|].
  split; [split; vm_compute; repeat constructor; intuition discriminate|]. split; [vm_compute; reflexivity|]. split; [vm_compute; reflexivity|].
  exists 3. split; [constructor; [vm_compute; intuition discriminate|constructor]|]. vm_compute. discriminate.
Qed.
Print Assumptions c39_large_image_refuted.
Print Assumptions c39_arguments_refuted.
Print Assumptions c39_frame_refuted.
Print Assumptions c39_yield_name_refuted.
