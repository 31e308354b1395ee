(* Proofs for C60: the parser of statements on characters does what the one on tokens does. *)
From Coq Require Import String Ascii.
From Verif Require Import Base BaseLemmas HashModel OpsModel VmModel EmitModel ExprModel ExprEmit ExprSpec ExprNest ExprText ExprAssign EvalSpec AppendProofs CcModel ProgSpec ProgCtl ExprParam
  TokenModel TokenSpec TokenProofs ParseModel ParseSpec ParseProofs ParseRun TextModel TextSpec TextCall TextExpr.
Open Scope list_scope. Open Scope Z_scope.

(* ---------------------------------------------------------------- the emitters do not look at the names *)
Definition commutes (f : bcode -> cres bcode) : Prop := forall L b, f (loc L b) = cmap (loc L) (f b).
Lemma commutes_push o : commutes (push_opcode o).
Proof. intros L b. apply push_loc. Qed.
Lemma commutes_target t : commutes (set_target t).
Proof. intros L b. unfold set_target. cbn [loc b_jumps]. destruct (nth_error (b_jumps b) t); reflexivity. Qed.
Lemma commutes_source o t : commutes (add_source o t).
Proof.
  intros L b. unfold add_source. rewrite push_loc. destruct (push_opcode o b) as [b1| |]; cbn [cmap cbind]; try reflexivity. cbn [loc b_ops].
  destruct (b_ops b1) as [|o0 r]; [reflexivity|]. unfold add_ref. cbn [loc b_jumps]. destruct (nth_error (b_jumps b1) t); reflexivity.
Qed.
Lemma commutes_resolve : commutes resolve_jumps.
Proof. intros L b. unfold resolve_jumps. cbn [loc b_jumps b_all]. destruct (resolve_targets (b_jumps b) (b_all b)); reflexivity. Qed.
Lemma commutes_linear cases d z : commutes (linear_table cases d z).
Proof. intros L b. unfold linear_table. rewrite push_loc. destruct (push_opcode _ b); reflexivity. Qed.
Lemma commutes_hash cases d : commutes (hash_table cases d).
Proof. intros L b. unfold hash_table. rewrite push_loc. destruct (push_opcode _ b) as [b1| |]; [|reflexivity|reflexivity]. cbn [cmap cbind]. destruct (find_mod _ _ _); reflexivity. Qed.
Lemma commutes_cut : commutes (fun b => push_opcode O_PopOne (set_code b (firstn (length (b_all b) - 3) (b_all b)) [])).
Proof. intros L b. change (set_code (loc L b) (firstn (length (b_all (loc L b)) - 3) (b_all (loc L b))) []) with (loc L (set_code b (firstn (length (b_all b) - 3) (b_all b)) [])). apply push_loc. Qed.
Lemma commutes_jumps : commutes (fun b => COk (set_jumps b (removelast (b_jumps b)))).
Proof. intros L b. reflexivity. Qed.
Lemma append_merge L X b e : append_bytecode (loc L b) (loc X e) = cmap (loc (merge_locals L X)) (append_bytecode b e).
Proof.
  rewrite !append_split. change (merge_spaces (loc L b) (loc X e)) with (loc (merge_locals L X) (merge_spaces b e)). apply code_loc.
Qed.
Lemma merge_new L h : index_of h L = None -> merge_locals L (L ++ [h]) = L ++ [h].
Proof.
  intros N. assert (NI : existsb (Z.eqb h) L = false).
  { induction L as [|x L IH]; [reflexivity|]. cbn in *. destruct (Z.eqb_spec x h) as [->|NE]; [discriminate N|]. destruct (index_of h L); [discriminate N|]. rewrite IH by reflexivity. replace (h =? x) with false by lia. reflexivity. }
  unfold merge_locals. rewrite fold_left_app. fold (merge_locals L L). rewrite merge_in by (apply Forall_forall; auto). cbn [fold_left]. now rewrite NI.
Qed.

(* ---------------------------------------------------------------- the first token of an expression *)
Definition starts (t : tok) : Prop :=
  (exists w v q, t = mkTok w (IntVal v) q) \/
  exists w, t = mkTok w NoVal false /\ (identifier w \/ (exists n, w = 58 :: 58 :: n) \/ In w (map TokenModel.text ["++"; "--"; "!"; "~"; "-"; "("]%string)).
Lemma starting t l : tokens t l -> forall ls g u, denotes ls g t u -> exists hd tl, l = hd :: tl /\ starts hd.
Proof.
  unfold tokens, denotes. induction 1 as [x l O|s t l I T IH|s t l I T IH|s t u l r I T IH U IH2]; intros ls g e D; inversion D; subst.
  - match goal with H : operand_denotes _ _ _ _ |- _ => rename H into OD end. unfold starts. destruct O as [w v q|n|n|t l T].
    + do 2 eexists. split; [reflexivity|]. left; eauto.
    + do 2 eexists. split; [reflexivity|]. right. eexists. split; [reflexivity|]. left. inversion OD; subst. auto.
    + do 2 eexists. split; [reflexivity|]. right. eexists. split; [reflexivity|]. eauto.
    + do 2 eexists. split; [reflexivity|]. right. eexists. split; [reflexivity|]. right. right. cbn; tauto.
  - unfold prefix_tokens. cbn [map fst prefixes In] in I. unfold starts.
    repeat (destruct I as [<-|I]; [do 2 eexists; split; [reflexivity|]; right; eexists; split; [reflexivity|]; right; right; cbn; tauto|]). destruct I.
  - destruct (IH _ _ _ ltac:(eassumption)) as (hd & tl & -> & B). do 2 eexists. split; [reflexivity|exact B].
  - destruct (IH _ _ _ ltac:(eassumption)) as (hd & tl & -> & B). do 2 eexists. split; [reflexivity|exact B].
Qed.
Definition statement_words : list string :=
  ["{"; "return"; "struct"; "function"; "unit"; "if"; "while"; "for"; "enum"; "export"; "switch"; "do"; "break"; "continue"; "goto"; "else"; "case"; "default"; "}"; ";"; ")"]%string.
Lemma call_starting ls g to tt n r : target_tokens ls g to tt -> identifier n -> exists hd tl, tt ++ word_token n :: r = hd :: tl /\ starts hd.
Proof.
  intros T ID. destruct T as [|x q i l D O].
  - do 2 eexists. split; [reflexivity|]. right. eexists. split; [reflexivity|]. now left.
  - destruct (starting (Atom x) l) with (ls := ls) (g := g) (u := Atom (EVar q i)) as (hd & tl & -> & ST); [now constructor|now constructor|]. do 2 eexists. split; [reflexivity|exact ST].
Qed.
Record plain (t : tok) : Prop := {
  pl_handed : handed_back t = true;
  pl_first : nth O (t_text t) 0 <> 59 /\ nth O (t_text t) 0 <> 125;
  pl_words : forall s, In s statement_words -> is (t_text t) s = false }.
Lemma plain_starts t : starts t -> (forall w v q, t = mkTok w (IntVal v) q -> Forall hexa w) -> plain t.
Proof.
  intros [(w & v & q & ->)|(w & -> & H)] HX.
  - specialize (HX w v q eq_refl). split.
    + unfold handed_back. cbn [t_val]. now rewrite orb_true_r.
    + cbn [t_text]. inversion HX as [|c r C _]; subst; cbn; [lia|]. unfold hexa, digit in C. lia.
    + intros s I. cbn [t_text]. apply is_no. intros ->. unfold statement_words in I. cbn [In] in I. unfold hexa, digit in HX.
      repeat (destruct I as [<-|I]; [cbn in HX; repeat match goal with H : Forall _ (_ :: _) |- _ => inversion H; clear H; subst end; lia|]). destruct I.
  - destruct H as [(c & s & -> & C & W & K)|[(n & ->)|I]].
    + assert (CC : 65 <= c <= 90 \/ c = 95 \/ 97 <= c <= 122) by (unfold letter in C; lia). split; [reflexivity|cbn; lia|].
      intros w I. cbn [t_text]. unfold statement_words in I. cbn [In] in I.
      repeat (destruct I as [<-|I]; [first [apply no_word; [exact K|now listed]|apply first_differs; intros d r E; cbn in E; injection E as <- _; lia]|]). destruct I.
    + split; [reflexivity|cbn; lia|]. intros w I. cbn [t_text]. unfold statement_words in I. cbn [In] in I.
      repeat (destruct I as [<-|I]; [apply first_differs; intros d r E; cbn in E; injection E as <- _; lia|]). destruct I.
    + assert (X : forallb (fun w => negb (nth O w 0 =? 59) && negb (nth O w 0 =? 125) && (0 <? length w)%nat && forallb (fun s => negb (is w s)) statement_words) (map TokenModel.text ["++"; "--"; "!"; "~"; "-"; "("]%string) = true) by (vm_compute; reflexivity).
      pose proof (proj1 (forallb_forall _ _) X w I) as Y. cbv beta in Y. rewrite !andb_true_iff in Y. destruct Y as (((Y1 & Y2) & Y3) & Y4). split.
      * unfold handed_back. cbn [t_text]. now rewrite Y3.
      * cbn [t_text]. lia.
      * intros s J. cbn [t_text]. pose proof (proj1 (forallb_forall _ _) Y4 s J) as Z. cbv beta in Z. now destruct (is w s).
Qed.
Lemma plain_unquoted t s : plain t -> In s statement_words -> unquoted t s = false.
Proof. intros P I. unfold unquoted. rewrite (pl_words _ P s I). apply andb_false_r. Qed.

Ltac unlisted H := cbn in H; repeat (destruct H as [H|H]; [discriminate H|]); destruct H.

Section Text.
Variable lbits : Z.
Variable atof : list Z -> Z.
Variable consts0 consts : list (list Z * tval).
Variable need_var : bool.
Hypothesis LB : 32 <= lbits.
Hypothesis LO : forall n v, In (n, v) (consts0 ++ consts) -> name n.
Variable names : list (list Z).
Hypothesis AD : all_different names.
Variable gend : list (list Z).        (* the globals in the end *)
Variable total : list (list Z).       (* the names of the locals of the functions *)

Notation read := (read lbits atof consts0 consts).
Notation need := (need lbits atof consts0 consts).
Notation demand := (demand lbits atof consts0 consts).
Notation look_ahead := (look_ahead lbits atof consts0 consts).
Notation expression := (expression lbits atof consts0 consts need_var).
Notation expression_to := (expression_to lbits atof consts0 consts need_var).
Notation ready := (ready lbits atof consts0 consts).
Notation fresh := (fresh lbits atof consts0 consts).
Notation spells := (spells names).

(* ---------------------------------------------------------------- reading *)
Definition xready (words : list tok) (x : xst) : Prop :=
  (forall G, ready G words (ParseModel.mkP (x_src x) (x_loaded x) G)) /\
  forall l w v q, words = mkTok w (IntVal v) q :: l -> Forall hexa w.
Lemma of_fresh G words st c : fresh G words st -> xready words (mkX (p_src st) (p_loaded st) c).
Proof.
  intros F. split.
  - intros G'. destruct F as [[_ R] _]. split; [reflexivity|exact R].
  - intros l w v q ->. now apply fresh_int in F.
Qed.
Lemma read_ready t l x : xready (t :: l) x -> exists x1, read x = POk (Some t, x1) /\ xready l x1 /\ x_ctx x1 = x_ctx x /\ x_loaded x1 = None /\
  (handed_back t = true -> xready (t :: l) (put_back t x1)).
Proof.
  intros [R H]. specialize (R []). destruct (next_ready lbits atof consts0 consts LB LO [] t l _ R) as (st1 & N & F).
  exists (mkX (p_src st1) None (x_ctx x)). unfold ParseModel.next, get_token in N. cbn [p_src p_loaded] in N. unfold TextModel.read.
  destruct (match x_loaded x with Some t => _ | None => _ end) as [[t0 rest|e]| |]; cbn [bind] in N; try discriminate N. injection N as -> <-.
  destruct F as [F E]. split; [reflexivity|]. split; [exact (of_fresh _ _ _ (x_ctx x) (conj F E))|]. split; [reflexivity|]. split; [reflexivity|].
  intros HB. split; [|exact H]. intros G. apply (hand_ready lbits atof consts0 consts G t l (ParseModel.mkP (p_src (ParseModel.mkP rest None [])) None G)); [|exact HB].
  split; [|reflexivity]. split; [reflexivity|]. exact (proj2 F).
Qed.
Lemma read_end x : xready [] x -> exists x1, read x = POk (None, x1) /\ xready [] x1 /\ x_ctx x1 = x_ctx x.
Proof.
  intros [R H]. specialize (R []). destruct R as (_ & [(E & W)|(t & l & X & _)]); [|discriminate X]. cbn [p_loaded p_src] in E, W. inversion W as [s S|]; subst.
  exists (mkX (x_src x) None (x_ctx x)). unfold TextModel.read. rewrite E, (sep_only lbits atof consts0 consts LO _ _ S) by lia. split; [reflexivity|]. split; [|reflexivity].
  split; [|intros l w v q X; discriminate X]. intros G. split; [reflexivity|]. left. split; [reflexivity|exact W].
Qed.
Lemma ready_length words x : xready words x -> (length words <= S (length (x_src x)))%nat.
Proof.
  assert (W : forall l s, written lbits atof (consts0 ++ consts) l s -> (length l <= length s)%nat).
  { intros l s. induction 1 as [s S|s w t rest l S P W IH]; [cbn; lia|]. rewrite !app_length. cbn [length].
    assert (length w <> O); [|lia]. intros E. destruct w; [|discriminate E]. clear -P. inversion P; subst;
      repeat match goal with H : _ ++ _ :: _ = [] |- _ => symmetry in H; now apply app_cons_not_nil in H
             | H : _ \/ _ |- _ => destruct H as [H|H]; try discriminate H
             | H : name [] |- _ => destruct H as (? & ? & ? & _); discriminate H
             | H : In [] _ |- _ => cbn in H; repeat (destruct H as [H|H]; [discriminate H|]); destruct H end. }
  intros [R _]. specialize (R []). destruct R as (_ & [(E & H)|(t & l & -> & E & _ & H)]); apply W in H; cbn [p_src length] in *; lia.
Qed.

(* ---------------------------------------------------------------- the states *)
Definition dressed (su : list (list Z)) (us : list cunit) : list cunit := map (fun '(l, u) => named_unit l u) (combine su us).
Definition dress (sg sf : list Z) (su : list (list Z)) (st : CcModel.pst) : CcModel.pst :=
  CcModel.mkP [] (loc sg (p_glob st)) (option_map (loc sf) (p_fn st)) (dressed su (p_units st)) (p_brk st) (p_cont st) (p_fe st).
Inductive stands := Outside | Inside (d : nat) | Behind.
Definition opened (K : stands) : stands := match K with Inside d => Inside (S d) | _ => K end.
Definition closed (K : stands) : stands := match K with Inside (S d) => Inside d | Inside O => Behind | _ => K end.
Definition stood (K : stands) (sf : list Z) (su : list (list Z)) (us : list (list (list Z))) (fn : option bcode) (f : place) : Prop :=
  match K with
  | Outside => f = None /\ fn = None /\ su ++ map (map name_hash) us = total
  | Inside d => fn <> None /\ su ++ map (map name_hash) us = total /\ exists ls, f = Some (ls, d) /\ incl ls names /\ sf = map name_hash ls
  | Behind => f = None /\ fn <> None /\ su ++ sf :: map (map name_hash) us = total
  end.
Record rels (K : stands) (sg sf : list Z) (x : xst) (st : CcModel.pst) su words g f us : Prop := mkRel {
  r_ctx : x_ctx x = dress sg sf su st;
  r_units : length su = length (p_units st);
  r_ready : xready words x;
  r_globals : sg = map qualified g;
  r_names : incl g names;
  r_spells : spells g f (p_toks st) words gend us;
  r_stands : stood K sf su us (p_fn st) f }.
Definition rel K sg sf x st : Prop := exists su words g f us, rels K sg sf x st su words g f us.
Definition scope (st : CcModel.pst) (sg sf : list Z) : list Z := match p_fn st with None => sg | Some _ => sf end.
Lemma cur_dress sg sf su st : cur (dress sg sf su st) = loc (scope st sg sf) (cur st).
Proof. unfold cur, scope. destruct st as [? ? [] ? ? ? ?]; reflexivity. Qed.
Lemma rel_cur K sg sf x st : rel K sg sf x st -> current x = loc (scope st sg sf) (cur st).
Proof. intros (su & words & g & f & us & []). unfold current. rewrite r_ctx0. apply cur_dress. Qed.
Lemma rel_brk K sg sf x st : rel K sg sf x st -> brk x = p_brk st /\ cont x = p_cont st.
Proof. intros (su & words & g & f & us & []). unfold brk, cont. now rewrite r_ctx0. Qed.
(* another state with the same names and text *)
Lemma rel_same K sg sf x st x1 st1 : rel K sg sf x st -> x_src x1 = x_src x -> x_loaded x1 = x_loaded x ->
  (forall su, x_ctx x = dress sg sf su st -> x_ctx x1 = dress sg sf su st1) ->
  p_toks st1 = p_toks st -> p_units st1 = p_units st -> (p_fn st1 = None <-> p_fn st = None) -> rel K sg sf x1 st1.
Proof.
  intros (su & words & g & f & us & [A1 A2 A3 A4 A5 A6 A7]) E1 E2 E3 E4 E5 E6. exists su, words, g, f, us. split; auto; try congruence.
  - unfold xready. now rewrite E1, E2.
  - revert A7. unfold stood. destruct K; tauto.
Qed.
Lemma set_cur_same b st : p_toks (set_cur b st) = p_toks st /\ p_units (set_cur b st) = p_units st /\ (p_fn (set_cur b st) = None <-> p_fn st = None).
Proof. unfold set_cur. destruct (p_fn st); repeat split; cbn; intros; discriminate. Qed.
Lemma set_cur_dress sg sf su b st : set_cur (loc (scope st sg sf) b) (dress sg sf su st) = dress sg sf su (set_cur b st).
Proof. unfold set_cur, scope, dress. destruct (p_fn st); reflexivity. Qed.
Lemma rel_act K sg sf x st f st1 : commutes f -> rel K sg sf x st -> emit f st = COk st1 -> exists x1, act f x = POk x1 /\ rel K sg sf x1 st1.
Proof.
  intros C R E. unfold emit in E. apply bind_some in E as (b & E & EQ). injection EQ as <-.
  assert (X : exists su, x_ctx x = dress sg sf su st) by (destruct R as (su & ? & ? & ? & ? & []); eauto). destruct X as (su & X).
  exists (with_ctx (dress sg sf su (set_cur b st)) x). split.
  - unfold act, emit. rewrite X, cur_dress, C, E. cbn [cmap cbind lift pbind]. now rewrite set_cur_dress.
  - destruct (set_cur_same b st) as (T & U & F). eapply rel_same; [exact R|reflexivity|reflexivity| |exact T|exact U|exact F].
    intros su' X'. cbn [with_ctx x_ctx]. rewrite X in X'. apply (f_equal p_units) in X'. cbn [dress p_units] in X'. unfold dress. now rewrite U, X'.
Qed.
Lemma rel_target K sg sf x st : rel K sg sf x st -> snd (target x) = snd (new_target st) /\ rel K sg sf (fst (target x)) (fst (new_target st)).
Proof.
  intros R. assert (X : exists su, x_ctx x = dress sg sf su st) by (destruct R as (su & ? & ? & ? & ? & []); eauto). destruct X as (su & X).
  unfold target, new_target, add_target. rewrite X, cur_dress. cbn [fst snd loc b_jumps]. split; [reflexivity|].
  change (set_jumps (loc (scope st sg sf) (cur st)) ?j) with (loc (scope st sg sf) (set_jumps (cur st) j)). rewrite set_cur_dress.
  destruct (set_cur_same (set_jumps (cur st) (b_jumps (cur st) ++ [mkJ 0 [] 0])) st) as (T & U & F).
  eapply rel_same; [exact R|reflexivity|reflexivity| |exact T|exact U|exact F].
  intros su' X'. cbn [with_ctx x_ctx]. rewrite X in X'. apply (f_equal p_units) in X'. cbn [dress p_units] in X'. unfold dress. now rewrite U, X'.
Qed.
Lemma rel_put_brk K sg sf x st t : rel K sg sf x st -> rel K sg sf (put_brk t x) (set_brk t st).
Proof. intros R. eapply rel_same; [exact R|reflexivity|reflexivity| |reflexivity|reflexivity|reflexivity]. intros su X. cbn. now rewrite X. Qed.
Lemma rel_put_cont K sg sf x st t : rel K sg sf x st -> rel K sg sf (put_cont t x) (set_cont t st).
Proof. intros R. eapply rel_same; [exact R|reflexivity|reflexivity| |reflexivity|reflexivity|reflexivity]. intros su X. cbn. now rewrite X. Qed.
(* code with names that are in the space already *)
Lemma rel_append K sg sf x st X c st1 : incl X (scope st sg sf) -> rel K sg sf x st -> emit (fun b => append_bytecode b c) st = COk st1 ->
  exists x1, act (fun b => append_bytecode b (loc X c)) x = POk x1 /\ rel K sg sf x1 st1.
Proof.
  intros IC R E. unfold emit in E. apply bind_some in E as (b & E & EQ). injection EQ as <-.
  assert (Y : exists su, x_ctx x = dress sg sf su st) by (destruct R as (su & ? & ? & ? & ? & []); eauto). destruct Y as (su & Y).
  exists (with_ctx (dress sg sf su (set_cur b st)) x). split.
  - unfold act, emit. rewrite Y, cur_dress, append_merge, merge_in by (apply Forall_forall; exact IC). rewrite E. cbn [cmap cbind lift pbind]. now rewrite set_cur_dress.
  - destruct (set_cur_same b st) as (T & U & F). eapply rel_same; [exact R|reflexivity|reflexivity| |exact T|exact U|exact F].
    intros su' X'. cbn [with_ctx x_ctx]. rewrite Y in X'. apply (f_equal p_units) in X'. cbn [dress p_units] in X'. unfold dress. now rewrite U, X'.
Qed.

(* ---------------------------------------------------------------- the next token *)
Definition all_signs : list (CcModel.tok * string) := word_or_sign ++ [(T_lbrace, "{"); (T_rbrace, "}"); (T_default, "default")]%string.
Inductive headed : CcModel.tok -> tok -> Prop :=
| H_sign : forall k s, In (k, s) all_signs -> headed k (sign s)
| H_case : forall h, headed (T_case h) (sign "case")
| H_function : forall h a, headed (T_function h a) (sign "function")
| H_var : forall b, headed (T_expr b) (sign "var")
| H_plain : forall b t, plain t -> headed (T_expr b) t.
Lemma headed_handed k t : headed k t -> handed_back t = true.
Proof.
  destruct 1 as [k s I| | | |b t P]; try reflexivity.
  - assert (X : forallb (fun p => handed_back (sign (snd p))) all_signs = true) by reflexivity. exact (proj1 (forallb_forall _ _) X _ I).
  - apply (pl_handed _ P).
Qed.
Lemma spells_head g f k l w us : spells g f (k :: l) w gend us -> (forall r a v q, w = mkTok a (IntVal v) q :: r -> Forall hexa a) ->
  exists t r, w = t :: r /\ headed k t /\ (forall s, In (k, s) word_or_sign -> t = sign s /\ spells g f l r gend us).
Proof.
  intros S HX. inversion S; subst; try (do 2 eexists; split; [reflexivity|]; split; [econstructor; unfold all_signs; try (apply in_or_app; left; eassumption); apply in_or_app; right; cbn; tauto|];
    intros s' I'; first [exfalso; cbn in I'; repeat (destruct I' as [I'|I']; [discriminate I'|]); exact I'|idtac]).
  - match goal with H : In (k, s) word_or_sign |- _ => rename H into I end. split; [|assumption]. f_equal. cbn in I, I'.
    repeat (destruct I as [I|I]; [injection I as <- <-; repeat (destruct I' as [I'|I']; [now inversion I'|]); destruct I'|]). destruct I.
  - match goal with T : tokens _ _, D : denotes _ _ _ _ |- _ => destruct (starting _ _ T _ _ _ D) as (hd & tl & -> & ST) end.
    do 2 eexists. split; [reflexivity|]. split.
    + apply H_plain, plain_starts; [exact ST|]. intros a v q ->. eapply HX. reflexivity.
    + intros s' I'. exfalso; cbn in I'; repeat (destruct I' as [I'|I']; [discriminate I'|]); exact I'.
  - match goal with T : target_tokens _ _ _ _, D : identifier n |- _ => destruct (call_starting _ _ _ _ _ (sign "(" :: commas tss ++ sign ")" :: w0) T D) as (hd & tl & EQ & ST); rewrite EQ in HX |- * end.
    do 2 eexists. split; [reflexivity|]. split.
    + apply H_plain, plain_starts; [exact ST|]. intros a v q ->. eapply HX. reflexivity.
    + intros s' I'. exfalso; cbn in I'; repeat (destruct I' as [I'|I']; [discriminate I'|]); exact I'.
Qed.
Lemma peek K sg sf x st k r : rel K sg sf x st -> p_toks st = k :: r -> exists t x1, read x = POk (Some t, x1) /\ headed k t /\ rel K sg sf (put_back t x1) st /\ (forall s, In (k, s) word_or_sign -> rel K sg sf x1 (set_toks r st)).
Proof.
  intros (su & words & g & f & us & [A1 A2 A3 A4 A5 A6 A7]) P. pose proof A6 as S. rewrite P in S.
  destruct (spells_head _ _ _ _ _ _ S) as (t & l & -> & H & N); [intros l a v q ->; now apply (proj2 A3 l a v q)|].
  destruct (read_ready _ _ _ A3) as (x1 & RD & R1 & C1 & _ & R2). exists t, x1. split; [exact RD|]. split; [exact H|]. specialize (R2 (headed_handed _ _ H)). split.
  - exists su, (t :: l), g, f, us. split; auto. cbn. now rewrite C1.
  - intros s I. destruct (N s I) as (_ & S'). exists su, l, g, f, us. split; auto. now rewrite C1, A1.
Qed.
Lemma peek_end K sg sf x st : rel K sg sf x st -> p_toks st = [] -> exists x1, read x = POk (None, x1) /\ rel K sg sf x1 st.
Proof.
  intros (su & words & g & f & us & [A1 A2 A3 A4 A5 A6 A7]) P. pose proof A6 as S. rewrite P in S. inversion S; subst.
  destruct (read_end _ A3) as (x1 & RD & R1 & C1). exists x1. split; [exact RD|]. exists su, [], gend, None, []. split; auto. now rewrite C1.
Qed.
Lemma rel_toks K sg sf x st r : rel K sg sf x st -> (length (p_toks st) = r)%nat -> (r <= S (length (x_src x)))%nat.
Proof.
  intros (su & words & g & f & us & [A1 A2 A3 A4 A5 A6 A7]) <-. apply ready_length in A3. assert (length (p_toks st) <= length words)%nat; [|lia].
  clear -A6. induction A6; cbn [length]; rewrite ?app_length; cbn [length]; rewrite ?app_length; cbn [length]; try lia.
  all: try (destruct (starting _ _ H _ _ _ H0) as (hd & tl & -> & _); cbn [length]); lia.
Qed.
(* braces *)
Lemma open_brace K sg sf x st r : rel K sg sf x st -> p_toks st = T_lbrace :: r -> exists x1, read x = POk (Some (sign "{"), x1) /\ rel (opened K) sg sf x1 (set_toks r st).
Proof.
  intros (su & words & g & f & us & [A1 A2 A3 A4 A5 A6 A7]) P. pose proof A6 as S. rewrite P in S.
  inversion S; subst; [exfalso; match goal with H : In _ word_or_sign |- _ => cbn in H; repeat (destruct H as [H|H]; [discriminate H|]); destruct H end|].
  destruct (read_ready _ _ _ A3) as (x1 & RD & R1 & C1 & _ & _). exists x1. split; [exact RD|]. eexists su, _, g, (braced f), us. split; eauto. { now rewrite C1, A1. }
  unfold stood, opened in *. destruct K as [|d|]; cbn [set_toks p_fn]; [|destruct A7 as (B1 & B2 & ls & -> & B3 & B4)|]; try (destruct A7 as (-> & B1 & B2); auto).
  repeat split; auto. exists ls. auto.
Qed.
Lemma close_brace K sg sf x st r : K <> Behind -> rel K sg sf x st -> p_toks st = T_rbrace :: r -> exists x1, read x = POk (Some (sign "}"), x1) /\ rel (closed K) sg sf x1 (set_toks r st).
Proof.
  intros NB (su & words & g & f & us & [A1 A2 A3 A4 A5 A6 A7]) P. pose proof A6 as S. rewrite P in S.
  inversion S; subst; [exfalso; match goal with H : In _ word_or_sign |- _ => cbn in H; repeat (destruct H as [H|H]; [discriminate H|]); destruct H end| |].
  - destruct (read_ready _ _ _ A3) as (x1 & RD & R1 & C1 & _ & _). exists x1. split; [exact RD|]. eexists su, _, g, f0, us. split; eauto. { now rewrite C1, A1. }
    unfold stood, closed in *. cbn [set_toks p_fn]. destruct K as [|d|]; [|destruct A7 as (B1 & B2 & ls & B5 & B3 & B4)|congruence].
    + destruct A7 as (B0 & B1 & B2). destruct f0; [discriminate B0|auto].
    + destruct f0 as [[ls0 d0]|]; [|discriminate B5]. cbn in B5. injection B5 as -> <-. repeat split; auto. exists ls. auto.
  - destruct (read_ready _ _ _ A3) as (x1 & RD & R1 & C1 & _ & _). exists x1. split; [exact RD|]. eexists su, _, g, None, us0. split; eauto. { now rewrite C1, A1. }
    unfold stood, closed in *. cbn [set_toks p_fn]. destruct K as [|d|]; [|destruct A7 as (B1 & B2 & ls' & B5 & B3 & B4)|congruence].
    + destruct A7 as (B0 & _). discriminate B0.
    + injection B5 as -> <-. rewrite B4. auto.
Qed.
Lemma rel_demand K sg sf x st st1 k s : In (k, s) [(T_lparen, "("); (T_rparen, ")"); (T_semi, ";"); (T_while, "while")]%string -> rel K sg sf x st -> expect k st = COk st1 ->
  exists x1, demand s x = POk x1 /\ rel K sg sf x1 st1.
Proof.
  intros I R E. unfold expect in E. destruct (p_toks st) as [|k' r] eqn:P; [discriminate E|]. destruct (tok_eqb k' k) eqn:Q; [|discriminate E]. injection E as <-.
  assert (k' = k) as -> by (cbn in I; repeat (destruct I as [I|I]; [injection I as <- <-; destruct k'; try discriminate Q; reflexivity|]); destruct I).
  destruct (peek _ _ _ _ _ _ _ R P) as (t & x1 & RD & H & _ & N). assert (W : In (k, s) word_or_sign) by (cbn in I |- *; tauto).
  exists x1. split; [|exact (N s W)]. unfold TextModel.demand, TextModel.need. rewrite RD. cbn [pbind].
  cbn in I. repeat (destruct I as [I|I]; [injection I as <- <-; inversion H as [? ? J| | | |]; subst; cbn in J; repeat (destruct J as [J|J]; [try discriminate J; injection J as <-; reflexivity|]); destruct J|]). destruct I.
Qed.
Lemma rel_open K sg sf x st st1 : rel K sg sf x st -> expect T_lbrace st = COk st1 -> exists x1, demand "{" x = POk x1 /\ rel (opened K) sg sf x1 st1.
Proof.
  intros R E. unfold expect in E. destruct (p_toks st) as [|k' r] eqn:P; [discriminate E|]. destruct (tok_eqb k' T_lbrace) eqn:Q; [|discriminate E]. injection E as <-.
  destruct k'; try discriminate Q. destruct (open_brace _ _ _ _ _ _ R P) as (x1 & RD & R1). exists x1. split; [|exact R1]. unfold TextModel.demand, TextModel.need. now rewrite RD.
Qed.
Lemma rel_look K sg sf x st : rel K sg sf x st -> p_toks st <> [] -> exists x1, look_ahead x = POk x1 /\ rel K sg sf x1 st.
Proof.
  intros R NE. destruct (p_toks st) as [|k r] eqn:P; [congruence|]. destruct (peek _ _ _ _ _ _ _ R P) as (t & x1 & RD & _ & R1 & _).
  eexists. split; [|exact R1]. unfold TextModel.look_ahead, TextModel.need. now rewrite RD.
Qed.

(* ---------------------------------------------------------------- expressions *)
Definition ender : list (CcModel.tok * string) := [(T_semi, ";"); (T_rparen, ")"); (T_comma, ",")]%string.
Lemma ender_sign k s : In (k, s) ender -> In (k, s) word_or_sign /\ In s closers /\ is_terminator k = true.
Proof. intros I. cbn in I. repeat (destruct I as [I|I]; [injection I as <- <-; cbn; tauto|]). destruct I. Qed.
Lemma clash ls g : incl ls names -> incl g names -> no_clash name_hash (ls ++ g).
Proof. intros I1 I2 x y X Y. apply (proj1 AD); [apply in_app_or in X as [X|X]|apply in_app_or in Y as [Y|Y]]; auto. Qed.
Lemma no_global x g : In x names -> incl g names -> index_of (name_hash x) (map qualified g) = None.
Proof.
  intros X I. induction g as [|y g IH]; [reflexivity|]. cbn [map index_of]. destruct (Z.eqb_spec (qualified y) (name_hash x)) as [E|_].
  - exfalso. apply (proj2 AD x y X); [apply I; now left|]. now symmetry.
  - rewrite IH; [reflexivity|]. intros z Z. apply I. now right.
Qed.
(* what the parser of expressions leaves *)
Lemma left_over sg sg1 sf su st r words x c1 st1 : x_ctx x = dress sg sf su st -> fresh sg1 words st1 ->
  c1 = CcModel.mkP [] (with_locals (p_globals st1) (p_glob (x_ctx x))) (p_fn (x_ctx x)) (p_units (x_ctx x)) (p_brk (x_ctx x)) (p_cont (x_ctx x)) (p_fe (x_ctx x)) ->
  xready words (mkX (p_src st1) (p_loaded st1) c1) /\ c1 = dress sg1 sf su (set_toks r st).
Proof. intros X F ->. split; [now apply (of_fresh sg1)|]. destruct F as [[PG _] _]. rewrite PG, X. reflexivity. Qed.
Lemma expression_rel pf K sg sf x st b e s st1 : K <> Behind -> rel K sg sf x st -> parse_expr st = COk (b, e, st1) -> In (e, s) ender ->
  exists x1 L', expression pf x = POk (nth O (TokenModel.text s) 0, loc L' b, x1) /\
    (e <> T_semi -> L' = scope st sg sf /\ rel K sg sf x1 st1) /\
    forall b1 st2, emit (fun c => append_bytecode c b1) st1 = COk st2 ->
      exists x2 sg2 sf2, act (fun c => append_bytecode c (loc L' b1)) x1 = POk x2 /\ rel K sg2 sf2 x2 st2 /\ incl sg sg2 /\ incl sf sf2.
Proof.
  intros NB R E IE. pose proof (rel_toks _ _ _ _ _ _ R eq_refl) as LEN. destruct (ender_sign _ _ IE) as (IW & IC & IT).
  destruct R as (su & words & g & f & us & [A1 A2 A3 A4 A5 A6 A7]).
  assert (CU : b_locals (current x) = scope st sg sf) by (unfold current; rewrite A1, cur_dress; reflexivity).
  assert (GL : b_locals (p_glob (x_ctx x)) = sg) by now rewrite A1.
  assert (TP : at_top (x_ctx x) = match locals_of f with None => true | Some _ => false end).
  { rewrite A1. unfold at_top, dress. cbn [p_fn]. unfold stood in A7. destruct K as [|d|]; [| |congruence].
    - destruct A7 as (-> & -> & _). reflexivity.
    - destruct A7 as (N & _ & ls & -> & _). destruct (p_fn st); [reflexivity|congruence]. }
  assert (HL : forall ls, locals_of f = Some ls -> scope st sg sf = map name_hash ls).
  { intros ls E'. unfold scope. unfold stood in A7. destruct K as [|d|]; [| |congruence].
    - destruct A7 as (-> & _). discriminate E'.
    - destruct A7 as (N & _ & ls' & -> & _ & ->). injection E' as <-. destruct (p_fn st); [reflexivity|congruence]. }
  assert (IL : incl (match locals_of f with Some ls => ls | None => [] end) names).
  { unfold stood in A7. destruct K as [|d|]; [| |congruence].
    - destruct A7 as (-> & _). intros z [].
    - destruct A7 as (N & _ & ls' & -> & I & _). exact I. }
  pose proof (clash _ _ IL A5) as NC. pose proof (ready_length _ _ A3) as WL.
  (* nothing is declared *)
  assert (PL : forall r w st1', st1 = set_toks r st -> spells g f r w gend us -> fresh sg w st1' ->
    parse_text lbits atof consts0 consts need_var (at_top (x_ctx x)) false pf (S (S (length (x_src x)))) (scope st sg sf) false (ParseModel.mkP (x_src x) (x_loaded x) sg)
      = POk (nth O (TokenModel.text s) 0, loc (scope st sg sf) b, st1') ->
    exists x1 L', expression pf x = POk (nth O (TokenModel.text s) 0, loc L' b, x1) /\
      (e <> T_semi -> L' = scope st sg sf /\ rel K sg sf x1 st1) /\
      forall b1 st2, emit (fun c => append_bytecode c b1) st1 = COk st2 ->
        exists x2 sg2 sf2, act (fun c => append_bytecode c (loc L' b1)) x1 = POk x2 /\ rel K sg2 sf2 x2 st2 /\ incl sg sg2 /\ incl sf sf2).
  { intros r w st1' -> SP F PT. destruct (left_over sg sg sf su st r w x _ st1' A1 F eq_refl) as (XR & XC).
    assert (RR : rel K sg sf (mkX (p_src st1') (p_loaded st1') (dress sg sf su (set_toks r st))) (set_toks r st)).
    { exists su, w, g, f, us. split; auto. }
    exists (mkX (p_src st1') (p_loaded st1') (dress sg sf su (set_toks r st))), (scope st sg sf). split; [|split].
    - unfold TextModel.expression. rewrite CU, GL, PT. cbn [pbind]. now rewrite XC.
    - auto.
    - intros b1 st2 E2. destruct (rel_append _ _ _ _ (set_toks r st) (scope st sg sf) _ _ (incl_refl _) RR E2) as (x2 & X2 & R2). exists x2, sg, sf. auto using incl_refl. }
  unfold parse_expr in E.
  assert (CASES : (exists r, p_toks st = T_expr b :: e :: r /\ st1 = set_toks r st) \/ (exists r, p_toks st = e :: r /\ b = empty_bc /\ st1 = set_toks r st)).
  { assert (NL : forall h r, p_toks st <> T_label h :: r) by (intros h r P; rewrite P in A6; inversion A6; subst; match goal with H : In _ word_or_sign |- _ => unlisted H end).
    destruct (p_toks st) as [|k r] eqn:P; [discriminate E|].
    destruct k; try (right; destruct (is_terminator _) eqn:T in E; [|discriminate E]; injection E as <- <- <-; eauto; fail).
    - left. destruct r as [|k r]; [discriminate E|]. destruct (is_terminator k) eqn:T in E; [|discriminate E]. injection E as <- <- <-. eauto.
    - now destruct (NL h r). }
  clear E. destruct CASES as [(r & P & ->)|(r & P & -> & ->)].
  - pose proof A6 as SS. rewrite P in SS. inversion SS; subst; try (exfalso; match goal with H : In (T_expr _, _) word_or_sign |- _ => unlisted H end).
    + (* an expression *)
      match goal with T : tokens _ _, D : denotes _ _ _ _, CS : compiles _, C : compile _ = _, S : TextSpec.spells _ g f (e :: r) _ _ _ |- _ => rename T into T0, D into D0, CS into CS0, C into C0, S into S0 end.
      destruct (spells_head _ _ _ _ _ _ S0) as (t0 & w' & -> & _ & N).
      { intros r0 a v q ->. inversion S0; subst; unlisted IW. }
      destruct (N s IW) as (-> & S'). 
      destruct (parses_tree lbits atof consts0 consts need_var (at_top (x_ctx x)) pf LB LO (scope st (map qualified g) sf) (map qualified g) (locals_of f) g NC TP HL eq_refl
                  (length ts) t ts e0 b (le_n _) T0 D0 CS0 C0 (S (S (length (x_src x)))) (ParseModel.mkP (x_src x) (x_loaded x) (map qualified g)) w' false s IC) as (st1 & PT & F).
      { apply (proj1 A3). }
      { rewrite app_length in WL. cbn [length] in WL. lia. }
      exact (PL r w' st1 eq_refl S' F PT).
    + (* a call *)
      match goal with T : target_tokens _ _ _ _, D : identifier n, Y : name_hash n <> _, A : Forall2 _ _ _, C : ProgSpec.compile_call_to _ _ _ = _, S : TextSpec.spells _ g f (e :: r) _ _ _ |- _ => rename T into T0, D into D0, Y into Y0, A into AA, C into C0, S into S0 end.
      destruct (spells_head _ _ _ _ _ _ S0) as (t0 & w' & -> & _ & N).
      { intros r0 a v q ->. inversion S0; subst; unlisted IW. }
      destruct (N s IW) as (-> & S').
      destruct (parses_call lbits atof consts0 consts need_var (at_top (x_ctx x)) pf LB LO (scope st (map qualified g) sf) (map qualified g) (locals_of f) g NC TP HL eq_refl
                  to tt n args tss b T0 D0 Y0 AA C0 (S (S (length (x_src x)))) (ParseModel.mkP (x_src x) (x_loaded x) (map qualified g)) w' false s IC) as (st1 & PT & F).
      { apply (proj1 A3). }
      { rewrite app_length in WL. cbn [length] in WL. rewrite app_length in WL. cbn [length] in WL. lia. }
      exact (PL r w' st1 eq_refl S' F PT).
    + (* var x = e outside of functions *)
      cbn in IE. destruct IE as [IE|[IE|[IE|[]]]]; try discriminate IE. injection IE as <-.
      match goal with T : tokens _ _, D : denotes _ _ _ _, CS : compiles _, FN : fine _, C : compile _ = _, S : TextSpec.spells _ (g ++ [_]) _ _ _ _ _ |- _ => rename T into T0, D into D0, CS into CS0, C into C0, S into S0, FN into F0 end.
      match goal with I1 : identifier ?y, I2 : In ?y names, I3 : ~ In ?y g |- _ => rename y into v, I1 into ID, I2 into IV, I3 into NV end.
      unfold stood in A7. destruct K as [|d|]; [|destruct A7 as (_ & _ & ls & X & _); discriminate X|congruence]. destruct A7 as (_ & FN & TO).
      assert (QN : index_of (qualified v) (map qualified g) = None).
      { apply (index_none qualified); [|exact NV]. intros y Y EQ. apply (proj1 AD y v); auto. }
      assert (DC : declared consts0 consts need_var (at_top (x_ctx x)) (scope st (map qualified g) sf) (map qualified g) SG (lenZ g) (scope st (map qualified g) sf) (map qualified g ++ [qualified v]) v).
      { replace (lenZ g) with (lenZ (map qualified g)) by (unfold lenZ; now rewrite map_length). apply (declared_global _ _ _ _ _ _ None TP); [exact ID|reflexivity|exact QN]. }
      destruct (parses_var lbits atof consts0 consts need_var (at_top (x_ctx x)) pf LB LO (scope st (map qualified g) sf) (map qualified g) None g NC TP HL eq_refl
                  t ts e0 b v SG (lenZ g) _ _ T0 D0 CS0 F0 ltac:(assumption) C0 ID DC (S (S (length (x_src x)))) (ParseModel.mkP (x_src x) (x_loaded x) (map qualified g)) w false ";") as (st1 & PT & F).
      { cbn; tauto. }
      { apply (proj1 A3). }
      { cbn [length] in WL. rewrite app_length in WL. cbn [length] in WL. lia. }
      destruct (left_over _ _ sf su st r w x _ st1 A1 F eq_refl) as (XR & XC).
      assert (SC : scope st (map qualified g) sf = map qualified g) by (unfold scope; now rewrite FN). 
      assert (RR : rel Outside (map qualified g ++ [qualified v]) sf (mkX (p_src st1) (p_loaded st1) (dress (map qualified g ++ [qualified v]) sf su (set_toks r st))) (set_toks r st)).
      { exists su, w, (g ++ [v]), None, us. split; auto.
        - now rewrite map_app.
        - intros z Z. apply in_app_or in Z as [Z|[<-|[]]]; auto.
        - unfold stood. auto. }
      eexists _, (scope st (map qualified g) sf). split; [|split; [congruence|]].
      * unfold TextModel.expression. rewrite CU, GL. unfold parse_text. cbn [TokenModel.text] in PT |- *. rewrite PT. cbn [pbind]. rewrite XC. reflexivity.
      * intros b1 st2 E2. destruct (rel_append _ _ _ _ (set_toks r st) (scope st (map qualified g) sf) _ _ ltac:(unfold scope; cbn [set_toks p_fn]; rewrite FN; apply incl_appl, incl_refl) RR E2) as (x2 & X2 & R2). exists x2, (map qualified g ++ [qualified v]), sf. auto using incl_refl, incl_appl.
    + (* var x = e in a function *)
      cbn in IE. destruct IE as [IE|[IE|[IE|[]]]]; try discriminate IE. injection IE as <-.
      match goal with T : tokens _ _, D : denotes _ _ _ _, CS : compiles _, FN : fine _, C : compile _ = _, S : TextSpec.spells _ _ (Some (ls ++ [_], _)) _ _ _ _ |- _ => rename T into T0, D into D0, CS into CS0, C into C0, S into S0, FN into F0 end.
      match goal with I1 : identifier ?y, I2 : In ?y names, I3 : ~ In ?y ls |- _ => rename y into v, I1 into ID, I2 into IV, I3 into NV end.
      unfold stood in A7. destruct K as [|d0|]; [destruct A7 as (X & _); discriminate X| |congruence]. destruct A7 as (FN & TO & ls' & X & IL' & SF). injection X as <- <-.
      assert (SC : scope st (map qualified g) sf = sf) by (unfold scope; destruct (p_fn st); [reflexivity|congruence]).
      assert (QN : index_of (name_hash v) sf = None).
      { rewrite SF. apply (index_none name_hash); [|exact NV]. intros y Y EQ. exact (proj1 (proj1 AD y v (IL' y Y) IV) EQ). }
      assert (DC : declared consts0 consts need_var (at_top (x_ctx x)) sf (map qualified g) SL (lenZ ls) (sf ++ [name_hash v]) (map qualified g) v).
      { replace (lenZ ls) with (lenZ sf) by (rewrite SF; unfold lenZ; now rewrite map_length). apply (declared_local _ _ _ _ _ _ (Some ls) TP v ls); [reflexivity|exact QN|]. now apply no_global. }
      rewrite SC in *.
      destruct (parses_var lbits atof consts0 consts need_var (at_top (x_ctx x)) pf LB LO sf (map qualified g) (Some ls) g NC TP HL eq_refl
                  t ts e0 b v SL (lenZ ls) _ _ T0 D0 CS0 F0 ltac:(assumption) C0 ID DC (S (S (length (x_src x)))) (ParseModel.mkP (x_src x) (x_loaded x) (map qualified g)) w false ";") as (st1 & PT & F).
      { cbn; tauto. }
      { apply (proj1 A3). }
      { cbn [length] in WL. rewrite app_length in WL. cbn [length] in WL. lia. }
      destruct (left_over _ _ sf su st r w x _ st1 A1 F eq_refl) as (XR & XC).
      eexists _, (sf ++ [name_hash v]). split; [|split; [congruence|]].
      * unfold TextModel.expression. rewrite CU, GL. unfold parse_text. rewrite PT. cbn [pbind]. rewrite XC. reflexivity.
      * intros b1 st2 E2. unfold emit in E2. apply bind_some in E2 as (c2 & E2 & EQ). injection EQ as <-.
        set (st' := set_toks r st) in *. assert (FN' : p_fn st' <> None) by exact FN.
        destruct (set_cur_same c2 st') as (TK & UN & FI).
        exists (mkX (p_src st1) (p_loaded st1) (dress (map qualified g) (sf ++ [name_hash v]) su (set_cur c2 st'))), (map qualified g), (sf ++ [name_hash v]).
        split; [|split; [|split; [apply incl_refl|apply incl_appl, incl_refl]]].
        { unfold act, emit. cbn [x_ctx]. rewrite cur_dress. unfold scope. destruct (p_fn st') as [bf|] eqn:PF; [|congruence].
          rewrite append_merge, (merge_new _ _ QN), E2. cbn [cmap cbind lift pbind]. unfold with_ctx, set_cur, dress. cbn [x_src x_loaded p_fn option_map p_toks p_glob p_units p_brk p_cont p_fe]. rewrite PF. reflexivity. }
        { exists su, w, g, (Some (ls ++ [v], d)), us. split; auto.
          - now rewrite UN.
          - now rewrite TK.
          - unfold stood. split; [tauto|]. split; [exact TO|]. exists (ls ++ [v]). split; [reflexivity|]. split; [|rewrite map_app, SF; reflexivity].
            intros z Z. apply in_app_or in Z as [Z|[<-|[]]]; auto. }
    + (* var x = n( ... ) outside of functions *)
      cbn in IE. destruct IE as [IE|[IE|[IE|[]]]]; try discriminate IE. injection IE as <-.
      match goal with D : identifier n, Y : name_hash n <> _, A : Forall2 _ _ _, C : ProgSpec.compile_call_to _ _ _ = _, S : TextSpec.spells _ (g ++ [_]) _ _ _ _ _ |- _ => rename D into D0, Y into Y0, A into AA, C into C0, S into S0 end.
      match goal with I1 : identifier ?y, I2 : In ?y names, I3 : ~ In ?y g |- _ => rename y into v, I1 into ID, I2 into IV, I3 into NV end.
      unfold stood in A7. destruct K as [|d|]; [|destruct A7 as (_ & _ & ls & X & _); discriminate X|congruence]. destruct A7 as (_ & FN & TO).
      assert (QN : index_of (qualified v) (map qualified g) = None).
      { apply (index_none qualified); [|exact NV]. intros y Y EQ. apply (proj1 AD y v); auto. }
      assert (DC : declared consts0 consts need_var (at_top (x_ctx x)) (scope st (map qualified g) sf) (map qualified g) SG (lenZ g) (scope st (map qualified g) sf) (map qualified g ++ [qualified v]) v).
      { replace (lenZ g) with (lenZ (map qualified g)) by (unfold lenZ; now rewrite map_length). apply (declared_global _ _ _ _ _ _ None TP); [exact ID|reflexivity|exact QN]. }
      destruct (parses_var_call lbits atof consts0 consts need_var (at_top (x_ctx x)) pf LB LO (scope st (map qualified g) sf) (map qualified g) None g NC TP HL eq_refl
                  n args tss b v SG (lenZ g) _ _ D0 Y0 AA C0 ID DC (S (S (length (x_src x)))) (ParseModel.mkP (x_src x) (x_loaded x) (map qualified g)) w false ";") as (st1 & PT & F).
      { cbn; tauto. }
      { apply (proj1 A3). }
      { cbn [length] in WL. rewrite app_length in WL. cbn [length] in WL. lia. }
      destruct (left_over _ _ sf su st r w x _ st1 A1 F eq_refl) as (XR & XC).
      assert (SC : scope st (map qualified g) sf = map qualified g) by (unfold scope; now rewrite FN). 
      assert (RR : rel Outside (map qualified g ++ [qualified v]) sf (mkX (p_src st1) (p_loaded st1) (dress (map qualified g ++ [qualified v]) sf su (set_toks r st))) (set_toks r st)).
      { exists su, w, (g ++ [v]), None, us. split; auto.
        - now rewrite map_app.
        - intros z Z. apply in_app_or in Z as [Z|[<-|[]]]; auto.
        - unfold stood. auto. }
      eexists _, (scope st (map qualified g) sf). split; [|split; [congruence|]].
      * unfold TextModel.expression. rewrite CU, GL. unfold parse_text. cbn [TokenModel.text] in PT |- *. rewrite PT. cbn [pbind]. rewrite XC. reflexivity.
      * intros b1 st2 E2. destruct (rel_append _ _ _ _ (set_toks r st) (scope st (map qualified g) sf) _ _ ltac:(unfold scope; cbn [set_toks p_fn]; rewrite FN; apply incl_appl, incl_refl) RR E2) as (x2 & X2 & R2). exists x2, (map qualified g ++ [qualified v]), sf. auto using incl_refl, incl_appl.
    + (* var x = n( ... ) in a function *)
      cbn in IE. destruct IE as [IE|[IE|[IE|[]]]]; try discriminate IE. injection IE as <-.
      match goal with D : identifier n, Y : name_hash n <> _, A : Forall2 _ _ _, C : ProgSpec.compile_call_to _ _ _ = _, S : TextSpec.spells _ _ (Some (ls ++ [_], _)) _ _ _ _ |- _ => rename D into D0, Y into Y0, A into AA, C into C0, S into S0 end.
      match goal with I1 : identifier ?y, I2 : In ?y names, I3 : ~ In ?y ls |- _ => rename y into v, I1 into ID, I2 into IV, I3 into NV end.
      unfold stood in A7. destruct K as [|d0|]; [destruct A7 as (X & _); discriminate X| |congruence]. destruct A7 as (FN & TO & ls' & X & IL' & SF). injection X as <- <-.
      assert (SC : scope st (map qualified g) sf = sf) by (unfold scope; destruct (p_fn st); [reflexivity|congruence]).
      assert (QN : index_of (name_hash v) sf = None).
      { rewrite SF. apply (index_none name_hash); [|exact NV]. intros y Y EQ. exact (proj1 (proj1 AD y v (IL' y Y) IV) EQ). }
      assert (DC : declared consts0 consts need_var (at_top (x_ctx x)) sf (map qualified g) SL (lenZ ls) (sf ++ [name_hash v]) (map qualified g) v).
      { replace (lenZ ls) with (lenZ sf) by (rewrite SF; unfold lenZ; now rewrite map_length). apply (declared_local _ _ _ _ _ _ (Some ls) TP v ls); [reflexivity|exact QN|]. now apply no_global. }
      rewrite SC in *.
      destruct (parses_var_call lbits atof consts0 consts need_var (at_top (x_ctx x)) pf LB LO sf (map qualified g) (Some ls) g NC TP HL eq_refl
                  n args tss b v SL (lenZ ls) _ _ D0 Y0 AA C0 ID DC (S (S (length (x_src x)))) (ParseModel.mkP (x_src x) (x_loaded x) (map qualified g)) w false ";") as (st1 & PT & F).
      { cbn; tauto. }
      { apply (proj1 A3). }
      { cbn [length] in WL. rewrite app_length in WL. cbn [length] in WL. lia. }
      destruct (left_over _ _ sf su st r w x _ st1 A1 F eq_refl) as (XR & XC).
      eexists _, (sf ++ [name_hash v]). split; [|split; [congruence|]].
      * unfold TextModel.expression. rewrite CU, GL. unfold parse_text. rewrite PT. cbn [pbind]. rewrite XC. reflexivity.
      * intros b1 st2 E2. unfold emit in E2. apply bind_some in E2 as (c2 & E2 & EQ). injection EQ as <-.
        set (st' := set_toks r st) in *. assert (FN' : p_fn st' <> None) by exact FN.
        destruct (set_cur_same c2 st') as (TK & UN & FI).
        exists (mkX (p_src st1) (p_loaded st1) (dress (map qualified g) (sf ++ [name_hash v]) su (set_cur c2 st'))), (map qualified g), (sf ++ [name_hash v]).
        split; [|split; [|split; [apply incl_refl|apply incl_appl, incl_refl]]].
        { unfold act, emit. cbn [x_ctx]. rewrite cur_dress. unfold scope. destruct (p_fn st') as [bf|] eqn:PF; [|congruence].
          rewrite append_merge, (merge_new _ _ QN), E2. cbn [cmap cbind lift pbind]. unfold with_ctx, set_cur, dress. cbn [x_src x_loaded p_fn option_map p_toks p_glob p_units p_brk p_cont p_fe]. rewrite PF. reflexivity. }
        { exists su, w, g, (Some (ls ++ [v], d)), us. split; auto.
          - now rewrite UN.
          - now rewrite TK.
          - unfold stood. split; [tauto|]. split; [exact TO|]. exists (ls ++ [v]). split; [reflexivity|]. split; [|rewrite map_app, SF; reflexivity].
            intros z Z. apply in_app_or in Z as [Z|[<-|[]]]; auto. }
  - (* nothing *)
    pose proof A6 as SS. rewrite P in SS. destruct (spells_head _ _ _ _ _ _ SS) as (t0 & w' & -> & _ & N).
    { intros r0 a v q ->. inversion SS; subst; unlisted IW. }
    destruct (N s IW) as (-> & S').
    destruct (next_ready lbits atof consts0 consts LB LO sg _ _ _ (proj1 A3 sg)) as (st1 & NX & F).
    apply (PL r w' (ParseModel.mkP (p_src st1) (p_loaded st1) sg) eq_refl S').
    + destruct F as [[PG F] PN]. split; [|exact PN]. split; [reflexivity|exact F].
    + unfold parse_text. cbn [ParseModel.parse_loop]. rewrite NX. cbn [pbind]. destruct F as [[PG F] PN].
      assert (EN : ends (TokenModel.text s) = true) by (cbn in IC; repeat (destruct IC as [<-|IC]; [reflexivity|]); destruct IC).
      cbn [sign t_val t_text]. rewrite EN. unfold finish. cbn [resolve_expression lift pbind]. rewrite PG. reflexivity.
Qed.
End Text.
