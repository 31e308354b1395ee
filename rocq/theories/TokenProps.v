(* C53-C55: what the source text of literals and tokens means. *)
From Coq Require Import String.
From Verif Require Import Base BaseLemmas HashModel OpsModel VmModel EmitModel ExprModel ExprEmit TokenModel TokenSpec TokenProofs LiteralModel TableProofs LinkProofs LayProofs.
Open Scope list_scope. Open Scope Z_scope.

(* ---------------------------------------------------------------- the code of a literal *)
(* the instruction that pushes the value of the token *)
Definition pushes_literal (t : tok) (i : instr) : Prop :=
  match t_val t with
  | IntVal n => exists c, i = ILit (VInt n) c
  | FloatVal f => exists c, i = ILit (VFlt f) c
  | TextVal => i = ILitStr (t_text t)
  | NoVal => False
  end.
Definition fits (t : tok) : Prop :=
  match t_val t with
  | IntVal n => 0 <= n < 4294967296
  | FloatVal f => 0 <= f < 4294967296
  | TextVal => lenZ (t_text t) < 65536
  | NoVal => False
  end.

Lemma push_lit o b : In o [O_LiteralZero; O_LiteralInt8; O_LiteralInt16; O_LiteralInt32; O_LiteralFloat; O_LiteralString] ->
  push_opcode o b = COk (set_code b (b_all b ++ [byte_of o]) (o :: b_ops b)).
Proof.
  intros I. unfold push_opcode, fuse. destruct (b_ops b) as [|o0 r]; [reflexivity|].
  cbn in I. destruct I as [<-|[<-|[<-|[<-|[<-|[<-|[]]]]]]]; reflexivity.
Qed.
Lemma decode_at a o d c : decode (a ++ (byte_of o :: d) ++ c) (lenZ a) = decode_op o (a ++ (byte_of o :: d) ++ c) (lenZ a + 1).
Proof.
  unfold decode, rd8. assert (H : nthZ (a ++ (byte_of o :: d) ++ c) (lenZ a) = Some (byte_of o)).
  { pose proof (has_here a (byte_of o :: d) c 0) as H. rewrite Z.add_0_r in H. apply H. pose proof (lenZ_nonneg d). rewrite lenZ_cons. lia. }
  rewrite H. destruct o; reflexivity.
Qed.
Lemma has_operands a o d c : has (a ++ (byte_of o :: d) ++ c) (lenZ a + 1) d.
Proof. pose proof (has_here a (byte_of o :: d) c) as H. change (byte_of o :: d) with ([byte_of o] ++ d) in H at 2. apply has_app in H. apply H. Qed.
Lemma rd_bytes_has C l : forall p, has C p l -> rd_bytes C p (length l) = Some l.
Proof.
  induction l as [|x l IH]; intros p H; [reflexivity|]. cbn [length rd_bytes]. change (x :: l) with ([x] ++ l) in H. apply has_app in H as [H1 H2].
  change (lenZ [x]) with 1 in H2. rewrite (IH _ H2). unfold rd8. pose proof (H1 0 ltac:(vm_compute; intuition congruence)) as E. rewrite Z.add_0_r in E. rewrite E. reflexivity.
Qed.
Lemma literal_code t b : fits t -> exists w, (forall b', push_token t b = COk b' -> b_all b' = b_all b ++ w) /\ (exists b', push_token t b = COk b') /\
  forall pre post, exists i, decode (pre ++ w ++ post) (lenZ pre) = Some (i, lenZ pre + lenZ w) /\ pushes_literal t i.
Proof.
  intros F. unfold push_token, pushes_literal, fits in *. destruct (t_val t) as [|n|f|]; [destruct F| | |].
  - unfold push_literal. assert (R : -2147483648 <= s32 n <= 2147483647 /\ u32 (s32 n) = n).
    { unfold s32, u32. rewrite (Z.mod_small n) by lia. destruct (Z.ltb_spec n 2147483648); lia. }
    destruct R as [R U]. destruct (s32 n =? 0) eqn:Z0; [|destruct ((s32 n <=? 127) && (-128 <=? s32 n)) eqn:Z1; [|destruct ((s32 n <=? 32767) && (-32768 <=? s32 n)) eqn:Z2]];
    rewrite push_lit by (cbn; tauto); cbn [cbind].
    + exists [byte_of O_LiteralZero]. split; [intros b' [= <-]; reflexivity|]. split; [eauto|]. intros pre post. rewrite decode_at.
      exists (ILit (VInt 0) true). split; [reflexivity|]. exists true. f_equal. f_equal. rewrite <- U. apply Z.eqb_eq in Z0. now rewrite Z0.
    + exists (byte_of O_LiteralInt8 :: [u8 (s32 n)]). split; [intros b' [= <-]; cbn [push_data set_code b_all]; now rewrite <- app_assoc|]. split; [eauto|].
      intros pre post. rewrite decode_at. pose proof (has_operands pre O_LiteralInt8 [u8 (s32 n)] post 0 ltac:(vm_compute; intuition congruence)) as H. rewrite Z.add_0_r in H.
      exists (ILit (VInt n) true). split; [|eauto]. cbn [decode_op]. unfold lInt8, rd8. rewrite H. change (nthZ [u8 (s32 n)] 0) with (Some (u8 (s32 n))). cbv iota beta.
      replace (u32 (VmModel.s8 (u8 (s32 n)))) with n; [do 2 f_equal; change (lenZ (byte_of O_LiteralInt8 :: [u8 (s32 n)])) with 2; lia|].
      rewrite <- U at 1. f_equal. unfold VmModel.s8, u8. destruct (Z.ltb_spec (s32 n mod 256) 128); lia.
    + exists (byte_of O_LiteralInt16 :: wr_pack16 (s32 n)). split; [intros b' [= <-]; cbn [push_data set_code b_all]; now rewrite <- app_assoc|]. split; [eauto|].
      intros pre post. rewrite decode_at. pose proof (has_operands pre O_LiteralInt16 (wr_pack16 (s32 n)) post) as H.
      exists (ILit (VInt n) true). split; [|eauto]. cbn [decode_op]. unfold lInt16. rewrite (rd16_pack _ _ (s32 n)) by (auto; lia). rewrite U. rewrite lenZ_cons, len_pack16. do 2 f_equal. lia.
    + exists (byte_of O_LiteralInt32 :: wr_pack32 (s32 n)). split; [intros b' [= <-]; cbn [push_data set_code b_all]; now rewrite <- app_assoc|]. split; [eauto|].
      intros pre post. rewrite decode_at. pose proof (has_operands pre O_LiteralInt32 (wr_pack32 (s32 n)) post) as H.
      assert (E : wr_pack32 (s32 n) = wr_pack32 n).
      { rewrite !pack32_eq. unfold s32, u32. rewrite (Z.mod_small n) by lia. destruct (Z.ltb_spec n 2147483648); [reflexivity|]. f_equal; [lia|f_equal; [lia|f_equal; [lia|f_equal; lia]]]. }
      rewrite E in *. exists (ILit (VInt n) false). split; [|eauto]. cbn [decode_op]. unfold lInt32. rewrite (rd32_pack _ _ n) by auto. rewrite lenZ_cons, len_pack32. do 2 f_equal. lia.
  - rewrite push_lit by (cbn; tauto). cbn [cbind]. exists (byte_of O_LiteralFloat :: wr_pack32 f). split; [intros b' [= <-]; cbn [push_data set_code b_all]; now rewrite <- app_assoc|]. split; [eauto|].
    intros pre post. rewrite decode_at. pose proof (has_operands pre O_LiteralFloat (wr_pack32 f) post) as H.
    exists (ILit (VFlt f) false). split; [|eauto]. cbn [decode_op]. unfold lFloat. rewrite (rd32_pack _ _ f) by auto. rewrite lenZ_cons, len_pack32. do 2 f_equal. lia.
  - rewrite push_lit by (cbn; tauto). cbn [cbind]. set (l := t_text t) in *. exists (byte_of O_LiteralString :: wr_pack16 (Base.s16 (lenZ l)) ++ l). split; [intros b' [= <-]; cbn [push_data set_code b_all]; now rewrite <- app_assoc|]. split; [eauto|].
    intros pre post. rewrite decode_at. pose proof (has_operands pre O_LiteralString (wr_pack16 (Base.s16 (lenZ l)) ++ l) post) as H. apply has_app in H as [H1 H2]. rewrite len_pack16 in H2.
    exists (ILitStr l). split; [|reflexivity]. cbn [decode_op]. unfold lString. rewrite (rdu16_pack _ _ _ H1).
    pose proof (lenZ_nonneg l). replace (Base.s16 (lenZ l) mod 65536) with (lenZ l).
    + replace (Z.to_nat (lenZ l)) with (length l) by (unfold lenZ; lia). rewrite (rd_bytes_has _ l _ H2). rewrite lenZ_cons, lenZ_app, len_pack16. do 2 f_equal. lia.
    + unfold Base.s16, u16. destruct (Z.ltb_spec (lenZ l mod 65536) 32768); lia.
Qed.

(* [code] is a run of bytes that pushes the literal wherever it stands *)
Definition is_literal_code (t : tok) (w : list Z) : Prop :=
  forall pre post, exists i, decode (pre ++ w ++ post) (lenZ pre) = Some (i, lenZ pre + lenZ w) /\ pushes_literal t i.
Lemma literal_pushes t b : fits t -> exists b' w, push_token t b = COk b' /\ b_all b' = b_all b ++ w /\ is_literal_code t w.
Proof. intros F. destruct (literal_code t b F) as (w&A&[b' B]&D). exists b', w. auto. Qed.

(* constants have names: cc.cpp and token.cpp accept nothing else as a label *)
Definition named (consts : list (list Z * tval)) : Prop := forall n v, In (n, v) consts -> name n.

(* ---------------------------------------------------------------- C53: numbers *)
(* A decimal, hexadecimal, octal or binary integer below 2^32 is read as its value and the code pushes
   that value.  Missing: larger numbers and a number that ends the source, see the refutations. *)
Theorem c53_integer_partial : forall lbits atof consts0 consts k w n rest b,
  32 <= lbits -> named (consts0 ++ consts) -> integer lbits w n -> n < 2 ^ 32 -> begins (fun c => clear c /\ c <> 46) rest ->
  exists t b' code, next_token lbits atof consts0 consts (S k) (w ++ rest) = Ok (TTok t rest) /\
    push_token t b = COk b' /\ b_all b' = b_all b ++ code /\
    forall pre post, exists c, decode (pre ++ code ++ post) (lenZ pre) = Some (ILit (VInt n) c, lenZ pre + lenZ code).
Proof.
  intros lbits atof consts0 consts k w n rest b LB LO I N B.
  assert (B' : forall P : Z -> Prop, (forall c, P c -> hexa c) -> begins (fun c => ascii c /\ ~ P c) rest).
  { intros P H. destruct B as (c&r&->&[A K]&_). exists c, r. split; [reflexivity|]. split; [exact A|]. intros Q. apply K. apply H in Q. unfold hexa, word, letter, digit in *. lia. }
  assert (H : exists t, t_val t = IntVal n /\ spelled lbits atof (consts0 ++ consts) rest w t /\ 0 <= n).
  { destruct I as [c ds D F Z0|ds F|d ds F V|ds F V].
    - eexists. split; [|split; [apply s_decimal; auto|]]; [reflexivity|]. apply value_nonneg; [lia|]. apply (Forall_hexa digit); auto.
    - eexists. split; [|split; [apply s_hexa; auto; apply B'; auto|]]; [reflexivity|]. apply value_nonneg; [lia|auto].
    - eexists. split; [|split; [apply s_octal; auto; apply B'; unfold octal, hexa, digit; lia|]]; [reflexivity|].
      apply value_nonneg; [lia|]. apply (Forall_hexa octal); auto. intros x. unfold octal, digit. lia.
    - eexists. split; [|split; [apply s_binary; auto; apply B'; unfold binary, hexa, digit; lia|]]; [reflexivity|].
      apply value_nonneg; [lia|]. apply (Forall_hexa binary); auto. intros x. unfold binary, digit. lia. }
  destruct H as (t&TV&SP&N0). change (2 ^ 32) with 4294967296 in N.
  destruct (literal_pushes t b) as (b'&code&P&A&L); [unfold fits; rewrite TV; lia|].
  exists t, b', code. split; [now apply read_one|]. split; [exact P|]. split; [exact A|].
  intros pre post. destruct (L pre post) as (i&E&Q). unfold pushes_literal in Q. rewrite TV in Q. destruct Q as [c ->]. exists c. exact E.
Qed.

(* and every number can be written *)
Lemma value_snoc b ds d : 0 < b -> value b (ds ++ [d]) = value b ds * b + digit_value d.
Proof.
  intros B. induction ds as [|x ds IH]; cbn [app value]; [change (lenZ (@nil Z)) with 0; rewrite Z.pow_0_r; lia|].
  rewrite IH, lenZ_app. change (lenZ [d]) with 1. rewrite Z.pow_add_r, Z.pow_1_r by (unfold lenZ; lia). ring.
Qed.
Theorem c53_every_integer : forall lbits n, 0 <= n -> exists w, integer lbits w n /\ Forall digit w.
Proof.
  intros lbits n N. assert (H : forall n, 0 <= n -> 0 < n -> exists c ds, digit c /\ c <> 48 /\ Forall digit ds /\ value 10 (c :: ds) = n).
  { clear n N. intros n N. pattern n. apply Z_lt_induction; [|exact N]. clear n N. intros n IH P.
    destruct (Z.lt_ge_cases n 10).
    - exists (48 + n), []. cbn [value]. change (lenZ (@nil Z)) with 0. unfold digit, digit_value. split; [lia|split; [lia|split; [constructor|]]]. rewrite Z.pow_0_r. destruct (Z.leb_spec (48 + n) 57); lia.
    - destruct (IH (n / 10) ltac:(lia) ltac:(lia)) as (c&ds&D&Z0&F&V). exists c, (ds ++ [48 + n mod 10]). split; [exact D|split; [exact Z0|split]].
      + apply Forall_app. split; [exact F|]. constructor; [unfold digit; lia|constructor].
      + change (c :: ds ++ [48 + n mod 10]) with ((c :: ds) ++ [48 + n mod 10]). rewrite value_snoc, V by lia. unfold digit_value. destruct (Z.leb_spec (48 + n mod 10) 57); lia. }
  destruct (Z.eq_dec n 0) as [->|Z0].
  - exists [48]. split; [apply (in_decimal lbits 48 []); auto; unfold digit; lia|]. constructor; [unfold digit; lia|constructor].
  - destruct (H n N ltac:(lia)) as (c&ds&D&C&F&<-). exists (c :: ds). split; [constructor; auto; congruence|now constructor].
Qed.

(* Fractions: what the C library makes of their text, as a float.  [frac] is their text without the f. *)
Theorem c53_fraction_partial : forall lbits atof consts0 consts k w frac rest b,
  32 <= lbits -> named (consts0 ++ consts) -> (forall s, 0 <= atof s < 4294967296) ->
  (exists x y, Forall digit x /\ Forall digit y /\ (x <> [] \/ y <> []) /\ (forall r, x = 48 :: r -> r = []) /\ frac = x ++ 46 :: y) ->
  (w = frac /\ begins (fun c => clear c /\ c <> 46) rest) \/ ((w = frac ++ text "f" \/ w = frac ++ text "F") /\ empty_or ascii rest) ->
  exists t b' code, next_token lbits atof consts0 consts (S k) (w ++ rest) = Ok (TTok t rest) /\
    push_token t b = COk b' /\ b_all b' = b_all b ++ code /\
    forall pre post, exists c, decode (pre ++ code ++ post) (lenZ pre) = Some (ILit (VFlt (atof frac)) c, lenZ pre + lenZ code).
Proof.
  intros lbits atof consts0 consts k w frac rest b LB LO AF (x&y&X&Y&NE&Z0&->) W.
  assert (H : exists t, t_val t = FloatVal (atof (x ++ 46 :: y)) /\ spelled lbits atof (consts0 ++ consts) rest w t).
  { destruct W as [[-> B]|[[-> | ->] B]].
    - eexists. split; [|apply s_float; auto]. reflexivity.
    - rewrite <- app_assoc. cbn [app]. eexists. split; [|apply (s_float_f lbits atof (consts0 ++ consts) rest x y 102); auto]. reflexivity.
    - rewrite <- app_assoc. cbn [app]. eexists. split; [|apply (s_float_f lbits atof (consts0 ++ consts) rest x y 70); auto]. reflexivity. }
  destruct H as (t&TV&SP).
  destruct (literal_pushes t b) as (b'&code&P&A&L); [unfold fits; rewrite TV; auto|].
  exists t, b', code. split; [now apply read_one|]. split; [exact P|]. split; [exact A|].
  intros pre post. destruct (L pre post) as (i&E&Q). unfold pushes_literal in Q. rewrite TV in Q. destruct Q as [c ->]. exists c. exact E.
Qed.

(* ---------------------------------------------------------------- C54: strings *)
(* What stands between double quotes is read as the bytes it denotes, and the code makes a string of
   those bytes.  Missing: 65536 bytes and more. *)
Theorem c54_string_partial : forall lbits atof consts0 consts k w bytes rest b,
  32 <= lbits -> named (consts0 ++ consts) -> chars 34 w bytes -> empty_or ascii rest -> lenZ bytes < 65536 ->
  exists t b' code, next_token lbits atof consts0 consts (S k) (34 :: w ++ 34 :: rest) = Ok (TTok t rest) /\
    push_token t b = COk b' /\ b_all b' = b_all b ++ code /\
    forall pre post, decode (pre ++ code ++ post) (lenZ pre) = Some (ILitStr bytes, lenZ pre + lenZ code).
Proof.
  intros lbits atof consts0 consts k w bytes rest b LB LO C E N.
  destruct (literal_pushes (mkTok bytes TextVal true) b) as (b'&code&P&A&L); [exact N|].
  eexists _, b', code. split; [|split; [exact P|split; [exact A|]]].
  - pose proof (read_one lbits atof consts0 consts LB LO rest (34 :: w ++ [34]) _ (s_string _ _ _ rest w bytes C E) k) as R.
    cbn [app] in R. rewrite <- app_assoc in R. exact R.
  - intros pre post. destruct (L pre post) as (i&D&Q). cbn in Q. subst i. exact D.
Qed.
(* and every string of bytes can be written *)
Theorem c54_every_string : forall bytes, Forall (fun x => 0 <= x < 256) bytes -> exists w, chars 34 w bytes /\ quote bytes = 34 :: w ++ [34].
Proof.
  intros bytes F. exists (flat_map quote_byte bytes). split; [|reflexivity]. induction F as [|x l X F IH]; cbn [flat_map]; [constructor|].
  assert (D : forall c, 0 <= c < 10 -> digit_value (48 + c) = c) by (intros c C; unfold digit_value; destruct (Z.leb_spec (48 + c) 57); lia).
  assert (V : value 10 [48 + x / 100; 48 + x / 10 mod 10; 48 + x mod 10] = x).
  { cbn [value]. change (lenZ [48 + x / 10 mod 10; 48 + x mod 10]) with 2. change (lenZ [48 + x mod 10]) with 1. change (lenZ (@nil Z)) with 0.
    rewrite !D by lia. change (10 ^ 2) with 100. change (10 ^ 1) with 10. change (10 ^ 0) with 1. lia. }
  pose proof (ch_number 34 [48 + x / 100; 48 + x / 10 mod 10; 48 + x mod 10] (flat_map quote_byte l) l) as H. rewrite V in H. apply H; auto; [|lia|].
  - repeat constructor; unfold digit; lia.
  - intros c r E. destruct l as [|y l]; cbn in E; [discriminate|]. injection E as <- _. unfold digit. lia.
Qed.
(* a single character is its code *)
Theorem c54_character_partial : forall lbits atof consts0 consts k w c rest,
  32 <= lbits -> named (consts0 ++ consts) -> chars 39 w [c] -> 0 <= c < 128 -> empty_or ascii rest ->
  next_token lbits atof consts0 consts (S k) (39 :: w ++ 39 :: rest) = Ok (TTok (mkTok [] (IntVal c) true) rest).
Proof. intros lbits atof consts0 consts k w c rest LB LO C R E. apply read_character; auto; unfold ascii; lia. Qed.

(* ---------------------------------------------------------------- C55: tokens *)
(* A text that is written as these tokens, with white space and comments between them, is read as
   these tokens. *)
Theorem c55_tokens_partial : forall lbits atof consts0 consts toks src n,
  32 <= lbits -> named (consts0 ++ consts) -> written lbits atof (consts0 ++ consts) toks src -> (length src < n)%nat ->
  lex lbits atof consts0 consts n src = Ok (toks, FEof).
Proof. intros. now apply read_all. Qed.
(* there is one way to read a text *)
Theorem c55_unique_partial : forall lbits atof consts a b src,
  32 <= lbits -> named consts -> written lbits atof consts a src -> written lbits atof consts b src -> a = b.
Proof.
  intros lbits atof consts a b src LB LO A B.
  pose proof (c55_tokens_partial lbits atof [] consts a src (S (length src)) LB LO A ltac:(lia)) as RA.
  pose proof (c55_tokens_partial lbits atof [] consts b src (S (length src)) LB LO B ltac:(lia)) as RB. congruence.
Qed.
(* white space and comments in front of a token make no difference *)
Theorem c55_separators_partial : forall lbits atof consts0 consts s1 s2 toks src,
  32 <= lbits -> named (consts0 ++ consts) -> sep s1 -> sep s2 -> written lbits atof (consts0 ++ consts) toks src ->
  lex lbits atof consts0 consts (S (length (s1 ++ src))) (s1 ++ src) = lex lbits atof consts0 consts (S (length (s2 ++ src))) (s2 ++ src).
Proof.
  intros lbits atof consts0 consts s1 s2 toks src LB LO S1 S2 W.
  assert (SS : forall s s', sep s -> sep s' -> sep (s ++ s')).
  { intros s s' H H'. induction H as [|c s WH S IH|u s N S IH|u s N M S IH]; [exact H'| | |].
    - cbn [app]. constructor; auto.
    - rewrite <- !app_assoc. now constructor.
    - rewrite <- !app_assoc. now constructor. }
  assert (H : forall s, sep s -> written lbits atof (consts0 ++ consts) toks (s ++ src)).
  { intros s S. destruct W as [x [y Y|y t Y N]|x w t rest l X P W].
    - apply wr_end, sl_sep. auto.
    - rewrite app_assoc. apply wr_end, sl_line; auto.
    - rewrite app_assoc. apply wr_token; auto. }
  rewrite (c55_tokens_partial lbits atof consts0 consts toks (s1 ++ src)) by auto. rewrite (c55_tokens_partial lbits atof consts0 consts toks (s2 ++ src)) by auto. reflexivity.
Qed.

(* ---------------------------------------------------------------- examples *)
Open Scope string_scope. Open Scope list_scope. Open Scope Z_scope.
Definition lx (lbits : Z) (s : list Z) : res (list tok * tfail) := lex lbits (fun _ => 1069547520) [] [] 200 s.
Definition sym (s : string) : tok := mkTok (text s) NoVal false.
Definition num (s : string) (n : Z) : tok := mkTok (text s) (IntVal n) false.

(* count = 0x1F+'a'; /* two */ print( "a\n\0255" ); // end *)
Definition example_tokens : list tok :=
  [sym "count"; sym "="; num "1F" 31; sym "+"; mkTok [] (IntVal 97) true; sym ";";
   sym "print"; sym "("; mkTok [97; 10; 255] TextVal true; sym ")"; sym ";"].
Definition example_text : list Z := text "count = 0x1F+'a'; /* two */ print( ""a\n\0255"" ); // end".
Ltac nin := let H := fresh in intros H; cbn in H; repeat (destruct H as [H|H]; [discriminate H|]); destruct H.
Ltac eo := let c := fresh in let r := fresh in let E := fresh in intros c r E; vm_compute in E; try discriminate E; injection E as <- _.
Ltac blank := apply sep_white; [cbn; tauto|]; apply sep_nil.
Ltac starts := lazymatch goal with |- begins _ ?l => let l' := eval vm_compute in l in change l with l' end; eexists _, _; split; [reflexivity|].
Lemma print_name s : Forall letter s -> s <> [] -> name s.
Proof.
  intros F N. destruct s as [|c s]; [congruence|]. exists c, s. split; [reflexivity|]. split; [left; now inversion F|].
  assert (G : Forall letter s) by now inversion F. clear F N. induction G; constructor; auto. left. auto.
Qed.
Example c55_example_written : written 64 (fun _ => 1069547520) [] example_tokens example_text.
Proof.
  unfold example_tokens, example_text.
  assert (NC : forall n v, ~ constant [] n v) by (intros n v (a&b&E&_); destruct a; discriminate E).
  assert (UQ : forall n, unqualified [] n) by (intros n l v r []).
  apply (wr_token _ _ _ [] (text "count")); [constructor| |].
  { apply s_name; auto; [apply print_name; [|discriminate]; cbn; repeat constructor; unfold letter; lia|nin| |].
    - eo. split; unfold ascii, word, letter, digit; lia.
    - intros r. discriminate. }
  apply (wr_token _ _ _ (text " ") (text "=")); [blank| |].
  { apply s_operator; [cbn; tauto|]. eo. split; [unfold ascii; lia|nin]. }
  apply (wr_token _ _ _ (text " ") (text "0x1F")); [blank| |].
  { apply (s_hexa _ _ _ _ (text "1F")); [cbn; repeat constructor; unfold hexa, digit; lia|reflexivity|]. starts. split; unfold ascii, hexa, word, letter, digit; lia. }
  apply (wr_token _ _ _ [] (text "+")); [constructor| |].
  { apply s_operator; [cbn; tauto|]. eo. split; [unfold ascii; lia|nin]. }
  apply (wr_token _ _ _ [] (text "'a'")); [constructor| |].
  { apply (s_character _ _ _ _ [97] 97); [apply ch_plain; try discriminate; constructor|unfold ascii; lia|lia|]. eo. unfold ascii. lia. }
  apply (wr_token _ _ _ [] (text ";")); [constructor| |].
  { apply s_punctuation; [cbn; tauto|]. eo. unfold ascii. lia. }
  apply (wr_token _ _ _ (text " /* two */ ") (text "print")).
  { apply sep_white; [cbn; tauto|]. apply (sep_block (text " two ")).
    - intros (a&b&E). cbn in E. do 5 (destruct a as [|? a]; cbn in E; [discriminate E|injection E as _ E]). destruct a; discriminate E.
    - intros r. discriminate.
    - blank. }
  { apply s_name; auto; [apply print_name; [|discriminate]; cbn; repeat constructor; unfold letter; lia|nin| |].
    - eo. split; unfold ascii, word, letter, digit; lia.
    - intros r. discriminate. }
  apply (wr_token _ _ _ [] (text "(")); [constructor| |].
  { apply s_punctuation; [cbn; tauto|]. eo. unfold ascii. lia. }
  apply (wr_token _ _ _ (text " ") (text """a\n\0255""")); [blank| |].
  { apply (s_string _ _ _ _ (text "a\n\0255")); [|eo; unfold ascii; lia].
    apply ch_plain; try discriminate. apply ch_escape; [cbn; tauto|]. apply (ch_number 34 (text "255") [] []); [cbn; repeat constructor; unfold digit; lia|reflexivity|discriminate|constructor]. }
  apply (wr_token _ _ _ (text " ") (text ")")); [blank| |].
  { apply s_punctuation; [cbn; tauto|]. eo. unfold ascii. lia. }
  apply (wr_token _ _ _ [] (text ";")); [constructor| |].
  { apply s_punctuation; [cbn; tauto|]. eo. unfold ascii. lia. }
  apply wr_end. apply (sl_line (text " ") (text " end")); [blank|]. nin.
Qed.
Example c55_example : lx 64 example_text = Ok (example_tokens, FEof).
Proof. vm_compute. reflexivity. Qed.
(* a constant of an enum, a member, names with ::, and two operators next to each other *)
Example c55_more : lex 64 (fun _ => 0) [] [(text "Color::red", IntVal 7)] 100 (text "::x=Color::red---a._count ;") =
  Ok ([sym "::x"; sym "="; mkTok [] (IntVal 7) false; sym "--"; sym "-"; sym "a"; sym "._count"; sym ";"], FEof).
Proof. vm_compute. reflexivity. Qed.
Example c53_example : integer 64 (text "4294967295") 4294967295 /\ integer 64 (text "0xFFffFFff") 4294967295 /\ integer 64 (text "017") 15 /\ integer 64 (text "0b101") 5.
Proof.
  split; [|split; [|split]].
  - apply (in_decimal 64 52 (text "294967295")); [unfold digit; lia|cbn; repeat constructor; unfold digit; lia|discriminate].
  - apply (in_hexa 64 (text "FFffFFff")). cbn. repeat constructor; unfold hexa, digit; lia.
  - apply (in_octal 64 49 [55]); [repeat constructor; unfold octal; lia|reflexivity].
  - apply (in_binary 64 (text "101")); [cbn; repeat constructor; unfold binary; lia|reflexivity].
Qed.
Example c54_example : lx 64 (quote [0; 34; 92; 255; 10] ++ text ";") = Ok ([mkTok [0; 34; 92; 255; 10] TextVal true; sym ";"], FEof).
Proof. vm_compute. reflexivity. Qed.

(* ---------------------------------------------------------------- what is not so *)
(* a decimal integer of 2^32 or more: modulo 2^32 with a 64 bit long, the largest with a 32 bit one *)
Theorem c53_large_refuted :
  lx 64 (text "4294967297;") = Ok ([num "4294967297" 1; sym ";"], FEof) /\
  lx 32 (text "4294967297;") = Ok ([num "4294967297" 4294967295; sym ";"], FEof).
Proof. split; vm_compute; reflexivity. Qed.
(* with a 32 bit long the upper half of the binary and octal numbers is one number *)
Theorem c53_binary_refuted :
  lx 32 (text "0b11111111111111111111111111111111;") = Ok ([num "11111111111111111111111111111111" 2147483647; sym ";"], FEof) /\
  lx 32 (text "0b10000000000000000000000000000000;") = Ok ([num "10000000000000000000000000000000" 2147483647; sym ";"], FEof).
Proof. split; vm_compute; reflexivity. Qed.
(* a number that ends the source is not read *)
Theorem c53_last_refuted : lx 64 (text "x = 12") = Ok ([sym "x"; sym "="], FUnexpectedEof).
Proof. vm_compute. reflexivity. Qed.
(* one number is read as two: 08 as 0 and 8, 01.5 as 1 and .5 *)
Theorem c53_zero_refuted :
  lx 64 (text "08;") = Ok ([num "" 0; num "8" 8; sym ";"], FEof) /\
  exists f, lx 64 (text "01.5;") = Ok ([num "1" 1; mkTok (text ".5") (FloatVal f) false; sym ";"], FEof).
Proof. split; [|exists 1069547520]; vm_compute; reflexivity. Qed.
(* two points end the compilation without an error code *)
Theorem c53_points_refuted : lx 64 (text "1.5.2;") = Ok ([], FPlain).
Proof. vm_compute. reflexivity. Qed.
(* a string whose closing quote is missing is accepted at the end of the source *)
Theorem c54_unterminated_refuted : lx 64 (text """abc") = Ok ([mkTok (text "abc") TextVal true], FEof).
Proof. vm_compute. reflexivity. Qed.
(* a backslash or a colon at the end of the source: the byte behind the source is read *)
Theorem c54_past_end_refuted : lx 64 (text """a\") = UB /\ lx 64 (text "a:") = UB.
Proof. split; vm_compute; reflexivity. Qed.
(* a character above 127 is a negative number; no character at all is zero *)
Theorem c54_character_refuted :
  lx 64 [39; 233; 39; 59] = Ok ([mkTok [] (IntVal (4294967296 - 23)) true; sym ";"], FEof) /\
  lx 64 (text "'';") = Ok ([mkTok [] (IntVal 0) true; sym ";"], FEof).
Proof. split; vm_compute; reflexivity. Qed.
(* the length of a literal of 65536 bytes is stored as 0, its bytes are then executed *)
Theorem c54_long_refuted : exists t b', lenZ (t_text t) = 65536 /\ t_val t = TextVal /\ push_token t empty_bc = COk b' /\
  decode (b_all b') 0 = Some (ILitStr [], 3).
Proof.
  set (l := repeat 97 (Z.to_nat 65536)). assert (L : lenZ l = 65536) by (unfold l, lenZ; rewrite repeat_length; lia).
  exists (mkTok l TextVal true). unfold push_token. cbn [t_val t_text]. rewrite push_lit by (cbn; tauto). cbn [cbind]. eexists. split; [exact L|]. split; [reflexivity|]. split; [reflexivity|].
  rewrite L. reflexivity.
Qed.
(* a comment may end with the * that begins it *)
Theorem c55_comment_refuted : lx 64 (text "/*/ x */") = Ok ([sym "x"; sym "*"; sym "/"], FEof).
Proof. vm_compute. reflexivity. Qed.

Print Assumptions c53_integer_partial.
Print Assumptions c53_every_integer.
Print Assumptions c53_fraction_partial.
Print Assumptions c54_string_partial.
Print Assumptions c54_every_string.
Print Assumptions c54_character_partial.
Print Assumptions c54_long_refuted.
Print Assumptions c55_tokens_partial.
Print Assumptions c55_unique_partial.
Print Assumptions c55_separators_partial.
