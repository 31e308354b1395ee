(* The tokenizer reads what TokenSpec says is written. *)
From Coq Require Import String.
From Verif Require Import Base OpsModel TokenModel TokenSpec.
Open Scope list_scope. Open Scope Z_scope.

Lemma ctype_ok p c : ascii c -> ctype p c = Ok (p c).
Proof. unfold ascii, ctype. intros H. destruct (c <? 128) eqn:E; auto. lia. Qed.
Ltac classes := unfold clear, word, hexa, white, digit, octal, binary, letter, ascii, c_xdigit, c_alnum, c_space, c_digit, c_alpha, between in *.
Lemma white_space c : white c -> ascii c /\ c_space c = true.
Proof. classes. cbn [In]. intros H. lia. Qed.
Lemma clear_alnum c : ~ word c -> c_alnum c = false /\ (c =? 95) = false.
Proof. classes. lia. Qed.
Lemma clear_digit c : ~ word c -> c_digit c = false.
Proof. classes. lia. Qed.
Lemma word_alnum c : word c -> ascii c /\ (c_alnum c || (c =? 95)) = true.
Proof. classes. lia. Qed.

(* numbers *)
Lemma number_fold base f ds : (forall c, In c ds -> f c = digit_value c) -> forall a,
  fold_left (fun a c => a * base + f c) ds a = a * base ^ lenZ ds + value base ds.
Proof.
  induction ds as [|d ds IH]; intros H a; cbn [fold_left value].
  - unfold lenZ. cbn. lia.
  - rewrite IH by (intros; apply H; now right). rewrite (H d) by now left. unfold lenZ. cbn [length]. rewrite Nat2Z.inj_succ, Z.pow_succ_r by lia. ring.
Qed.
Lemma number_value base ds : Forall hexa ds -> number base ds = value base ds.
Proof.
  intros H. unfold number. rewrite (number_fold base (fun c => if c_digit c then c - 48 else if between 65 70 c then c - 55 else c - 87)); [ring|].
  intros c I. rewrite Forall_forall in H. specialize (H c I). unfold digit_value. classes.
  destruct ((48 <=? c) && (c <=? 57)) eqn:E; destruct (c <=? 57) eqn:E2; try lia.
  destruct ((65 <=? c) && (c <=? 70)) eqn:E3; destruct (c <=? 70) eqn:E4; lia.
Qed.
Lemma value_nonneg base ds : 0 <= base -> Forall hexa ds -> 0 <= value base ds.
Proof.
  intros B. induction 1 as [|d ds H _ IH]; cbn [value]; [lia|].
  assert (0 <= digit_value d) by (unfold digit_value; classes; destruct (d <=? 57) eqn:?; [lia|]; destruct (d <=? 70) eqn:?; lia).
  assert (0 <= base ^ lenZ ds) by (apply Z.pow_nonneg; lia). nia.
Qed.
Lemma Forall_hexa (p : Z -> Prop) ds : (forall c, p c -> digit c) -> Forall p ds -> Forall hexa ds.
Proof. intros H F. eapply Forall_impl; [|exact F]. intros c Hc. left. auto. Qed.

Lemma run_of_ok ct p ds rest : Forall (fun c => ascii c /\ p c = true) ds -> begins (fun c => ascii c /\ p c = false) rest ->
  run_of ct p (ds ++ rest) = Ok (Some (ds, rest)).
Proof.
  intros F B. induction F as [|c ds [A P] _ IH]; cbn [app run_of].
  - destruct B as (c&r&->&A&P). cbn [run_of]. destruct ct; [rewrite ctype_ok by auto|]; cbn [bind]; now rewrite P.
  - destruct ct; [rewrite ctype_ok by auto|]; cbn [bind]; rewrite P, IH; reflexivity.
Qed.

(* strings *)
Lemma digits_ok ds rest : Forall digit ds -> (forall c r, rest = c :: r -> ~ digit c) -> digits_of (ds ++ rest) = (ds, rest).
Proof.
  intros F N. induction F as [|d ds D _ IH]; cbn [app digits_of].
  - destruct rest as [|c r]; [reflexivity|]. cbn [digits_of]. specialize (N c r eq_refl). replace (c_digit c) with false by (classes; lia). reflexivity.
  - replace (c_digit d) with true by (classes; lia). now rewrite IH.
Qed.
Definition q_of (single : bool) : Z := if single then 39 else 34.
Lemma chars_byte q w t : chars q w t -> True. Proof. auto. Qed.
Lemma scan_ok (single : bool) w t rest : chars (q_of single) w t -> forall n acc, (length w < n)%nat ->
  (single = true -> (length acc + length t <= 1)%nat) ->
  scan n single acc (w ++ q_of single :: rest) = Ok (SDone (acc ++ t) rest).
Proof.
  induction 1 as [|c w t N1 N2 N3 _ IH|e b w t E _ IH|ds w t D V N _ IH]; intros n acc L SI;
    (destruct n as [|n]; [cbn [length] in L; lia|]); cbn [app].
  - cbn [scan]. rewrite app_nil_r. destruct single; cbn [q_of]; [|reflexivity].
    change ((39 =? 34) && _) with false. change ((39 =? 39) && true) with true. cbv iota.
    specialize (SI eq_refl). destruct (1 <? length acc)%nat eqn:X; [apply Nat.ltb_lt in X; lia|reflexivity].
  - cbn [scan]. replace ((c =? 34) && negb single) with false by (destruct single; cbn in *; lia).
    replace ((c =? 39) && single) with false by (destruct single; cbn in *; lia).
    replace (c =? 10) with false by lia. replace (c =? 92) with false by lia.
    replace (acc ++ c :: t) with ((acc ++ [c]) ++ t) by now rewrite <- app_assoc.
    assert (I : scan n single (acc ++ [c]) (w ++ q_of single :: rest) = Ok (SDone ((acc ++ [c]) ++ t) rest)).
    { apply IH; [cbn in L; lia|]. intros S. specialize (SI S). rewrite app_length. cbn [length] in *. lia. }
    destruct w; exact I.
  - cbn [scan]. change (92 =? 34) with false. change (92 =? 39) with false. change (92 =? 10) with false. change (92 =? 92) with true. cbn [andb].
    replace (acc ++ b :: t) with ((acc ++ [b]) ++ t) by now rewrite <- app_assoc.
    assert (I : match w ++ q_of single :: rest with [] => Ok (SDone (acc ++ [b]) []) | _ => scan n single (acc ++ [b]) (w ++ q_of single :: rest) end
                = Ok (SDone ((acc ++ [b]) ++ t) rest)).
    { assert (I : scan n single (acc ++ [b]) (w ++ q_of single :: rest) = Ok (SDone ((acc ++ [b]) ++ t) rest)).
      { apply IH; [cbn in L; lia|]. intros S. specialize (SI S). rewrite app_length. cbn [length] in *. lia. }
      destruct w; exact I. }
    repeat (destruct E as [E|E]; [injection E as <- <-; exact I|]). destruct E.
  - cbn [scan]. change (92 =? 34) with false. change (92 =? 39) with false. change (92 =? 10) with false. change (92 =? 92) with true. change (48 =? 48) with true. cbn [andb].
    rewrite <- app_assoc. change (48 :: ds ++ w ++ q_of single :: rest) with ((48 :: ds) ++ (w ++ q_of single :: rest)).
    rewrite digits_ok.
    2:{ constructor; auto. classes; lia. }
    2:{ intros c r E. destruct w; cbn [app] in E; [injection E as <- <-; destruct single; classes; cbn; lia|injection E as <- <-; eapply N; reflexivity]. }
    rewrite number_value by (apply (Forall_hexa digit); auto; constructor; auto; classes; lia).
    change (value 10 (48 :: ds)) with (0 * 10 ^ lenZ ds + value 10 ds). replace (0 * 10 ^ lenZ ds + value 10 ds) with (value 10 ds) by ring.
    assert (V0 : 0 <= value 10 ds) by (apply value_nonneg; [lia|]; apply (Forall_hexa digit); auto).
    assert (I : scan n single (acc ++ [value 10 ds]) (w ++ q_of single :: rest) = Ok (SDone ((acc ++ [value 10 ds]) ++ t) rest)).
    { apply IH; [cbn in L; rewrite app_length in L; lia|]. intros S. specialize (SI S). rewrite app_length. cbn [length] in *. lia. }
    replace (2147483647 <? value 10 ds) with false by lia. replace (u8 (value 10 ds)) with (value 10 ds) by (unfold u8; rewrite Z.mod_small; lia).
    replace (acc ++ value 10 ds :: t) with ((acc ++ [value 10 ds]) ++ t) by now rewrite <- app_assoc.
    destruct w; exact I.
Qed.

(* names *)
Lemma name_loop_ok s rest : name_rest s -> empty_or clear rest -> (forall r, rest <> 58 :: 58 :: r) -> forall acc, acc <> [] ->
  name_loop acc (s ++ rest) = Ok (acc ++ s, rest).
Proof.
  intros N E C. induction N as [|c s W N IH|s N IH]; intros acc A; cbn [app].
  - rewrite app_nil_r. destruct rest as [|c r]; [reflexivity|]. destruct (E c r eq_refl) as [AC NW]. destruct (clear_alnum c NW) as [X Y].
    cbn [name_loop]. rewrite ctype_ok by auto. cbn [bind]. rewrite X, Y. cbn [orb]. destruct r as [|c2 r2]; [reflexivity|].
    destruct ((c =? 58) && (c2 =? 58)) eqn:Q; [|reflexivity]. exfalso. apply (C r2). f_equal; [lia|f_equal; lia].
  - destruct (word_alnum c W) as [AC X]. assert (NC : (c =? 58) = false) by (classes; lia).
    replace (acc ++ c :: s) with ((acc ++ [c]) ++ s) by now rewrite <- app_assoc.
    rewrite <- IH by (destruct acc; discriminate).
    cbn [name_loop]. rewrite ctype_ok by auto. cbn [bind]. rewrite X, NC. cbn [andb]. destruct (s ++ rest); reflexivity.
  - cbn [name_loop]. change (58 =? 58) with true. replace (0 <? length acc)%nat with true by (destruct acc; [congruence|reflexivity]). cbn [andb].
    rewrite IH by (destruct acc; discriminate). now rewrite <- app_assoc.
Qed.
Lemma same_text_iff a : forall b, same_text a b = true <-> a = b.
Proof.
  induction a as [|x a IH]; intros [|y b]; cbn [same_text]; try (split; congruence).
  rewrite andb_true_iff, IH. split; [intros [X ->]; f_equal; lia|]. intros H. injection H as -> ->. split; [apply Z.eqb_refl|reflexivity].
Qed.
Lemma same_text_no a b : a <> b -> same_text a b = false.
Proof. intros N. destruct (same_text a b) eqn:E; auto. apply same_text_iff in E. congruence. Qed.

(* the word tests *)
Lemma strip_app w s : strip w (w ++ s) = Some s.
Proof. induction w as [|a w IH]; [reflexivity|]. cbn [strip app]. now rewrite Z.eqb_refl. Qed.
Lemma strip_some w : forall s r, strip w s = Some r -> s = w ++ r.
Proof.
  induction w as [|a w IH]; intros s r H; cbn [strip] in H; [injection H as ->; reflexivity|].
  destruct s as [|c s]; [discriminate|]. destruct (a =? c) eqn:E; [|discriminate]. apply Z.eqb_eq in E. subst c. cbn [app]. f_equal. auto.
Qed.
Lemma word_at_none w s : (forall c r, s = w ++ c :: r -> ascii c /\ word c) -> word_at w s = Ok None.
Proof.
  intros H. unfold word_at. destruct (strip w s) as [[|c r]|] eqn:E; auto. apply strip_some in E. destruct (H c r E) as [A W].
  rewrite ctype_ok by auto. cbn [bind]. destruct (word_alnum c W) as [_ ->]. reflexivity.
Qed.
Lemma word_at_some w c r : clear c -> word_at w (w ++ c :: r) = Ok (Some (c :: r)).
Proof.
  intros [A W]. unfold word_at. rewrite strip_app, ctype_ok by auto. cbn [bind]. destruct (clear_alnum c W) as [-> ->]. reflexivity.
Qed.
Lemma no_macro s : (forall w c r, In w members -> s = w ++ c :: r -> ascii c /\ word c) -> find_macro macros s = Ok None.
Proof.
  intros H. change macros with members. induction members as [|w l IH]; [reflexivity|]. cbn [find_macro].
  rewrite word_at_none by (intros c r E; apply (H w c r); [now left|auto]). cbn [bind]. apply IH. intros w' c r I. apply H. now right.
Qed.
Lemma no_const l s : (forall w v c r, In (w, v) l -> s = w ++ c :: r -> ascii c /\ word c) -> find_const l s = Ok None.
Proof.
  intros H. induction l as [|[w v] l IH]; [reflexivity|]. cbn [find_const].
  rewrite word_at_none by (intros c r E; apply (H w v c r); [now left|auto]). cbn [bind]. apply IH. intros w' v' c r I. apply H with v'. now right.
Qed.

Section Reads.
Variable lbits : Z.
Variable atof : list Z -> Z.
Variable consts0 consts : list (list Z * tval).
Hypothesis LB : 32 <= lbits.
(* constants have names *)
Hypothesis LO : forall n v, In (n, v) (consts0 ++ consts) -> name n.
Notation next_token := (next_token lbits atof consts0 consts).
Notation spelled := (spelled lbits atof (consts0 ++ consts)).
Notation written := (written lbits atof (consts0 ++ consts)).

(* a character that begins no name and no member *)
Definition bare (c : Z) : Prop := ~ letter c /\ c <> 95 /\ c <> 46.
Lemma bare_macro c r : c <> 46 -> find_macro macros (c :: r) = Ok None.
Proof.
  intros N. apply no_macro. intros w c' r' I E. exfalso. cbn in I. repeat (destruct I as [<-|I]; [cbn in E; injection E as E _; congruence|]). destruct I.
Qed.
Lemma bare_const l c r : incl l (consts0 ++ consts) -> ~ letter c -> c <> 95 -> find_const l (c :: r) = Ok None.
Proof.
  intros S N1 N2. apply no_const. intros w v c' r' I E. exfalso. destruct (LO w v (S _ I)) as (a&t&->&A&_). cbn in E. injection E as E _. subst c. tauto.
Qed.

(* the body of next_token behind the white space *)
Definition body (k : nat) (c : Z) (r : list Z) : res tres :=
        if is_op c then let (t, rest) := op_tail c r in after (TTok (mkTok (c :: t) NoVal false) rest)
        else if (c =? 34) || (c =? 39) then
          q <- scan (S (length r)) (c =? 39) [] r ;;
          match q with
          | SDone t rest => after (TTok (quoted (c =? 39) t) rest)
          | SFail e => Ok (TFail e)
          end
        else if c =? 47 then
          let one := after (TTok (mkTok [c] NoVal false) r) in
          match r with
          | [] => one
          | a :: r' =>
            b <- ctype c_space a ;;
            if b : bool then one
            else if a =? 47 then next_token k (to_eol r)
            else if a =? 42 then match comment_end r with Some rest => next_token k rest | None => Ok (TFail FUnexpectedEof) end
            else if a =? 61 then after (TTok (mkTok [c; 61] NoVal false) r')
            else one
          end
        else
          b <- ctype c_digit c ;;
          num <- (if (b : bool) then Ok true else match r with a :: _ => if c =? 46 then ctype c_digit a else Ok false | [] => Ok false end) ;;
          if num : bool then t <- number_token lbits atof c r ;; after t
          else
            colon <- (if c =? 58 then match r with [] => UB | a :: _ => ctype c_space a end else Ok false) ;;
            if colon : bool then after (TTok (mkTok [c] NoVal false) r)
            else
              al <- ctype c_alpha c ;;
              if (al : bool) || (c =? 95) then
                ' (t, rest) <- name_loop [c] r ;; after (name_token t rest)
              else
                match r with
                | a :: r' =>
                  if (c =? 58) && (a =? 58) then ' (t, rest) <- name_loop [58; 58] r' ;; after (name_token t rest)
                  else after (TTok (mkTok [c] NoVal false) r)
                | [] => after (TTok (mkTok [c] NoVal false) r)
                end.
Lemma next_white k c s : white c -> next_token k (c :: s) = next_token k s.
Proof.
  intros W. destruct k as [|k]; [reflexivity|]. cbn [TokenModel.next_token skip_space]. destruct (white_space c W) as [A X].
  rewrite ctype_ok by auto. cbn [bind]. rewrite X. reflexivity.
Qed.
Lemma next_body k c r : ascii c -> c_space c = false -> find_macro macros (c :: r) = Ok None ->
  find_const consts0 (c :: r) = Ok None -> find_const consts (c :: r) = Ok None ->
  next_token (S k) (c :: r) = body k c r.
Proof.
  intros A S M C0 C1. cbn [TokenModel.next_token skip_space]. rewrite ctype_ok by auto. cbn [bind]. rewrite S. cbn [bind].
  rewrite M. cbn [bind]. rewrite C0. cbn [bind]. rewrite C1. reflexivity.
Qed.
Lemma next_bare k c r : ascii c -> c_space c = false -> bare c -> next_token (S k) (c :: r) = body k c r.
Proof.
  intros A S (B1&B2&B3). apply next_body; auto; [now apply bare_macro|apply bare_const; auto; apply incl_appl, incl_refl|apply bare_const; auto; apply incl_appr, incl_refl].
Qed.

(* separators *)
Lemma to_eol_ok t s : ~ In 10 t -> to_eol (t ++ 10 :: s) = 10 :: s.
Proof.
  induction t as [|c t IH]; intros N; cbn [app to_eol]; [reflexivity|]. destruct (c =? 10) eqn:E; [apply Z.eqb_eq in E; subst; destruct N; now left|].
  apply IH. intros I. apply N. now right.
Qed.
Lemma to_eol_end t : ~ In 10 t -> to_eol t = [].
Proof.
  induction t as [|c t IH]; intros N; cbn [to_eol]; [reflexivity|]. destruct (c =? 10) eqn:E; [apply Z.eqb_eq in E; subst; destruct N; now left|].
  apply IH. intros I. apply N. now right.
Qed.
Lemma comment_end_ok t s : ~ occurs [42; 47] t -> comment_end (t ++ 42 :: 47 :: s) = Some s.
Proof.
  induction t as [|c t IH]; intros N; cbn [app].
  - reflexivity.
  - assert (N' : ~ occurs [42; 47] t) by (intros (a&b&->); apply N; exists (c :: a), b; reflexivity).
    specialize (IH N'). cbn [comment_end]. destruct t as [|d t]; cbn [app] in *.
    + destruct ((c =? 42) && (42 =? 47)) eqn:E; [lia|]. exact IH.
    + destruct ((c =? 42) && (d =? 47)) eqn:E; [|exact IH]. exfalso. apply N. exists [], t. cbn. f_equal; [lia|f_equal; lia].
Qed.
Lemma slash k r : next_token (S k) (47 :: r) = body k 47 r.
Proof. apply next_bare; [unfold ascii; lia|reflexivity|]. unfold bare, letter. lia. Qed.
Lemma sep_skip s : sep s -> forall k t, (length (s ++ t) < k)%nat -> exists k', (length t < k')%nat /\ next_token k (s ++ t) = next_token k' t.
Proof.
  induction 1 as [|c s W S IH|u s N S IH|u s N M S IH]; intros k t L.
  - exists k. auto.
  - cbn [app] in *. rewrite next_white by auto. cbn [length] in L. apply IH. lia.
  - destruct k as [|k]; [lia|]. change (text "//"%string) with [47; 47] in *. cbn [app] in *.
    rewrite slash. unfold body. change (is_op 47) with false. cbn [Z.eqb Pos.eqb orb bind].
    change (47 =? 34) with false. change (47 =? 39) with false. change (47 =? 47) with true. cbn [orb]. rewrite ctype_ok by (unfold ascii; lia). change (c_space 47) with false. cbn [bind].
    cbn [to_eol]. change (47 =? 10) with false. cbv iota. rewrite <- !app_assoc. cbn [app]. rewrite to_eol_ok by auto. rewrite next_white by (unfold white; cbn; auto).
    apply IH. cbn [length] in L. rewrite !app_length in L. cbn [length] in L. rewrite !app_length in *. lia.
  - destruct k as [|k]; [lia|]. change (text "/*"%string) with [47; 42] in *. change (text "*/"%string) with [42; 47] in *. cbn [app] in *.
    rewrite slash. unfold body. change (is_op 47) with false. change (47 =? 34) with false. change (47 =? 39) with false. change (47 =? 47) with true. cbn [orb]. rewrite ctype_ok by (unfold ascii; lia). change (c_space 42) with false. cbn [bind].
    change (42 =? 47) with false. change (42 =? 42) with true. cbv iota. rewrite <- !app_assoc. cbn [app].
    assert (N' : ~ occurs [42; 47] (42 :: u)).
    { intros (a&b&E). destruct a as [|x a]; cbn in E; [injection E as E; apply (M b), E|]. injection E as _ E. apply N. exists a, b. exact E. }
    change (42 :: u ++ 42 :: 47 :: s ++ t) with ((42 :: u) ++ 42 :: 47 :: s ++ t). rewrite comment_end_ok by auto.
    apply IH. cbn [length] in L. rewrite !app_length in L. cbn [length] in L. rewrite !app_length in *. lia.
Qed.

Lemma after_ok t rest : empty_or ascii rest -> after (TTok t rest) = Ok (TTok t rest).
Proof. intros H. unfold after. destruct rest as [|c r]; [reflexivity|]. rewrite ctype_ok by (eapply H; eauto). reflexivity. Qed.
Lemma begins_empty (p q : Z -> Prop) rest : begins p rest -> (forall c, p c -> q c) -> empty_or q rest.
Proof. intros (c&r&->&P) I c' r' E. injection E as <- <-. auto. Qed.
Lemma empty_imp (p q : Z -> Prop) rest : empty_or p rest -> (forall c, p c -> q c) -> empty_or q rest.
Proof. intros H I c r E. apply I. eapply H; eauto. Qed.
Lemma is_op_not c : ~ In c [45; 61; 33; 42; 37; 60; 62; 38; 94; 124; 43] -> is_op c = false.
Proof.
  intros N. unfold is_op. destruct (existsb _ _) eqn:E; auto. apply existsb_exists in E. destruct E as (x&I&E). apply Z.eqb_eq in E. subst x. destruct (N I).
Qed.
Ltac noop := apply is_op_not; cbn [In]; classes; lia.

(* numbers *)
Lemma dec_digits ds rest : Forall digit ds -> forall d acc, dec_loop d acc (ds ++ rest) = dec_loop d (acc ++ ds) rest.
Proof.
  induction 1 as [|c ds D _ IH]; intros d acc; cbn [app]; [now rewrite app_nil_r|].
  cbn [dec_loop]. replace (c =? 46) with false by (classes; lia). rewrite ctype_ok by (classes; lia). cbn [bind].
  replace (c_digit c) with true by (classes; lia). rewrite IH, <- app_assoc. reflexivity.
Qed.
Lemma dec_stop d acc rest : begins (fun c => clear c /\ c <> 46) rest -> dec_loop d acc rest = Ok (DEnd d acc rest).
Proof.
  intros (c&r&->&(A&W)&N). cbn [dec_loop]. replace (c =? 46) with false by lia. rewrite ctype_ok by auto. cbn [bind]. rewrite clear_digit by auto.
  replace ((c =? 102) || (c =? 70)) with false by (classes; lia). reflexivity.
Qed.
Lemma dec_f d acc f rest : f = 102 \/ f = 70 -> dec_loop d acc (f :: rest) = Ok (DEnd true acc rest).
Proof. intros [->| ->]; reflexivity. Qed.
Lemma dec_point acc s : dec_loop false acc (46 :: s) = dec_loop true (acc ++ [46]) s.
Proof. reflexivity. Qed.
Lemma ulong v : 0 <= v -> v < 2 ^ 32 -> u32 (Z.min v (2 ^ lbits - 1)) = v.
Proof.
  intros V0 V. assert (2 ^ 32 <= 2 ^ lbits) by (apply Z.pow_le_mono_r; lia). change (2 ^ 32) with 4294967296 in *. unfold u32. rewrite Z.min_l by lia. apply Z.mod_small. lia.
Qed.
Lemma slong v : 0 <= v -> v < 2 ^ 32 -> v < 2 ^ (lbits - 1) -> u32 (Z.min v (2 ^ (lbits - 1) - 1)) = v.
Proof. intros V0 V V1. change (2 ^ 32) with 4294967296 in *. unfold u32. rewrite Z.min_l by lia. apply Z.mod_small. lia. Qed.
Lemma body_num k c r : digit c -> body k c r = (t <- number_token lbits atof c r ;; after t).
Proof.
  intros D. unfold body. replace (is_op c) with false by (symmetry; noop). replace ((c =? 34) || (c =? 39)) with false by (classes; lia).
  replace (c =? 47) with false by (classes; lia). rewrite ctype_ok by (classes; lia). cbn [bind]. replace (c_digit c) with true by (classes; lia). reflexivity.
Qed.
Lemma next_num k c r : digit c -> next_token (S k) (c :: r) = (t <- number_token lbits atof c r ;; after t).
Proof. intros D. rewrite next_bare; [now apply body_num|classes; lia|classes; lia|unfold bare; classes; lia]. Qed.
Definition dec_token (c : Z) (s : list Z) : res tres :=
  d <- dec_loop (c =? 46) [c] s ;;
  Ok (match d with
      | DEnd decimal t r' => TTok (mkTok t (if decimal : bool then FloatVal (atof t) else IntVal (u32 (strtoul lbits 10 t))) false) r'
      | DFail e => TFail e
      end).
Lemma number_dec c a r : (c = 48 -> ascii a /\ ~ digit a /\ a <> 120 /\ a <> 98) -> number_token lbits atof c (a :: r) = dec_token c (a :: r).
Proof.
  intros H. unfold number_token, dec_token. destruct (c =? 48) eqn:E; cbn [andb].
  - apply Z.eqb_eq in E. destruct (H E) as (A&D&N1&N2). replace (a =? 120) with false by lia. replace (a =? 98) with false by lia.
    rewrite ctype_ok by auto. cbn [bind]. replace (c_digit a) with false by (classes; lia). reflexivity.
  - reflexivity.
Qed.
Lemma begins_nonempty p rest : begins p rest -> exists c r, rest = c :: r /\ p c. Proof. auto. Qed.
Lemma read_decimal k c ds rest : digit c -> Forall digit ds -> (c = 48 -> ds = []) -> value 10 (c :: ds) < 2 ^ 32 ->
  begins (fun c => clear c /\ c <> 46) rest ->
  next_token (S k) ((c :: ds) ++ rest) = Ok (TTok (mkTok (c :: ds) (IntVal (value 10 (c :: ds))) false) rest).
Proof.
  intros D F Z0 V B. cbn [app]. rewrite next_num by auto.
  assert (E : number_token lbits atof c (ds ++ rest) = dec_token c (ds ++ rest)).
  { destruct ds as [|d ds].
    - destruct B as (a&r&->&(A&W)&N). cbn [app]. apply number_dec. intros _. split; [auto|]. classes. lia.
    - cbn [app]. apply number_dec. intros E. discriminate (Z0 E). }
  rewrite E. unfold dec_token. rewrite dec_digits, dec_stop by auto. cbn [bind app]. replace (c =? 46) with false by (classes; lia).
  unfold strtoul. assert (H : Forall hexa (c :: ds)) by (apply (Forall_hexa digit); auto). rewrite number_value by auto. rewrite ulong by (auto; apply value_nonneg; auto; lia).
  apply after_ok. eapply begins_empty; [exact B|]. intros x [[X _] _]. exact X.
Qed.
Lemma read_hexa k ds rest : Forall hexa ds -> value 16 ds < 2 ^ 32 -> begins (fun c => ascii c /\ ~ hexa c) rest ->
  next_token (S k) (48 :: 120 :: ds ++ rest) = Ok (TTok (mkTok ds (IntVal (value 16 ds)) false) rest).
Proof.
  intros F V B. rewrite next_num by (classes; lia). unfold number_token. change ((48 =? 48) && (120 =? 120)) with true. cbv iota.
  rewrite run_of_ok.
  - cbn [bind]. unfold strtoul. rewrite number_value by auto. rewrite ulong by (auto; apply value_nonneg; auto; lia).
    apply after_ok. eapply begins_empty; [exact B|]. now intros x [X _].
  - eapply Forall_impl; [|exact F]. intros c H. classes. lia.
  - destruct B as (a&r&->&A&W). exists a, r. split; [auto|]. classes. lia.
Qed.
Lemma read_octal k d ds rest : Forall octal (d :: ds) -> value 8 (d :: ds) < 2 ^ 32 -> value 8 (d :: ds) < 2 ^ (lbits - 1) -> begins (fun c => ascii c /\ ~ octal c) rest ->
  next_token (S k) (48 :: d :: ds ++ rest) = Ok (TTok (mkTok (d :: ds) (IntVal (value 8 (d :: ds))) false) rest).
Proof.
  intros F V V1 B. rewrite next_num by (classes; lia). unfold number_token. pose proof (Forall_inv F) as D.
  replace ((48 =? 48) && (d =? 120)) with false by (classes; lia). replace ((48 =? 48) && (d =? 98)) with false by (classes; lia).
  change (48 =? 48) with true. cbv iota. rewrite ctype_ok by (classes; lia). cbn [bind]. replace (c_digit d) with true by (classes; lia).
  assert (H : Forall hexa (d :: ds)) by (apply (Forall_hexa octal); auto; intros x; classes; lia).
  change (d :: ds ++ rest) with ((d :: ds) ++ rest). rewrite run_of_ok.
  - cbn [bind]. unfold strtol. rewrite number_value by auto. rewrite slong by (auto; apply value_nonneg; auto; lia).
    apply after_ok. eapply begins_empty; [exact B|]. now intros x [X _].
  - eapply Forall_impl; [|exact F]. intros c X. classes. lia.
  - destruct B as (a&r&->&A&W). exists a, r. split; [auto|]. classes. lia.
Qed.
Lemma read_binary k ds rest : Forall binary ds -> value 2 ds < 2 ^ 32 -> value 2 ds < 2 ^ (lbits - 1) -> begins (fun c => ascii c /\ ~ binary c) rest ->
  next_token (S k) (48 :: 98 :: ds ++ rest) = Ok (TTok (mkTok ds (IntVal (value 2 ds)) false) rest).
Proof.
  intros F V V1 B. rewrite next_num by (classes; lia). unfold number_token.
  change ((48 =? 48) && (98 =? 120)) with false. change ((48 =? 48) && (98 =? 98)) with true. cbv iota.
  assert (H : Forall hexa ds) by (apply (Forall_hexa binary); auto; intros x; classes; lia).
  rewrite run_of_ok.
  - cbn [bind]. unfold strtol. rewrite number_value by auto. rewrite slong by (auto; apply value_nonneg; auto; lia).
    apply after_ok. eapply begins_empty; [exact B|]. now intros x [X _].
  - eapply Forall_impl; [|exact F]. intros c X. classes. lia.
  - destruct B as (a&r&->&A&W). exists a, r. split; [auto|]. classes. lia.
Qed.
Lemma read_fraction k a b s x : Forall digit a -> Forall digit b -> (a <> [] \/ b <> []) -> (forall r, a = 48 :: r -> r = []) ->
  dec_loop true (a ++ 46 :: b) s = Ok (DEnd true (a ++ 46 :: b) x) -> empty_or ascii x ->
  next_token (S k) (a ++ 46 :: b ++ s) = Ok (TTok (mkTok (a ++ 46 :: b) (FloatVal (atof (a ++ 46 :: b))) false) x).
Proof.
  intros FA FB NE Z0 DL EX. destruct a as [|c a]; cbn [app].
  - destruct b as [|d b]; [destruct NE; congruence|]. pose proof (Forall_inv FB) as D. cbn [app] in *.
    rewrite next_body; [|unfold ascii; lia|reflexivity| | |].
    + unfold body. change (is_op 46) with false. change ((46 =? 34) || (46 =? 39)) with false. change (46 =? 47) with false. cbv iota.
      rewrite ctype_ok by (unfold ascii; lia). change (c_digit 46) with false. cbn [bind]. change (46 =? 46) with true. cbv iota. rewrite ctype_ok by (classes; lia).
      replace (c_digit d) with true by (classes; lia). cbn [bind]. rewrite number_dec by discriminate. unfold dec_token.
      change (d :: b ++ s) with ((d :: b) ++ s). rewrite dec_digits by auto. change (46 =? 46) with true. cbn [app]. rewrite DL. cbn [bind]. now apply after_ok.
    + apply no_macro. intros w c r I E. exfalso. cbn in I. repeat (destruct I as [<-|I]; [cbn in E; injection E as E _; classes; lia|]). destruct I.
    + apply bare_const; [apply incl_appl, incl_refl|classes; lia|lia].
    + apply bare_const; [apply incl_appr, incl_refl|classes; lia|lia].
  - pose proof (Forall_inv FA) as D. rewrite next_num by auto.
    assert (E : number_token lbits atof c (a ++ 46 :: b ++ s) = dec_token c (a ++ 46 :: b ++ s)).
    { destruct a as [|a0 a].
      - apply number_dec. intros _. classes. lia.
      - apply number_dec. intros ->. discriminate (Z0 _ eq_refl). }
    rewrite E. unfold dec_token. replace (c =? 46) with false by (classes; lia). rewrite dec_digits by (now inversion FA). rewrite dec_point. rewrite dec_digits by auto.
    rewrite <- !app_assoc. cbn [app] in *. rewrite DL. cbn [bind]. now apply after_ok.
Qed.

(* strings and characters *)
Lemma read_string k w t rest : chars 34 w t -> empty_or ascii rest ->
  next_token (S k) (34 :: w ++ 34 :: rest) = Ok (TTok (mkTok t TextVal true) rest).
Proof.
  intros C E. rewrite next_bare; [|unfold ascii; lia|reflexivity|unfold bare; classes; lia]. unfold body. change (is_op 34) with false. change ((34 =? 34) || (34 =? 39)) with true. change (34 =? 39) with false. cbv iota.
  rewrite (scan_ok false w t rest C) by (try discriminate; rewrite app_length; cbn; lia). cbn [bind app quoted]. now apply after_ok.
Qed.
Lemma read_character k w b rest : chars 39 w [b] -> ascii b -> 0 <= b -> empty_or ascii rest ->
  next_token (S k) (39 :: w ++ 39 :: rest) = Ok (TTok (mkTok [] (IntVal b) true) rest).
Proof.
  intros C A B E. rewrite next_bare; [|unfold ascii; lia|reflexivity|unfold bare; classes; lia]. unfold body. change (is_op 39) with false. change ((39 =? 34) || (39 =? 39)) with true. change (39 =? 39) with true. cbv iota.
  rewrite (scan_ok true w [b] rest C) by (try (intros _; cbn; lia); rewrite app_length; cbn; lia). cbn [bind app quoted].
  replace (u32 (s8 b)) with b by (unfold u32, s8, u8, ascii in *; rewrite (Z.mod_small b 256) by lia; destruct (b <? 128) eqn:?; [|lia]; rewrite Z.mod_small; lia). now apply after_ok.
Qed.

(* names *)
Lemma tails w : name_rest w -> forall n rest c r, name_rest n -> empty_or clear rest -> (forall r, rest <> 58 :: 58 :: r) -> n ++ rest = w ++ c :: r ->
  w = n \/ (exists x, n = w ++ 58 :: 58 :: x) \/ word c.
Proof.
  induction 1 as [|d w W _ IH|w _ IH]; intros n rest c r N E C Q; cbn [app] in Q.
  - destruct N as [|d n D N|n N]; cbn [app] in Q; [auto|injection Q as <- _; auto|right; left; exists n; reflexivity].
  - destruct N as [|d' n D N|n N]; cbn [app] in Q.
    + destruct (E d _ Q) as [_ X]. tauto.
    + injection Q as <- Q. destruct (IH n rest c r N E C Q) as [->|[[x ->]|X]]; [auto|right; left; exists x; reflexivity|auto].
    + injection Q as <- _. classes; lia.
  - destruct N as [|d' n D N|n N]; cbn [app] in Q.
    + destruct (C _ Q).
    + injection Q as -> _. classes; lia.
    + injection Q as Q. destruct (IH n rest c r N E C Q) as [->|[[x ->]|X]]; [auto|right; left; exists x; reflexivity|auto].
Qed.
Lemma name_miss w n rest c r : name w -> name n -> empty_or clear rest -> (forall r, rest <> 58 :: 58 :: r) -> n ++ rest = w ++ c :: r ->
  w = n \/ (exists x, n = w ++ 58 :: 58 :: x) \/ word c.
Proof.
  intros (a&w'&->&_&W) (b&n'&->&_&N) E C Q. cbn [app] in Q. injection Q as -> Q.
  destruct (tails w' W n' rest c r N E C Q) as [->|[[x ->]|X]]; [auto|right; left; exists x; reflexivity|auto].
Qed.
Lemma word_ascii c : word c -> ascii c. Proof. classes. lia. Qed.
Lemma first_constant (l : list (list Z * tval)) n v : In (n, v) l -> exists v' a b, l = a ++ (n, v') :: b /\ forall x, ~ In (n, x) a.
Proof.
  induction l as [|[m u] l IH]; intros I; [destruct I|]. destruct (list_eq_dec Z.eq_dec m n) as [->|N].
  - exists u, [], l. split; [reflexivity|]. intros x [].
  - destruct I as [I|I]; [congruence|]. destruct (IH I) as (v'&a&b&->&F). exists v', ((m, u) :: a), b. split; [reflexivity|].
    intros x [X|X]; [congruence|]. exact (F x X).
Qed.
Lemma miss_const l n rest : incl l (consts0 ++ consts) -> name n -> unqualified (consts0 ++ consts) n -> (forall v, ~ In (n, v) l) ->
  empty_or clear rest -> (forall r, rest <> 58 :: 58 :: r) -> find_const l (n ++ rest) = Ok None.
Proof.
  intros S N U M E C. apply no_const. intros w v c r I Q. destruct (name_miss w n rest c r (LO w v (S _ I)) N E C Q) as [->|[[x X]|X]].
  - destruct (M v I).
  - destruct (U w v x (S _ I) X).
  - split; [now apply word_ascii|auto].
Qed.
Lemma not_constant n : (forall v, ~ constant (consts0 ++ consts) n v) -> forall v, ~ In (n, v) (consts0 ++ consts).
Proof. intros H v I. destruct (first_constant _ n v I) as (v'&a&b&E&F). apply (H v'). exists a, b. auto. Qed.
Lemma body_name k c s rest : letter c \/ c = 95 -> name_rest s -> empty_or clear rest -> (forall r, rest <> 58 :: 58 :: r) ->
  body k c (s ++ rest) = after (name_token (c :: s) rest).
Proof.
  intros L N E C. unfold body. replace (is_op c) with false by (symmetry; noop). replace ((c =? 34) || (c =? 39)) with false by (classes; lia).
  replace (c =? 47) with false by (classes; lia). rewrite ctype_ok by (classes; lia). cbn [bind]. replace (c_digit c) with false by (classes; lia).
  replace (c =? 46) with false by (classes; lia). replace (match s ++ rest with [] => Ok false | _ :: _ => Ok false end) with (@Ok bool false) by (destruct (s ++ rest); reflexivity). cbn [bind].
  replace (c =? 58) with false by (classes; lia). cbn [bind]. rewrite ctype_ok by (classes; lia). cbn [bind]. replace (c_alpha c || (c =? 95)) with true by (classes; lia).
  rewrite name_loop_ok by (auto; discriminate). reflexivity.
Qed.
Lemma read_name k n rest : name n -> unqualified (consts0 ++ consts) n -> (forall v, ~ constant (consts0 ++ consts) n v) ->
  empty_or clear rest -> (forall r, rest <> 58 :: 58 :: r) -> next_token (S k) (n ++ rest) = after (name_token n rest).
Proof.
  intros N U M E C. pose proof (not_constant n M) as M'. pose proof N as (c&s&->&L&NR).
  change ((c :: s) ++ rest) with (c :: (s ++ rest)).
  rewrite next_body; [now apply body_name|classes; lia|classes; lia| | |].
  - apply bare_macro. classes; lia.
  - apply (miss_const consts0 (c :: s) rest); auto; [apply incl_appl, incl_refl|]. intros v I. apply (M' v). apply in_or_app. auto.
  - apply (miss_const consts (c :: s) rest); auto; [apply incl_appr, incl_refl|]. intros v I. apply (M' v). apply in_or_app. auto.
Qed.
Lemma find_app a n v b c r : clear c -> find_const a (n ++ c :: r) = Ok None -> find_const (a ++ (n, v) :: b) (n ++ c :: r) = Ok (Some (v, c :: r)).
Proof.
  intros K. induction a as [|[w u] a IH]; intros H; cbn [app find_const] in *.
  - rewrite word_at_some by auto. reflexivity.
  - destruct (word_at w (n ++ c :: r)) as [[x|]| |]; cbn [bind] in *; try discriminate. auto.
Qed.
Lemma read_constant k n v rest : name n -> unqualified (consts0 ++ consts) n -> constant (consts0 ++ consts) n v -> begins clear rest -> (forall r, rest <> 58 :: 58 :: r) ->
  next_token (S k) (n ++ rest) = Ok (TTok (mkTok [] v false) rest).
Proof.
  intros N U (a&b&EC&F) (c&r&->&K) C.
  assert (E : empty_or clear (c :: r)) by (intros x y Q; injection Q as <- _; exact K).
  assert (AO : after (TTok (mkTok [] v false) (c :: r)) = Ok (TTok (mkTok [] v false) (c :: r))) by (apply after_ok; eapply empty_imp; [exact E|]; now intros x [X _]).
  assert (H : find_const consts0 (n ++ c :: r) = Ok (Some (v, c :: r)) \/
    (find_const consts0 (n ++ c :: r) = Ok None /\ find_const consts (n ++ c :: r) = Ok (Some (v, c :: r)))).
  { assert (FA : forall l, incl l a -> find_const l (n ++ c :: r) = Ok None).
    { intros l I. apply miss_const; auto; [rewrite EC; now apply incl_appl|]. intros x X. apply (F x). auto. }
    pose proof EC as EC'. apply app_eq_app in EC'. destruct EC' as (l&[[E1 E2]|[E1 E2]]).
    - destruct l as [|[m u] l]; cbn [app] in E2.
      + right. rewrite app_nil_r in E1. subst a. split; [apply FA, incl_refl|]. rewrite <- E2. apply (find_app []); auto.
      + injection E2 as <- <- E2. left. rewrite E1. apply find_app; auto. apply FA, incl_refl.
    - right. rewrite E2. split.
      + apply FA. rewrite E1. apply incl_appl, incl_refl.
      + apply find_app; auto. apply FA. rewrite E1. apply incl_appr, incl_refl. }
  pose proof N as (c0&s&->&L&NR).
  change ((c0 :: s) ++ c :: r) with (c0 :: (s ++ c :: r)) in *.
  cbn [TokenModel.next_token skip_space]. rewrite ctype_ok by (classes; lia). cbn [bind]. replace (c_space c0) with false by (classes; lia). cbn [bind].
  rewrite bare_macro by (classes; lia). cbn [bind]. destruct H as [->|[-> ->]]; cbn [bind]; exact AO.
Qed.

Lemma name_after t v rest : empty_or clear rest -> after (TTok (mkTok t v false) rest) = Ok (TTok (mkTok t v false) rest).
Proof. intros E. apply after_ok. eapply empty_imp; [exact E|]. now intros x [X _]. Qed.
Lemma is_name c s : letter c \/ c = 95 -> Forall word s -> name (c :: s).
Proof. intros L F. exists c, s. split; [reflexivity|split; [exact L|]]. induction F; constructor; auto. Qed.
Lemma name_keyword w : In w keywords -> name w.
Proof. intros I. cbn in I. repeat (destruct I as [<-|I]; [apply is_name; [classes; lia|repeat constructor; classes; lia]|]). destruct I. Qed.
Lemma name_plain t rest : ~ In t keywords -> name_token t rest = TTok (mkTok t NoVal false) rest.
Proof.
  intros N. unfold name_token. rewrite !same_text_no by (intros ->; apply N; cbn; tauto). reflexivity.
Qed.
Lemma read_global k n rest : name_rest n -> empty_or clear rest -> (forall r, rest <> 58 :: 58 :: r) ->
  next_token (S k) (58 :: 58 :: n ++ rest) = Ok (TTok (mkTok (58 :: 58 :: n) NoVal false) rest).
Proof.
  intros N E C. rewrite next_bare; [|unfold ascii; lia|reflexivity|unfold bare; classes; lia].
  unfold body. change (is_op 58) with false. change ((58 =? 34) || (58 =? 39)) with false. change (58 =? 47) with false. change (58 =? 46) with false. change (58 =? 58) with true. cbv iota.
  rewrite !ctype_ok by (unfold ascii; lia). change (c_digit 58) with false. change (c_space 58) with false. change (c_alpha 58) with false. change (58 =? 95) with false. cbn [bind orb andb].
  rewrite name_loop_ok by (auto; discriminate). cbn [bind app]. rewrite name_plain; [now apply name_after|].
  intros I. cbn in I. repeat (destruct I as [I|I]; [discriminate I|]). destruct I.
Qed.
Lemma read_operator k w rest : In w operators -> empty_or (fun c => ascii c /\ ~ In (w ++ [c]) (operators ++ [text "//"%string; text "/*"%string])) rest ->
  next_token (S k) (w ++ rest) = Ok (TTok (mkTok w NoVal false) rest).
Proof.
  intros I E. assert (AO : after (TTok (mkTok w NoVal false) rest) = Ok (TTok (mkTok w NoVal false) rest)) by (apply after_ok; eapply empty_imp; [exact E|]; now intros x [X _]).
  destruct rest as [|c r].
  - clear E. revert AO. cbn in I. repeat (destruct I as [<-|I]; [intros AO; change (text ?x) with (text x); cbn [app]; rewrite next_bare; [exact AO|unfold ascii; lia|reflexivity|unfold bare; classes; lia]|]). destruct I.
  - destruct (E c r eq_refl) as [A N]. clear E. revert N AO. cbn in I.
    repeat (destruct I as [<-|I];
      [intros N AO; cbn [app] in *; rewrite next_bare; [|unfold ascii; lia|reflexivity|unfold bare; classes; lia];
       unfold body;
       repeat match goal with
         |- context [is_op ?x] => let b := eval vm_compute in (is_op x) in change (is_op x) with b
       | |- context [?x =? ?y] => lazymatch isZcst x with true => lazymatch isZcst y with true => let b := eval vm_compute in (x =? y) in change (x =? y) with b end end
       end; cbv iota; cbn [orb];
       try rewrite (ctype_ok c_space c A); cbn [bind]; unfold op_tail, opt; cbn [Z.eqb Pos.eqb orb];
       repeat match goal with |- context [?x =? ?y] => destruct (Z.eqb_spec x y); [exfalso; subst; apply N; vm_compute; tauto|] end;
       try destruct (c_space c); exact AO|]). destruct I.
Qed.
Lemma read_punctuation k w rest : In w punctuation -> empty_or ascii rest ->
  next_token (S k) (w ++ rest) = Ok (TTok (mkTok w NoVal false) rest).
Proof.
  intros I E. pose proof (after_ok (mkTok w NoVal false) rest E) as AO. revert AO. cbn in I.
  repeat (destruct I as [<-|I]; [intros AO; cbn [app]; rewrite next_bare; [destruct rest; exact AO|unfold ascii; lia|reflexivity|unfold bare; classes; lia]|]). destruct I.
Qed.
Lemma read_colon k rest : begins (fun c => ascii c /\ c <> 58) rest -> next_token (S k) (58 :: rest) = Ok (TTok (mkTok [58] NoVal false) rest).
Proof.
  intros B. pose proof (after_ok (mkTok [58] NoVal false) rest (begins_empty _ _ _ B (fun c H => proj1 H))) as AO. destruct B as (a&r&->&A&N).
  rewrite next_bare; [|unfold ascii; lia|reflexivity|unfold bare; classes; lia].
  unfold body. change (is_op 58) with false. change ((58 =? 34) || (58 =? 39)) with false. change (58 =? 47) with false. change (58 =? 46) with false. change (58 =? 58) with true. cbv iota.
  rewrite !ctype_ok by (unfold ascii in *; lia). change (c_digit 58) with false. change (c_alpha 58) with false. change (58 =? 95) with false. cbn [bind orb andb].
  replace (a =? 58) with false by lia. destruct (c_space a); exact AO.
Qed.
Lemma read_member k w rest : In w members -> begins clear rest -> next_token (S k) (w ++ rest) = Ok (TTok (mkTok w NoVal false) rest).
Proof.
  intros I B. pose proof (after_ok (mkTok w NoVal false) rest (begins_empty _ _ _ B (fun c H => proj1 H))) as AO. destruct B as (c&r&->&K). revert AO.
  assert (F : find_macro macros (w ++ c :: r) = Ok (Some (w, c :: r))).
  { change macros with members. unfold members in *. cbn [map In] in I.
    destruct I as [<-|[<-|[<-|[<-|[]]]]]; cbn [map find_macro];
    repeat (rewrite word_at_some by auto) || match goal with |- context [word_at ?a ?b] => change (word_at a b) with (@Ok (option (list Z)) None); cbn [bind] end; reflexivity. }
  intros AO. assert (W : exists r', w = 46 :: r') by (cbn in I; destruct I as [<-|[<-|[<-|[<-|[]]]]]; eexists; reflexivity). destruct W as [r' ->].
  cbn [app] in *. cbn [TokenModel.next_token skip_space]. change (ctype c_space 46) with (@Ok bool false). cbn [bind]. rewrite F. exact AO.
Qed.
Lemma read_point k rest : empty_or (fun c => ascii c /\ ~ digit c) rest ->
  (forall w c r, In w members -> clear c -> 46 :: rest <> w ++ c :: r) ->
  (forall w c r, In w members -> 46 :: rest = w ++ c :: r -> ascii c) ->
  next_token (S k) (46 :: rest) = Ok (TTok (mkTok [46] NoVal false) rest).
Proof.
  intros E M H. pose proof (after_ok (mkTok [46] NoVal false) rest (empty_imp _ _ _ E (fun c H => proj1 H))) as AO.
  rewrite next_body; [|unfold ascii; lia|reflexivity| | |].
  - unfold body. change (is_op 46) with false. change ((46 =? 34) || (46 =? 39)) with false. change (46 =? 47) with false. change (46 =? 46) with true. change (46 =? 58) with false. cbv iota.
    rewrite !(ctype_ok _ 46) by (unfold ascii; lia). change (c_digit 46) with false. change (c_alpha 46) with false. change (46 =? 95) with false. cbn [bind orb andb].
    destruct rest as [|a r]; [exact AO|]. destruct (E a r eq_refl) as [A D]. rewrite ctype_ok by auto. replace (c_digit a) with false by (classes; lia). exact AO.
  - apply no_macro. intros w c r I Q. split; [eapply H; eauto|]. pose proof (H w c r I Q) as A.
    destruct (c_alnum c || (c =? 95)) eqn:W; [classes; lia|]. destruct (M w c r I); [|exact Q]. split; [exact A|]. classes; lia.
  - apply bare_const; [apply incl_appl, incl_refl|classes; lia|lia].
  - apply bare_const; [apply incl_appr, incl_refl|classes; lia|lia].
Qed.

Theorem read_one rest w t : spelled rest w t -> forall k, next_token (S k) (w ++ rest) = Ok (TTok t rest).
Proof.
  intros H k. destruct H.
  - now apply read_decimal.
  - now apply (read_hexa k ds rest).
  - now apply (read_octal k d ds rest).
  - now apply (read_binary k ds rest).
  - rewrite <- app_assoc. cbn [app]. apply read_fraction; auto; [now apply dec_stop|]. eapply begins_empty; [eassumption|]. now intros x [[X _] _].
  - rewrite <- app_assoc. cbn [app]. rewrite <- app_assoc. apply read_fraction; auto. now apply dec_f.
  - cbn [app]. rewrite <- app_assoc. now apply read_string.
  - cbn [app]. rewrite <- app_assoc. now apply read_character.
  - rewrite (read_name k (text "true"%string) rest) by (auto; apply name_keyword; cbn; tauto). now apply name_after.
  - rewrite read_name by (auto; apply name_keyword; cbn; destruct H as [->| ->]; tauto). destruct H as [->| ->]; now apply name_after.
  - rewrite read_name by auto. rewrite name_plain by auto. now apply name_after.
  - now apply read_global.
  - now apply read_constant.
  - now apply read_operator.
  - now apply read_punctuation.
  - now apply read_colon.
  - now apply read_member.
  - now apply read_point.
Qed.
Lemma spelled_nonempty rest w t : spelled rest w t -> w <> [].
Proof.
  intros H. destruct H; try discriminate.
  - destruct a; discriminate.
  - destruct a; discriminate.
  - destruct H as [->| ->]; discriminate.
  - destruct H as (c&s&->&_). discriminate.
  - destruct H as (c&s&->&_). discriminate.
  - intros ->. cbn in H. repeat (destruct H as [H|H]; [discriminate|]). destruct H.
  - intros ->. cbn in H. repeat (destruct H as [H|H]; [discriminate|]). destruct H.
  - intros ->. cbn in H. repeat (destruct H as [H|H]; [discriminate|]). destruct H.
Qed.
Lemma sep_only s k : sep_last s -> (length s < k)%nat -> next_token k s = Ok (TFail FEof).
Proof.
  intros H L. destruct H as [s S|s t S N].
  - destruct (sep_skip s S k []) as (k'&K&E); [rewrite app_nil_r; auto|]. rewrite app_nil_r in E. rewrite E. destruct k'; [cbn in K; lia|]. reflexivity.
  - destruct (sep_skip s S k (text "//"%string ++ t)) as (k'&K&E); [auto|]. rewrite E. change (text "//"%string) with [47; 47] in *. cbn [app] in *.
    destruct k' as [|k']; [lia|]. rewrite slash. unfold body. change (is_op 47) with false. change (47 =? 34) with false. change (47 =? 39) with false. change (47 =? 47) with true. cbn [orb]. rewrite ctype_ok by (unfold ascii; lia). change (c_space 47) with false. cbn [bind].
    cbn [to_eol]. change (47 =? 10) with false. cbv iota. rewrite to_eol_end by auto. destruct k'; [cbn in K; lia|]. reflexivity.
Qed.
Theorem read_all toks s : written toks s -> forall n, (length s < n)%nat -> lex lbits atof consts0 consts n s = Ok (toks, FEof).
Proof.
  induction 1 as [s S|s w t rest l S P W IH]; intros n L; (destruct n as [|n]; [lia|]); cbn [lex].
  - rewrite sep_only by (auto; lia). reflexivity.
  - destruct (sep_skip s S (Datatypes.S (length (s ++ w ++ rest))) (w ++ rest)) as (k&K&E); [lia|]. fold next_token. rewrite E. destruct k as [|k]; [lia|].
    rewrite (read_one rest w t P). cbn [bind]. rewrite IH; [reflexivity|]. pose proof (spelled_nonempty _ _ _ P) as NE.
    rewrite !app_length in L. destruct w; [congruence|]. cbn [length] in L. lia.
Qed.
End Reads.
