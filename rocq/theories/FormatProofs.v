From Verif Require Import Base BaseLemmas StdModel StdSpec StdProofs FormatModel FormatSpec.
Ltac Zify.zify_post_hook ::= Z.div_mod_to_equations.

Section F.
Variable max sl : Z.
Notation addChar := (addChar max). Notation addChars := (addChars max). Notation addPad := (addPad max).

Lemma addChars_app a b o : addChars o (a ++ b) = match addChars o a with Some o' => addChars o' b | None => None end.
Proof. revert o. induction a as [|c a IH]; intros o; [reflexivity|]. cbn [app FormatModel.addChars]. destruct (addChar o c); auto. Qed.
Lemma addPad_chars n c o : addPad o n c = addChars o (repeat c n).
Proof. revert o. induction n as [|n IH]; intros o; [reflexivity|]. cbn [repeat FormatModel.addChars FormatModel.addPad]. destruct (addChar o c); auto. Qed.
Lemma addChar_chars c o : addChar o c = addChars o [c].
Proof. cbn. destruct (addChar o c); auto. Qed.

(* ---- memory safety for arbitrary formats ---- *)
Lemma lenZ_upd {A} (l : list A) i x : lenZ (upd l i x) = lenZ l.
Proof. unfold lenZ. f_equal. revert i. induction l; intros [|i]; cbn; auto. Qed.
Lemma nth_upd_other {A} (l : list A) i j x : i <> j -> nth_error (upd l i x) j = nth_error l j.
Proof. revert i j. induction l; intros [|i] [|j] H; cbn; auto; try congruence. Qed.
Definition safe (o o' : fout) : Prop :=
  lenZ (fo_buf o') = lenZ (fo_buf o) /\ 0 <= fo_pos o' /\
  forall i, max <= Z.of_nat i -> nth_error (fo_buf o') i = nth_error (fo_buf o) i.
Lemma safe_refl o : 0 <= fo_pos o -> safe o o. Proof. repeat split; auto. Qed.
Lemma safe_trans a b c : safe a b -> safe b c -> safe a c.
Proof. intros (A&B&C) (D&E&F). repeat split; auto; [congruence|]. intros. rewrite F, C; auto. Qed.
Definition ok1 (o : fout) (r : option fout) : Prop := exists o', r = Some o' /\ safe o o'.
Lemma addChar_safe o c : 0 <= fo_pos o -> max <= lenZ (fo_buf o) -> ok1 o (addChar o c).
Proof.
  intros P M. unfold FormatModel.addChar. destruct (Z.ltb_spec (fo_pos o) max).
  - replace (fo_pos o <? lenZ (fo_buf o)) with true by lia. eexists. split; [reflexivity|]. unfold safe. cbn.
    split; [apply lenZ_upd|]. split; [apply u32_range|]. intros i Hi. apply nth_upd_other. lia.
  - eexists. split; [reflexivity|]. unfold safe. cbn. split; [reflexivity|]. split; [apply u32_range|auto].
Qed.
Lemma addChars_safe cs : forall o, 0 <= fo_pos o -> max <= lenZ (fo_buf o) -> ok1 o (addChars o cs).
Proof.
  induction cs as [|c cs IH]; intros o P M; cbn [FormatModel.addChars].
  - exists o. split; [reflexivity|now apply safe_refl].
  - destruct (addChar_safe o c P M) as (o1&->&S1). destruct (IH o1) as (o2&->&S2); [apply S1|destruct S1 as [-> _]; auto|].
    exists o2. split; [reflexivity|]. eapply safe_trans; eauto.
Qed.
Lemma addSelf_safe n : forall i o, 0 <= fo_pos o -> max <= lenZ (fo_buf o) -> Z.of_nat (i + n) <= lenZ (fo_buf o) -> ok1 o (addSelf max o i n).
Proof.
  induction n as [|n IH]; intros i o P M L; cbn [addSelf].
  - exists o. split; [reflexivity|now apply safe_refl].
  - destruct (nth_error (fo_buf o) i) as [c|] eqn:E; [|apply nth_error_None in E; unfold lenZ in L; lia].
    destruct (addChar_safe o c P M) as (o1&->&S1). destruct S1 as (S1&S2&S3). destruct (IH (S i) o1) as (o2&->&T); auto; try lia.
    exists o2. split; [reflexivity|]. eapply safe_trans; [|exact T]. repeat split; auto.
Qed.
Lemma copy_to_safe st pad neg ptr len body o : 0 <= fo_pos o -> max <= lenZ (fo_buf o) ->
  (forall x, 0 <= fo_pos x -> lenZ (fo_buf x) = lenZ (fo_buf o) -> ok1 x (body x)) -> ok1 o (copy_to max st pad neg ptr len body o).
Proof.
  intros P M B. unfold copy_to. set (n := if _ <? _ then _ else _).
  assert (C: forall x cs, safe o x -> exists y, addChars x cs = Some y /\ safe o y).
  { intros x cs S. destruct (addChars_safe cs x) as (y&E&T); [apply S|destruct S as [-> _]; auto|]. exists y. split; [exact E|]. eapply safe_trans; eauto. }
  assert (H1: exists o1, (if f_left st then Some o else addPad o n pad) = Some o1 /\ safe o o1).
  { destruct (f_left st); [exists o; split; [reflexivity|now apply safe_refl]|]. rewrite addPad_chars. apply C. now apply safe_refl. }
  destruct H1 as (o1&->&S1).
  assert (H2: exists o2, (if neg then addChar o1 45 else Some o1) = Some o2 /\ safe o o2).
  { destruct neg; [rewrite addChar_chars; now apply C|eauto]. }
  destruct H2 as (o2&->&S2).
  assert (H3: exists o3, (if f_alt st || ptr then addChars o2 [48; 120] else Some o2) = Some o3 /\ safe o o3).
  { destruct (f_alt st || ptr); [now apply C|eauto]. }
  destruct H3 as (o3&->&S3). destruct (B o3) as (o4&->&S4); [apply S3|apply S3|].
  assert (S5: safe o o4) by (eapply safe_trans; eauto).
  destruct (f_left st); [rewrite addPad_chars; destruct (C o4 (repeat 32 n) S5) as (y&->&Sy); exists y; auto|exists o4; auto].
Qed.

Definition int_min_arg (args : list farg) : Prop := exists i, In (FInt i) args /\ u32 i = 2147483648.
Definition good_res (o : fout) (args : list farg) (r : fres) : Prop :=
  match r with FOk o' _ => safe o o' | FUB => int_min_arg args end.
Lemma good_trans o o1 args args' r : safe o o1 -> (forall a, In a args' -> In a args) -> good_res o1 args' r -> good_res o args r.
Proof.
  intros S I H. destruct r; cbn in *; [eapply safe_trans; eauto|]. destruct H as (i&A&B). exists i. auto.
Qed.
Lemma sprintf_safe fmt : forall st args o, 0 <= fo_pos o -> max <= lenZ (fo_buf o) -> 0 <= sl <= lenZ (fo_buf o) ->
  good_res o args (sprintfEx max sl fmt st args o).
Proof.
  induction fmt as [|c rest IH]; intros st args o P M L; [now apply safe_refl|]. cbn [sprintfEx]. cbv zeta.
  assert (K: forall x args', ok1 o x -> (forall a, In a args' -> In a args) ->
    good_res o args match x with Some o' => sprintfEx max sl rest f_reset args' o' | None => FUB end).
  { intros x args' (o1&->&S) I. eapply good_trans; [exact S|exact I|]. destruct S as (S1&S2&S3). apply IH; auto; lia. }
  assert (K0: forall st', good_res o args (sprintfEx max sl rest st' args o)) by (intros; apply IH; auto).
  assert (INT: forall signed base width, good_res o args
     (let '(v, args') := match args with a :: t => (u32 (arg_int a), t) | [] => (0, []) end in
      if signed && (2147483648 <=? v) then
        if v =? 2147483648 then FUB
        else match copy_to max st (f_pad st) true (c =? 112) (lenZ (convert width base (c =? 120) (4294967296 - v))) (fun x => addChars x (convert width base (c =? 120) (4294967296 - v))) o with Some o' => sprintfEx max sl rest f_reset args' o' | None => FUB end
      else match copy_to max st (f_pad st) false (c =? 112) (lenZ (convert width base (c =? 120) v)) (fun x => addChars x (convert width base (c =? 120) v)) o with Some o' => sprintfEx max sl rest f_reset args' o' | None => FUB end)).
  { intros. assert (B: forall cs x, 0 <= fo_pos x -> lenZ (fo_buf x) = lenZ (fo_buf o) -> ok1 x (addChars x cs)).
    { intros. apply addChars_safe; auto. lia. }
    destruct args as [|a t].
    - destruct (signed && _); [change (0 =? 2147483648) with false; cbv iota|]; apply K; auto; apply copy_to_safe; auto.
    - destruct (signed && _) eqn:E; [destruct (Z.eqb_spec (u32 (arg_int a)) 2147483648) as [Q|Q]|].
      + cbn. destruct a; cbn in Q; try discriminate. exists i. split; [now left|exact Q].
      + apply K; [apply copy_to_safe; auto|]. intros; now right.
      + apply K; [apply copy_to_safe; auto|]. intros; now right. }
  destruct (negb (f_second st)).
  { destruct (c =? 37); [apply K0|]. destruct (addChar_safe o c P M) as (o1&->&S). apply (good_trans o o1 args args); [exact S|auto|].
    destruct S as (S1&S2&S3). apply IH; auto; lia. }
  destruct ((48 <=? c) && (c <=? 57)); [apply K0|]. destruct (c =? 35); [apply K0|]. destruct (c =? 45); [apply K0|].
  destruct (c =? 99). { destruct args; [apply K0|]. apply K; [apply addChar_safe; auto|]. intros; now right. }
  destruct (c =? 37). { apply K; auto. apply addChar_safe; auto. }
  destruct (c =? 115).
  { destruct args as [|[i|bs| |] t]; try (now apply safe_refl); apply K; auto; try (intros; now right); apply copy_to_safe; auto.
    - intros x Hx _. exists x. split; [reflexivity|now apply safe_refl].
    - intros. apply addChars_safe; auto. lia.
    - intros x Hx Lx. apply addSelf_safe; auto; lia. }
  destruct ((c =? 100) || (c =? 105)); [apply INT|]. destruct (c =? 117); [apply INT|]. destruct (c =? 98); [apply INT|].
  destruct (c =? 111); [apply INT|]. destruct ((c =? 120) || (c =? 88) || (c =? 112)); [apply INT|]. apply K0.
Qed.

(* ---- contents ---- *)
Lemma skipn_upd {A} (l : list A) n x : skipn (S n) (upd l n x) = skipn (S n) l.
Proof. revert n. induction l; intros [|n]; cbn; auto. apply IHl. Qed.
Lemma firstn_upd {A} (l : list A) n x : (n < length l)%nat -> firstn (S n) (upd l n x) = firstn n l ++ [x].
Proof. revert n. induction l; intros [|n] H; cbn in *; try lia; auto. f_equal. apply IHl. lia. Qed.
Lemma addChars_prefix cs : forall o pre, 0 <= max -> 0 <= fo_pos o -> fo_pos o + lenZ cs < 4294967296 -> max <= lenZ (fo_buf o) ->
  lenZ pre = fo_pos o -> firstn (Z.to_nat (Z.min max (fo_pos o))) (fo_buf o) = firstn (Z.to_nat max) pre -> exists b',
  addChars o cs = Some (mkOut b' (fo_pos o + lenZ cs)) /\ lenZ b' = lenZ (fo_buf o) /\
  firstn (Z.to_nat (Z.min max (fo_pos o + lenZ cs))) b' = firstn (Z.to_nat max) (pre ++ cs).
Proof.
  induction cs as [|c cs IH]; intros o pre Mx P H M Lp F; cbn [FormatModel.addChars].
  - exists (fo_buf o). change (lenZ []) with 0. rewrite app_nil_r, Z.add_0_r. destruct o; auto.
  - assert (HL: lenZ (c :: cs) = 1 + lenZ cs) by (unfold lenZ; cbn [length]; lia). rewrite HL in *.
    assert (0 <= lenZ cs) by (unfold lenZ; lia).
    set (o1 := mkOut (if fo_pos o <? max then upd (fo_buf o) (Z.to_nat (fo_pos o)) c else fo_buf o) (fo_pos o + 1)).
    assert (E1: addChar o c = Some o1).
    { unfold FormatModel.addChar, o1. rewrite u32_id by (unfold is_u32; lia). destruct (Z.ltb_spec (fo_pos o) max); [|reflexivity].
      now replace (fo_pos o <? lenZ (fo_buf o)) with true by lia. }
    rewrite E1. destruct (IH o1 (pre ++ [c])) as (b'&A&B&C); unfold o1; cbn [fo_pos fo_buf]; try lia.
    + destruct (fo_pos o <? max); rewrite ?lenZ_upd; lia.
    + unfold lenZ in *. rewrite app_length. cbn [length]. lia.
    + destruct (Z.ltb_spec (fo_pos o) max) as [Q|Q].
      * rewrite Z.min_r by lia. rewrite Z.min_r in F by lia. replace (Z.to_nat (fo_pos o + 1)) with (S (Z.to_nat (fo_pos o))) by lia.
        rewrite firstn_upd by (unfold lenZ in M; lia). rewrite F. unfold lenZ in *. rewrite !firstn_all2; auto; rewrite ?app_length; cbn [length]; lia.
      * rewrite Z.min_l by lia. rewrite Z.min_l in F by lia. rewrite F. unfold lenZ in Lp. rewrite firstn_app.
        replace (Z.to_nat max - length pre)%nat with 0%nat by lia. cbn [firstn]. now rewrite app_nil_r.
    + exists b'. unfold o1 in A, B, C. cbn [fo_pos fo_buf] in *. replace (fo_pos o + (1 + lenZ cs)) with (fo_pos o + 1 + lenZ cs) by lia.
      split; [exact A|]. split; [destruct (fo_pos o <? max); rewrite ?lenZ_upd in B; lia|].
      rewrite C, <- app_assoc. reflexivity.
Qed.

(* ---- digits ---- *)
Lemma base_digits_range w b v : 2 <= b -> Forall (fun d => 0 <= d < b) (base_digits w b v).
Proof.
  intros Hb. revert v. induction w as [|w IH]; intros v; cbn [base_digits]; [constructor|]. apply Forall_app. split; auto.
  constructor; [apply Z.mod_pos_bound; lia|constructor].
Qed.
Lemma base_digits_value w b : 2 <= b -> forall v, 0 <= v < b ^ Z.of_nat w ->
  fold_left (fun acc d => acc * b + d) (base_digits w b v) 0 = v.
Proof.
  intros Hb. induction w as [|w IH]; intros v Hv.
  - cbn in *. lia.
  - cbn [base_digits]. rewrite fold_left_app. cbn [fold_left]. rewrite Nat2Z.inj_succ, Z.pow_succ_r in Hv by lia.
    rewrite IH.
    + rewrite (Z.mul_comm (v / b)). symmetry. apply Z.div_mod. lia.
    + split; [apply Z.div_pos; lia|]. apply Z.div_lt_upper_bound; lia.
Qed.
Lemma base_digits_len w b v : length (base_digits w b v) = w.
Proof. revert v. induction w as [|w IH]; intros v; cbn [base_digits]; auto. rewrite app_length, IH. cbn. lia. Qed.
Lemma strip_props ds b : ds <> [] -> Forall (fun d => 0 <= d < b) ds ->
  strip ds <> [] /\ Forall (fun d => 0 <= d < b) (strip ds) /\
  fold_left (fun acc d => acc * b + d) (strip ds) 0 = fold_left (fun acc d => acc * b + d) ds 0 /\
  (strip ds <> [0] -> hd 0 (strip ds) <> 0).
Proof.
  induction ds as [|d ds IH]; intros N F; [congruence|]. destruct ds as [|e ds].
  - cbn. repeat split; auto. intros Q. intros ->. congruence.
  - inversion F; subst. change (strip (d :: e :: ds)) with (if d =? 0 then strip (e :: ds) else d :: e :: ds).
    destruct (Z.eqb_spec d 0) as [->|Q].
    + destruct (IH ltac:(discriminate) ltac:(assumption)) as (A&B&C&D). repeat split; auto.
    + repeat split; auto; discriminate.
Qed.
Lemma convert_text w b lower v : (0 < w)%nat -> 2 <= b <= 16 -> 0 <= v < b ^ Z.of_nat w -> radix_text b lower v (convert w b lower v).
Proof.
  intros Hw Hb Hv. unfold convert. pose proof (base_digits_range w b v ltac:(lia)) as R. pose proof (base_digits_value w b ltac:(lia) v Hv) as V.
  assert (N: base_digits w b v <> []) by (intros E; pose proof (base_digits_len w b v) as L; rewrite E in L; cbn in L; lia).
  destruct (strip_props _ b N R) as (A&B&C&D). exists (strip (base_digits w b v)). split; [|rewrite C; auto].
  clear - B Hb. induction B as [|d ds Hd _ IH]; cbn [map]; constructor; auto.
  unfold digit_of, digit_char. destruct (57 <? d + 48) eqn:E; [right|left]; split; try lia. destruct lower; lia.
Qed.
Lemma radix_decimal lower n s : radix_text 10 lower n s -> canonical_nat n s.
Proof.
  intros (ds&F&R&N&V&Z). assert (E: s = map (fun d => 48 + d) ds).
  { clear N V Z. revert R. induction F as [|c d s ds Hc _ IH]; intros R; [reflexivity|]. inversion R; subst. cbn. f_equal; auto.
    destruct Hc as [[_ ->]|[Hc _]]; [reflexivity|lia]. }
  subst s. repeat split.
  - unfold all_digits. rewrite Forall_map. eapply Forall_impl; [|exact R]. intros d Hd. cbv beta in *. lia.
  - destruct ds; [congruence|discriminate].
  - unfold decimal_value. rewrite <- V. clear. generalize 0. induction ds as [|d ds IH]; intros a; cbn [map fold_left]; [reflexivity|].
    replace (48 + d - 48) with d by lia. apply IH.
  - intros Q. assert (Q': ds <> [0]) by (intros ->; apply Q; reflexivity). specialize (Z Q'). destruct ds; [congruence|]. cbn [map hd] in *. lia.
Qed.

(* ---- field parsing ---- *)
Lemma parse_width : forall w st args o rest a, f_second st = true -> all_digits w ->
  a = f_cols st -> 0 <= a -> fold_left (fun acc c => acc * 10 + (c - 48)) w a < 4294967296 ->
  (a = 0 -> w <> [] -> hd 0 w <> 48) ->
  sprintfEx max sl (w ++ rest) st args o =
  sprintfEx max sl rest (mkF true (f_pad st) (fold_left (fun acc c => acc * 10 + (c - 48)) w a) (f_left st) (f_alt st)) args o.
Proof.
  induction w as [|c w IH]; intros st args o rest a S A E Pa B Z.
  - cbn [app fold_left]. subst a. destruct st. cbn in *. now subst.
  - inversion A as [|? ? Hc A']; subst. cbn [app sprintfEx]. rewrite S. cbn [negb]. cbv iota.
    replace ((48 <=? c) && (c <=? 57)) with true by lia. cbv zeta iota. cbn [fold_left] in B.
    assert (Mono: forall w b, all_digits w -> 0 <= b -> b <= fold_left (fun acc c => acc * 10 + (c - 48)) w b).
    { clear. induction w as [|c w IH]; intros b A Hb; cbn [fold_left]; [lia|]. inversion A; subst.
      assert (b * 10 + (c - 48) <= fold_left (fun acc c => acc * 10 + (c - 48)) w (b * 10 + (c - 48))) by (apply IH; auto; lia). lia. }
    pose proof (Mono w (f_cols st * 10 + (c - 48)) A' ltac:(lia)) as G.
    rewrite (u32_id (f_cols st * 10)) by (unfold is_u32; lia). rewrite u32_id by (unfold is_u32; lia).
    assert (NZ: f_cols st * 10 + (c - 48) <> 0).
    { destruct (Z.eq_dec (f_cols st) 0) as [Q|Q]; [|lia]. specialize (Z Q ltac:(discriminate)). cbn in Z. lia. }
    replace (f_cols st * 10 + (c - 48) =? 0) with false by lia.
    rewrite (IH _ args o rest (f_cols st * 10 + (c - 48))); cbn [f_second f_cols f_pad f_left f_alt]; auto; try lia.
Qed.

Definition outcome (o : option fout) (rest : list Z) (args : list farg) : fres :=
  match o with Some o' => sprintfEx max sl rest f_reset args o' | None => FUB end.
Lemma outcome_app a b rest args o : outcome (addChars o (a ++ b)) rest args =
  match addChars o a with Some o' => outcome (addChars o' b) rest args | None => FUB end.
Proof. unfold outcome. rewrite addChars_app. destruct (addChars o a); reflexivity. Qed.

Definition dstate (lj zero : bool) (w : list Z) : fstate := mkF true (if zero then 48 else 32) (decimal_value w) lj false.
Lemma parse_dir lj zero w v args o rest : width_ok w ->
  sprintfEx max sl (render (Dir lj zero w v) ++ rest) f_reset args o =
  sprintfEx max sl (conv_char v :: rest) (dstate lj zero w) args o.
Proof.
  intros (W1&W2&W3). cbn [render]. rewrite <- app_comm_cons, <- !app_assoc.
  assert (S1: forall l st, f_second st = false -> sprintfEx max sl (37 :: l) st args o = sprintfEx max sl l (mkF true (f_pad st) (f_cols st) (f_left st) (f_alt st)) args o).
  { intros l st H. cbn [sprintfEx]. now rewrite H. }
  assert (S2: forall l st, f_second st = true -> sprintfEx max sl (45 :: l) st args o = sprintfEx max sl l (mkF true (f_pad st) (f_cols st) true (f_alt st)) args o).
  { intros l st H. cbn [sprintfEx]. now rewrite H. }
  assert (S3: forall l st, f_second st = true -> f_cols st = 0 -> sprintfEx max sl (48 :: l) st args o = sprintfEx max sl l (mkF true 48 0 (f_left st) (f_alt st)) args o).
  { intros l st H H0. cbn [sprintfEx]. rewrite H, H0. reflexivity. }
  rewrite S1 by reflexivity. unfold dstate, decimal_value.
  destruct lj, zero; cbn [app]; rewrite ?S2 by reflexivity; rewrite ?S3 by reflexivity;
    (erewrite parse_width; [cbn [f_pad f_left f_alt f_reset app]; reflexivity|reflexivity|exact W1|reflexivity|cbn; lia|exact W3|cbn [f_cols f_reset]; auto]).
Qed.

(* a field is written as the spec says *)
Lemma copy_field lj zero w v s o : 0 <= decimal_value w -> (v = Cs -> True) ->
  copy_to max (dstate lj zero w) (match v with Cs => 32 | _ => if zero then 48 else 32 end) false false (lenZ s) (fun x => addChars x s) o =
  addChars o (if lj then s ++ repeat 32 (Z.to_nat (decimal_value w - lenZ s)) else repeat (if zero then match v with Cs => 32 | _ => 48 end else 32) (Z.to_nat (decimal_value w - lenZ s)) ++ s).
Proof.
  intros W _. unfold copy_to, dstate. cbn [f_cols f_left f_alt orb].
  assert (N: (if lenZ s <? decimal_value w then Z.to_nat (decimal_value w - lenZ s) else 0%nat) = Z.to_nat (decimal_value w - lenZ s)).
  { destruct (Z.ltb_spec (lenZ s) (decimal_value w)); lia. }
  rewrite N. destruct lj.
  - rewrite addChars_app. destruct (addChars o s); [|reflexivity]. now rewrite addPad_chars.
  - rewrite addPad_chars, addChars_app.
    replace (match v with Cs => 32 | _ => if zero then 48 else 32 end) with (if zero then match v with Cs => 32 | _ => 48 end else 32) by (destruct zero, v; reflexivity).
    destruct (addChars o _); [|reflexivity]. destruct (addChars f s); reflexivity.
Qed.
End F.

Lemma dec_nonneg w : all_digits w -> 0 <= decimal_value w.
Proof.
  intros A. unfold decimal_value. assert (G: forall b, 0 <= b -> 0 <= fold_left (fun acc c => acc * 10 + (c - 48)) w b).
  { induction A as [|c w Hc _ IH]; intros b Hb; cbn [fold_left]; [lia|]. apply IH. lia. }
  apply G. lia.
Qed.


Lemma render_correct ds : forall args, Forall directive_ok ds -> fits ds args -> exists out,
  formatted ds args out /\ forall max sl o, sprintfEx max sl (concat (map render ds)) f_reset args o = fin (addChars max o out).
Proof.
  induction ds as [|d ds IH]; intros args OK F.
  { exists []. split; [constructor|reflexivity]. }
  inversion OK as [|? ? Od OK']; subst. cbn [map concat].
  inversion F as [|c ? ? F'|? ? F'|i lj zero w ? t F'|bs lj zero w ? t F'|i v lj zero w ? t Hi Hv F']; subst; destruct (IH _ OK' F') as (out&Fo&Eo).
  - exists (c :: out). split; [now constructor|]. intros max sl o. cbn [render app sprintfEx]. cbn [f_reset f_second negb]. cbn in Od.
    replace (c =? 37) with false by lia. cbn [addChars]. destruct (addChar max o c); [apply Eo|reflexivity].
  - exists (37 :: out). split; [now constructor|]. intros max sl o.
    change (render Percent ++ concat (map render ds)) with (37 :: 37 :: concat (map render ds)).
    transitivity (match addChar max o 37 with Some o' => sprintfEx max sl (concat (map render ds)) f_reset args o' | None => FUB end); [reflexivity|].
    cbn [addChars]. destruct (addChar max o 37); [apply Eo|reflexivity].
  - exists (u8 i :: out). split; [now constructor|]. intros max sl o. rewrite parse_dir by exact Od.
    transitivity (match addChar max o (u8 i) with Some o' => sprintfEx max sl (concat (map render ds)) f_reset t o' | None => FUB end); [reflexivity|].
    cbn [addChars]. destruct (addChar max o (u8 i)); [apply Eo|reflexivity].
  - cbn in Od. pose proof (dec_nonneg w (proj1 Od)) as W0. eexists. split; [eapply F_dir; [constructor|reflexivity|exact Fo]|]. intros max sl o. rewrite parse_dir by exact Od.
    transitivity (match copy_to max (dstate lj zero w) 32 false false (lenZ bs) (fun x => addChars max x bs) o with Some o' => sprintfEx max sl (concat (map render ds)) f_reset t o' | None => FUB end); [reflexivity|].
    rewrite (copy_field max lj zero w Cs bs o W0 (fun _ => I)), addChars_app.
    match goal with |- match ?x with _ => _ end = _ => destruct x end; [apply Eo|reflexivity].
  - cbn in Od. pose proof (dec_nonneg w (proj1 Od)) as W0.
    (* the unsigned path *)
    assert (U: forall s base width lower, s = convert width base lower (u32 i) -> v <> Cs -> conv_text v (FInt i) s ->
       (forall max sl o, sprintfEx max sl (conv_char v :: concat (map render ds)) (dstate lj zero w) (FInt i :: t) o =
          match copy_to max (dstate lj zero w) (if zero then 48 else 32) false false (lenZ s) (fun x => addChars max x s) o with Some o' => sprintfEx max sl (concat (map render ds)) f_reset t o' | None => FUB end) ->
       exists out0, formatted (Dir lj zero w v :: ds) (FInt i :: t) out0 /\ forall max sl o, sprintfEx max sl (render (Dir lj zero w v) ++ concat (map render ds)) f_reset (FInt i :: t) o = fin (addChars max o out0)).
    { intros s base width lower _ Nv T Es. eexists. split; [eapply F_dir; [exact T|reflexivity|exact Fo]|]. intros max sl o. rewrite parse_dir by exact Od. rewrite Es.
      replace (if zero then 48 else 32) with (match v with Cs => 32 | _ => if zero then 48 else 32 end) at 1 by (destruct v; congruence || reflexivity).
      rewrite (copy_field max lj zero w v s o W0 (fun _ => I)), addChars_app.
      match goal with |- match ?x with _ => _ end = _ => destruct x end; [apply Eo|reflexivity]. }
    assert (R32: 0 <= u32 i < 4294967296) by apply u32_range.
    destruct v; try contradiction.
    + (* %d *)
      destruct (Z_lt_le_dec i 0) as [Neg|Pos].
      * destruct Hv as [Hm Hw]. specialize (Hw Neg). subst w.
        assert (V: u32 i = i + 4294967296) by (unfold u32, is_s32 in *; lia).
        set (s := convert 10 10 false (4294967296 - u32 i)).
        assert (T: canonical_nat (- i) s).
        { unfold s. rewrite V. replace (4294967296 - (i + 4294967296)) with (- i) by lia. apply (radix_decimal false). apply convert_text; [lia|lia|]. unfold is_s32 in Hi. change (10 ^ Z.of_nat 10) with 10000000000. lia. }
        assert (TD: conv_text Cd (FInt i) (45 :: s)).
        { constructor; auto. unfold decimal_text. replace (i <? 0) with true by lia. eauto. }
        eexists. split; [eapply F_dir; [exact TD|reflexivity|exact Fo]|]. intros max sl o. rewrite parse_dir by exact Od.
        transitivity (match copy_to max (dstate lj zero []) (if zero then 48 else 32) true false (lenZ s) (fun x => addChars max x s) o with Some o' => sprintfEx max sl (concat (map render ds)) f_reset t o' | None => FUB end).
        { cbn [conv_char sprintfEx dstate f_second negb arg_int f_pad]. cbv iota zeta.
          change ((48 <=? 100) && (100 <=? 57)) with false. change (100 =? 35) with false. change (100 =? 45) with false. change (100 =? 99) with false.
          change (100 =? 37) with false. change (100 =? 115) with false. change ((100 =? 100) || (100 =? 105)) with true. cbv iota.
          replace (true && (2147483648 <=? u32 i)) with true by (unfold is_s32 in Hi; lia). cbv iota.
          replace (u32 i =? 2147483648) with false by lia. change (100 =? 112) with false. change (100 =? 120) with false. fold s. reflexivity. }
        unfold copy_to, dstate. cbn [f_cols f_left f_alt orb]. change (decimal_value []) with 0.
        replace (lenZ s <? 0) with false by (unfold lenZ; lia). replace (Z.to_nat (0 - lenZ (45 :: s))) with 0%nat by (unfold lenZ; lia).
        cbn [addPad repeat app]. rewrite app_nil_r.
        replace (if lj then 45 :: s else 45 :: s) with (45 :: s) by (destruct lj; reflexivity).
        destruct lj; cbn [app addChars]; destruct (addChar max o 45) as [o2|]; try reflexivity; rewrite addChars_app; destruct (addChars max o2 s); try reflexivity; apply Eo.
      * apply (U (convert 10 10 false (u32 i)) 10 10%nat false eq_refl); [discriminate| |].
        -- assert (V: u32 i = i) by (unfold u32, is_s32 in *; lia). constructor; [auto|apply Hv|]. unfold decimal_text. replace (i <? 0) with false by lia. rewrite V.
           apply (radix_decimal false). apply convert_text; [lia|lia|]. unfold is_s32 in Hi. change (10 ^ Z.of_nat 10) with 10000000000. lia.
        -- intros max sl o. cbn [conv_char sprintfEx dstate f_second negb arg_int f_pad]. cbv iota zeta.
           change ((48 <=? 100) && (100 <=? 57)) with false. change (100 =? 35) with false. change (100 =? 45) with false. change (100 =? 99) with false.
           change (100 =? 37) with false. change (100 =? 115) with false. change ((100 =? 100) || (100 =? 105)) with true. cbv iota.
           replace (true && (2147483648 <=? u32 i)) with false by (unfold u32, is_s32 in *; lia). reflexivity.
    + apply (U (convert 10 10 false (u32 i)) 10 10%nat false eq_refl); [discriminate| |intros max sl o; reflexivity].
      constructor; auto. apply (radix_decimal false). apply convert_text; [lia|lia|]. change (10 ^ Z.of_nat 10) with 10000000000. lia.
    + apply (U (convert 16 2 false (u32 i)) 2 16%nat false eq_refl); [discriminate| |intros max sl o; reflexivity].
      constructor; auto. rewrite u32_id by (unfold is_u32; lia). apply convert_text; [lia|lia|]. change (2 ^ Z.of_nat 16) with 65536. lia.
    + apply (U (convert 5 8 false (u32 i)) 8 5%nat false eq_refl); [discriminate| |intros max sl o; reflexivity].
      constructor; auto. rewrite u32_id by (unfold is_u32; lia). apply convert_text; [lia|lia|]. change (8 ^ Z.of_nat 5) with 32768. lia.
    + apply (U (convert 8 16 true (u32 i)) 16 8%nat true eq_refl); [discriminate| |intros max sl o; reflexivity].
      constructor; auto. apply convert_text; [lia|lia|]. change (16 ^ Z.of_nat 8) with 4294967296. lia.
    + apply (U (convert 8 16 false (u32 i)) 16 8%nat false eq_refl); [discriminate| |intros max sl o; reflexivity].
      constructor; auto. apply convert_text; [lia|lia|]. change (16 ^ Z.of_nat 8) with 4294967296. lia.
Qed.
