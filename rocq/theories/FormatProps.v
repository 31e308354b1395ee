(* C26: formatted output stays in its buffer.  C50: it is the text the directives describe. *)
From Verif Require Import Base BaseLemmas StdModel StdSpec StdProofs FormatModel FormatSpec FormatProofs.
Ltac Zify.zify_post_hook ::= Z.div_mod_to_equations.

(* any format bytes, any arguments (even the destination itself), any buffer of at least [max]
   bytes: only the first [max] bytes change.  The only undefined behaviour is negating INT_MIN. *)
Theorem format_never_overruns max self_len fmt args buf :
  max <= lenZ buf -> 0 <= self_len <= lenZ buf ->
  match sprintfEx max self_len fmt f_reset args (mkOut buf 0) with
  | FOk o _ => lenZ (fo_buf o) = lenZ buf /\ forall i, max <= Z.of_nat i -> nth_error (fo_buf o) i = nth_error buf i
  | FUB => exists i, In (FInt i) args /\ u32 i = 2147483648
  end.
Proof.
  intros M L. pose proof (sprintf_safe max self_len fmt f_reset args (mkOut buf 0) ltac:(cbn; lia) M L) as G.
  destruct (sprintfEx _ _ _ _ _ _); cbn in G; [|exact G]. destruct G as (A&_&B). auto.
Qed.
Example format_overrun_ex : match sprintfEx 4 0 [97; 37; 53; 100; 98] f_reset [FInt 7] (mkOut [1;1;1;1;9;9] 0) with
  FOk o r => fo_buf o = [97; 32; 32; 32; 9; 9] /\ r = 7 | FUB => False end.
Proof. vm_compute. auto. Qed.

Lemma run_ok ds args out max sl buf : Forall directive_ok ds ->
  (forall o, sprintfEx max sl (concat (map render ds)) f_reset args o = fin (addChars max o out)) ->
  0 <= max <= lenZ buf -> lenZ out < 4294967296 -> exists b',
  sprintfEx max sl (concat (map render ds)) f_reset args (mkOut buf 0) = FOk (mkOut b' (lenZ out)) (lenZ out) /\
  lenZ b' = lenZ buf /\ (lenZ out <= max -> firstn (Z.to_nat (lenZ out)) b' = out).
Proof.
  intros OK E M L. rewrite E. destruct (addChars_prefix max out (mkOut buf 0) []) as (b'&A&B&C); cbn [fo_pos fo_buf]; try lia.
  - reflexivity.
  - rewrite Z.min_r by lia. reflexivity || now rewrite firstn_nil.
  - rewrite A. cbn [fin fo_pos]. exists b'. cbn [fo_pos fo_buf] in *. rewrite Z.add_0_l in *. split; [reflexivity|]. split; [exact B|].
    intros Q. rewrite Z.min_r in C by lia. cbn [app] in C. rewrite C. apply firstn_all2. unfold lenZ in *. lia.
Qed.
Definition not_self (a : farg) : Prop := match a with FSelf => False | _ => True end.
(* C50: for every list of directives, every destination (none, or a string of any size) and
   arguments that fit, the result is the specified text.  Missing: negative numbers with a field
   width, %o above 15 bits, %b above 16 bits, the destination among the arguments (refuted below). *)
Theorem format_text_partial ds args :
  Forall directive_ok ds -> fits ds args -> Forall not_self args ->
  exists out, formatted ds args out /\
    (lenZ out < 1073741824 -> forall junk dest,
       doSprintf junk dest (concat (map render ds)) args = Some (out, lenZ out)).
Proof.
  intros OK F NS. destruct (render_correct ds args OK F) as (out&Fo&E). exists out. split; [exact Fo|]. intros L junk dest.
  assert (L0: 0 <= lenZ out) by (unfold lenZ; lia).
  assert (RR: forall self, rerun junk (lenZ out) self (concat (map render ds)) args = Some out).
  { intros self. unfold rerun. replace (map (fun a => match a with FSelf => FStr self | x => x end) args) with args.
    - destruct (run_ok ds args out (lenZ out) (lenZ self) (fresh junk (lenZ out)) OK (E _ _)) as (b'&->&B&C); [unfold fresh, lenZ; rewrite repeat_length; lia|lia|].
      cbn [fo_buf]. rewrite C by lia. reflexivity.
    - clear - NS. induction NS as [|a t Ha _ IH]; [reflexivity|]. cbn [map]. f_equal; [destruct a; auto; contradiction|exact IH]. }
  unfold doSprintf. destruct dest as [buf|].
  - destruct (run_ok ds args out (lenZ buf) (lenZ buf) buf OK (E _ _)) as (b'&->&B&C); [unfold lenZ; lia|lia|].
    cbn [fo_buf fo_pos]. destruct (Z.ltb_spec (lenZ buf) (lenZ out)); [now rewrite RR|].
    destruct (_ && _); [now rewrite RR|]. rewrite C by lia. reflexivity.
  - destruct (run_ok ds args out TRY_SIZE 0 (fresh junk (TRY_SIZE + 1)) OK (E _ _)) as (b'&->&B&C); [unfold fresh, TRY_SIZE, lenZ; rewrite repeat_length; lia|lia|].
    cbn [fo_buf]. destruct (Z.ltb_spec TRY_SIZE (lenZ out)); [now rewrite RR|]. rewrite C by lia. reflexivity.
Qed.
(* "x=%05d, %-4s|%X" *)
Definition sample_ds : list directive :=
  [Lit 120; Lit 61; Dir false true [53] Cd; Lit 44; Lit 32; Dir true false [52] Cs; Lit 124; Dir false false [] CX].
Definition sample_args : list farg := [FInt 42; FStr [97; 98]; FInt (-1)].
Example sample_format_ok : Forall directive_ok sample_ds /\ fits sample_ds sample_args /\ Forall not_self sample_args.
Proof.
  split; [|split].
  - unfold sample_ds. repeat constructor; cbn; try discriminate; try lia; unfold width_ok, all_digits; repeat split; try discriminate; try (repeat constructor; lia); try reflexivity; cbn; try congruence.
  - repeat (constructor; unfold is_s32; try lia; auto).
  - repeat constructor.
Qed.
Example sample_format : doSprintf 0 None (concat (map render sample_ds)) sample_args =
  Some ([120;61;48;48;48;52;50;44;32;97;98;32;32;124;70;70;70;70;70;70;70;70], 22).
Proof. vm_compute. reflexivity. Qed.

(* "%5d" of -3 is six characters wide *)
Theorem format_negative_width_refuted : exists out, doSprintf 0 None (render (Dir false false [53] Cd)) [FInt (-3)] = Some (out, 6).
Proof. eexists. vm_compute. reflexivity. Qed.
(* "%05d" of -3 is "0000-3" *)
Theorem format_negative_zero_refuted : doSprintf 0 None (render (Dir false true [53] Cd)) [FInt (-3)] = Some ([48;48;48;48;45;51], 6).
Proof. vm_compute. reflexivity. Qed.
(* "%o" of 32768 is "0", "%b" of 65536 is "0" *)
Theorem format_octal_binary_refuted :
  doSprintf 0 None (render (Dir false false [] Co)) [FInt 32768] = Some ([48], 1) /\
  doSprintf 0 None (render (Dir false false [] Cb)) [FInt 65536] = Some ([48], 1).
Proof. split; vm_compute; reflexivity. Qed.
(* sprintf( s, "x%s", s ) with s = "abc" gives "xxxx" *)
Theorem format_into_argument_refuted :
  doSprintf 0 (Some [97; 98; 99]) ([120] ++ render (Dir false false [] Cs)) [FSelf] = Some ([120;120;120;120], 4).
Proof. vm_compute. reflexivity. Qed.
Theorem format_int_min_refuted : forall junk dest, doSprintf junk dest (render (Dir false false [] Cd)) [FInt (-2147483648)] = None.
Proof. intros junk [b|]; reflexivity. Qed.

Print Assumptions format_never_overruns.
Print Assumptions format_text_partial.
Print Assumptions format_negative_width_refuted.
Print Assumptions format_negative_zero_refuted.
Print Assumptions format_octal_binary_refuted.
Print Assumptions format_into_argument_refuted.
Print Assumptions format_int_min_refuted.
