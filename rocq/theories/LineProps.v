(* C67: error messages and debug information name the right line. *)
From Verif Require Import Base BaseLemmas.
From Verif Require Import GCModel LineModel.
From Coq Require Import List.
Open Scope list_scope. Open Scope Z_scope.

(* a source text is lines with a newline between each two *)
Fixpoint join (lines : list (list Z)) : list Z :=
  match lines with [] => [] | [l] => l | l :: ls => l ++ 10 :: join ls end.
(* where line number k (from 0) starts *)
Fixpoint start (lines : list (list Z)) (k : nat) : Z :=
  match k, lines with S k, l :: ls => lenZ l + 1 + start ls k | _, _ => 0 end.

Lemma up_to_line l r : ~ In 10 l -> up_to_newline (l ++ 10 :: r) = l.
Proof. induction l as [|c l IH]; intros N; [reflexivity|]. cbn [app up_to_newline]. destruct (Z.eqb_spec c 10) as [->|_]; [contradiction N; now left|]. f_equal. apply IH. intros I. apply N. now right. Qed.
Lemma up_to_end l : ~ In 10 l -> up_to_newline l = l.
Proof. induction l as [|c l IH]; intros N; [reflexivity|]. cbn [up_to_newline]. destruct (Z.eqb_spec c 10) as [->|_]; [contradiction N; now left|]. f_equal. apply IH. intros I. apply N. now right. Qed.
Lemma up_to_join l ls : ~ In 10 l -> up_to_newline (join (l :: ls)) = l.
Proof. intros N. destruct ls; [now apply up_to_end|now apply up_to_line]. Qed.
Lemma walk_line : forall a m r L C line, ~ In 10 a -> walk (length a + m) (a ++ r) L C line = walk m r L (C + lenZ a) line.
Proof.
  induction a as [|c a IH]; intros m r L C line N; cbn [length Nat.add app walk]; [f_equal; unfold lenZ; cbn; lia|]. destruct (Z.eqb_spec c 10) as [->|_]; [contradiction N; now left|]. rewrite IH by (intros I; apply N; now right). f_equal. unfold lenZ. cbn [length]. lia.
Qed.
Lemma start_pos : forall k lines, 0 <= start lines k.
Proof. induction k as [|k IH]; intros [|l ls]; cbn [start]; try lia. specialize (IH ls). unfold lenZ. lia. Qed.
Lemma walk_lines : forall k lines c ln L line, Forall (fun l => ~ In 10 l) lines -> nth_error lines k = Some ln -> 0 <= c <= lenZ ln -> up_to_newline (join lines) = line ->
  walk (Z.to_nat (start lines k + c)) (join lines) L 0 line = Ok (L + Z.of_nat k, c, ln).
Proof.
  induction k as [|k IH]; intros [|l ls] c ln L line F E R U; try discriminate E; inversion F as [|? ? F1 F2]; subst.
  - cbn [nth_error] in E. injection E as ->. cbn [start]. rewrite up_to_join by exact F1. unfold lenZ in R.
    assert (LC : length (firstn (Z.to_nat c) ln) = Z.to_nat c) by (rewrite firstn_length; lia).
    assert (J : exists r, join (ln :: ls) = firstn (Z.to_nat c) ln ++ r). { destruct ls; cbn [join]; [exists (skipn (Z.to_nat c) ln); now rewrite firstn_skipn|]. eexists (skipn (Z.to_nat c) ln ++ _). rewrite app_assoc, firstn_skipn. reflexivity. }
    destruct J as (r & ->). replace (Z.to_nat (0 + c)) with (length (firstn (Z.to_nat c) ln) + 0)%nat by lia. rewrite walk_line by (intros I; apply F1; rewrite <- (firstn_skipn (Z.to_nat c) ln); apply in_or_app; now left). cbn [walk]. unfold lenZ. rewrite LC. repeat f_equal; lia.
  - cbn [nth_error] in E. destruct ls as [|l2 ls]; [now destruct k|]. change (join (l :: l2 :: ls)) with (l ++ 10 :: join (l2 :: ls)). change (start (l :: l2 :: ls) (S k)) with (lenZ l + 1 + start (l2 :: ls) k). pose proof (start_pos k (l2 :: ls)) as SP. unfold lenZ at 1.
    replace (Z.to_nat (Z.of_nat (length l) + 1 + start (l2 :: ls) k + c)) with (length l + S (Z.to_nat (start (l2 :: ls) k + c)))%nat by lia. rewrite walk_line by exact F1. cbn [walk]. rewrite Z.eqb_refl. rewrite (IH (l2 :: ls) c ln (L + 1) _ F2 E R eq_refl). replace (L + 1 + Z.of_nat k) with (L + Z.of_nat (S k)) by lia. reflexivity.
Qed.
(* The compiler is at column c of line number k: it says so, counting lines from 1, and shows this line. *)
Theorem c67_position lines k c ln : Forall (fun l => ~ In 10 l) lines -> nth_error lines k = Some ln -> 0 <= c <= lenZ ln ->
  source_position (join lines) (start lines k + c) = Ok (Z.of_nat k + 1, c, ln).
Proof. intros F E R. unfold source_position. rewrite (walk_lines k lines c ln 1 _ F E R eq_refl). replace (1 + Z.of_nat k) with (Z.of_nat k + 1) by lia. reflexivity. Qed.

(* ---------------------------------------------------------------- codewords *)
Inductive mark := AtLine (n : Z) | AtCall (n : Z).    (* a statement at line n, a call at line n *)
Definition emit (m : mark) (last : Z * Z) : (Z * Z) * list Z := match m with AtLine n => push_debug WRD_LineNumber n last | AtCall n => call_debug n last end.
Fixpoint emit_all (ms : list mark) (last : Z * Z) : (Z * Z) * list Z :=
  match ms with [] => (last, []) | m :: ms => let (l1, a) := emit m last in let (l2, b) := emit_all ms l1 in (l2, a ++ b) end.
Definition mark_ok (m : mark) : Prop := match m with AtLine n | AtCall n => 0 < n < 16384 end.
(* the last codeword in the code is the one that is remembered *)
Definition remembered (last : Z * Z) (code : list Z) : Prop := (last = (0, 0) /\ code = []) \/ exists c, code = c ++ [Z.lor (fst last) (Z.land (snd last) 0x3FFF)].
Lemma push_remembered code param last before : remembered last before -> remembered (fst (push_debug code param last)) (before ++ snd (push_debug code param last)).
Proof. intros R. unfold push_debug. destruct (_ && _); cbn [fst snd]; [now rewrite app_nil_r|]. right. now exists before. Qed.
Lemma emit_remembered m last before : remembered last before -> remembered (fst (emit m last)) (before ++ snd (emit m last)).
Proof.
  intros R. destruct m; cbn [emit]; [now apply push_remembered|]. unfold call_debug. pose proof (push_remembered WRD_LineNumber n last before R) as R1. destruct (push_debug WRD_LineNumber n last) as [l1 a]. cbn [fst snd] in R1.
  pose proof (push_remembered WRD_FunctionCall WRD_ExternalFunction l1 _ R1) as R2. destruct (push_debug WRD_FunctionCall WRD_ExternalFunction l1) as [l2 b]. cbn [fst snd] in *. now rewrite app_assoc.
Qed.
Lemma emit_all_remembered : forall ms last before, remembered last before -> remembered (fst (emit_all ms last)) (before ++ snd (emit_all ms last)).
Proof.
  induction ms as [|m ms IH]; intros last before R; cbn [emit_all]; [cbn; now rewrite app_nil_r|]. pose proof (emit_remembered m last before R) as R1. destruct (emit m last) as [l1 a]. cbn [fst snd] in R1. pose proof (IH l1 _ R1) as R2. destruct (emit_all ms l1) as [l2 b]. cbn [fst snd] in *. now rewrite app_assoc.
Qed.
Lemma line_word : forallb (fun n => Z.lor 0x4000 (Z.land n 0x3FFF) =? 0x4000 + n) (map Z.of_nat (seq 0 (Z.to_nat 16384))) = true.
Proof. vm_compute. reflexivity. Qed.
Lemma line_word_spec n : 0 < n < 16384 -> Z.lor 0x4000 (Z.land n 0x3FFF) = 0x4000 + n.
Proof. intros R. pose proof (proj1 (forallb_forall _ _) line_word n) as X. cbv beta in X. apply Z.eqb_eq, X. apply in_map_iff. exists (Z.to_nat n). split; [lia|]. apply in_seq. lia. Qed.
(* Whatever was compiled before, after a statement of line n the last codeword in the code is that of line n: a line is
   left out only if the code is still at it. *)
Theorem c67_statement_line before n : 0 < n < 16384 -> exists c, snd (emit_all before (0, 0)) ++ snd (emit (AtLine n) (fst (emit_all before (0, 0)))) = c ++ [0x4000 + n].
Proof.
  intros R. pose proof (emit_all_remembered before (0, 0) [] (or_introl (conj eq_refl eq_refl))) as RM. cbn [app] in RM. destruct (emit_all before (0, 0)) as [last code]. cbn [fst snd] in *. cbn [emit]. unfold push_debug. rewrite (Z.mod_small n) by lia.
  destruct ((WRD_LineNumber =? fst last) && (n =? snd last)) eqn:E; cbn [snd].
  - apply andb_prop in E as [E1 E2]. rewrite app_nil_r. destruct RM as [[-> _]|(c & ->)]; [discriminate E1|]. exists c. apply Z.eqb_eq in E1, E2. rewrite <- E1, <- E2. unfold WRD_LineNumber. now rewrite line_word_spec.
  - exists code. unfold WRD_LineNumber. now rewrite line_word_spec.
Qed.
(* Every call has a codeword of its own right before it, behind that of its line: the linker, which overwrites the two
   bytes before a call with the number of the function (link.cpp:340-345), overwrites this codeword. *)
Theorem c67_call_codeword before n : 0 < n < 16384 -> exists c, snd (emit_all before (0, 0)) ++ snd (emit (AtCall n) (fst (emit_all before (0, 0)))) = c ++ [0x4000 + n; WRD_ExternalFunction] /\
  exists a, snd (emit (AtCall n) (fst (emit_all before (0, 0)))) = a ++ [WRD_ExternalFunction].
Proof.
  intros R. destruct (c67_statement_line before n R) as (c & E). cbn [emit] in *. unfold call_debug. destruct (emit_all before (0, 0)) as [last code]. cbn [fst snd] in *. 
  destruct (push_debug WRD_LineNumber n last) as [l1 a] eqn:P. cbn [snd] in E. assert (F : fst l1 = WRD_LineNumber).
  { unfold push_debug in P. destruct ((WRD_LineNumber =? fst last) && _) eqn:B; injection P as <- <-; [|reflexivity]. apply andb_prop in B as [B _]. now apply Z.eqb_eq in B. }
  unfold push_debug. rewrite F. change (WRD_FunctionCall =? WRD_LineNumber) with false. cbn [andb]. change (Z.lor WRD_FunctionCall (Z.land (WRD_ExternalFunction mod 65536) 16383)) with WRD_ExternalFunction. cbn [snd].
  exists c. split; [|now exists a]. rewrite app_assoc, E, <- app_assoc. reflexivity.
Qed.

(* Lines from 16384 on are reported as others. *)
Theorem c67_far_line_refuted : snd (push_debug WRD_LineNumber (16384 + 5) (0, 0)) = snd (push_debug WRD_LineNumber 5 (0, 0)).
Proof. vm_compute. reflexivity. Qed.

Example c67_error : source_position (join [[97; 59]; []; [98; 32; 61; 59]; [99]]) 8 = Ok (3, 4, [98; 32; 61; 59]).
Proof. vm_compute. reflexivity. Qed.
Example c67_same_line : snd (emit_all [AtLine 1; AtLine 1; AtCall 1; AtCall 1; AtLine 2] (0, 0)) = [0x4001; 0x0E00; 0x4001; 0x0E00; 0x4002].
Proof. vm_compute. reflexivity. Qed.

Print Assumptions c67_position.
Print Assumptions c67_statement_line.
Print Assumptions c67_call_codeword.
Print Assumptions c67_far_line_refuted.
