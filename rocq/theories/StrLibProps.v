(* C24: the str:: library. *)
From Verif Require Import Base BaseLemmas StdModel StrLibModel StrLibSpec StrLibProofs.
Ltac Zify.zify_post_hook ::= Z.div_mod_to_equations.

(* every string below 2 GB, every 32-bit argument, whatever fresh memory contains; a negative count
   or position means "all of it" *)
Theorem str_left_correct junk s n : is_s32 n -> lenZ s < 2147483648 ->
  wr_left junk [arg_str s; arg_num n] = RStr (spec_left s n).
Proof. apply left_ok. Qed.
Theorem str_right_correct junk s n : is_s32 n -> lenZ s < 2147483648 ->
  wr_right junk [arg_str s; arg_num n] = RStr (spec_right s n).
Proof. apply right_ok. Qed.
Theorem str_mid_partial junk s start n : is_s32 start -> is_s32 n -> s <> [] -> lenZ s < 2147483648 ->
  wr_mid junk [arg_str s; arg_num start; arg_num n] = RStr (spec_mid s start n).
Proof. apply mid_ok. Qed.
(* mid of the empty string is not a string *)
Theorem str_mid_empty_refuted : forall junk start n, wr_mid junk [arg_str []; arg_num start; arg_num n] = RInt 0 /\ spec_mid [] start n = [].
Proof. intros. split; [reflexivity|]. unfold spec_mid, spec_left. now rewrite skipn_nil, firstn_nil. Qed.
Theorem str_concat_correct junk a b : wr_concat junk [arg_str a; arg_str b] = RStr (a ++ b).
Proof. apply concat_ok. Qed.
Theorem str_insert_correct junk a b p : is_s32 p -> lenZ a < 2147483648 ->
  wr_insert junk [arg_str a; arg_str b; arg_num p] = RStr (spec_insert a b p).
Proof. apply insert_ok. Qed.
Theorem str_chr_correct s c : exists i, wr_strchr [arg_str s; arg_num c] = RInt i /\ first_at s (u8 c) i.
Proof. exists (find_char s (u8 c) 0). split; [reflexivity|apply strchr_first]. Qed.
Theorem str_len_correct s : wr_strlen [arg_str s] = RInt (lenZ s).
Proof. reflexivity. Qed.
Theorem str_trim_partial junk s : ascii s ->
  (exists t, wr_trimleft junk [arg_str s] = RStr t /\ trims_left s t) /\
  (exists t, wr_trimright junk [arg_str s] = RStr t /\ trims_right s t) /\
  (exists t, wr_trim junk [arg_str s] = RStr t /\ trims s t).
Proof. intros A. split; [now apply trimleft_ok|]. split; [now apply trimright_ok|now apply trim_ok]. Qed.
Theorem str_case_partial s : ascii s ->
  wr_tolower [arg_str s] = RStr (map lower s) /\ wr_toupper [arg_str s] = RStr (map upper s).
Proof.
  intros A. cbn [wr_tolower wr_toupper arg_str]. split.
  - rewrite (map_chars_ok c_tolower lower s); auto. intros c Hc. unfold c_tolower, lower. now replace (c <? 128) with true by lia.
  - rewrite (map_chars_ok c_toupper upper s); auto. intros c Hc. unfold c_toupper, upper. now replace (c <? 128) with true by lia.
Qed.
(* a string with a byte above 127 is handed to isspace/tolower as a negative char *)
Theorem str_high_bytes_refuted : exists s, bytes_ok s /\ forall junk, wr_trim junk [arg_str s] = UB /\ wr_tolower [arg_str s] = UB.
Proof. exists [195]. split; [repeat constructor; unfold is_byte; lia|]. intros. split; reflexivity. Qed.

Example trim_example : wr_trim 170 [arg_str [32; 9; 97; 32; 98; 32]] = RStr [97; 32; 98] /\ ascii [32; 9; 97; 32; 98; 32].
Proof. split; [reflexivity|]. repeat constructor; lia. Qed.
Example trim_all_blank : wr_trim 170 [arg_str [32; 32]] = RStr [].
Proof. reflexivity. Qed.
Example mid_example : wr_mid 170 [arg_str [97; 98; 99; 100]; arg_num 1; arg_num (-1)] = RStr [98; 99; 100].
Proof. vm_compute. reflexivity. Qed.

Print Assumptions str_left_correct.
Print Assumptions str_right_correct.
Print Assumptions str_mid_partial.
Print Assumptions str_mid_empty_refuted.
Print Assumptions str_concat_correct.
Print Assumptions str_insert_correct.
Print Assumptions str_chr_correct.
Print Assumptions str_len_correct.
Print Assumptions str_trim_partial.
Print Assumptions str_case_partial.
Print Assumptions str_high_bytes_refuted.
