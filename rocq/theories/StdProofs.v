From Verif Require Import Base BaseLemmas StdModel StdSpec.
Ltac Zify.zify_post_hook ::= Z.to_euclidean_division_equations.

Lemma chk_some x : -2147483648 <= x <= 2147483647 -> chk x = Some x.
Proof. intros. unfold chk. now replace ((-2147483648 <=? x) && (x <=? 2147483647)) with true by lia. Qed.

Lemma fold_dec s : forall a, fold_left (fun acc c => acc * 10 + (c - 48)) s a = a * 10 ^ lenZ s + decimal_value s.
Proof.
  unfold decimal_value. induction s as [|c s IH]; intros a; cbn [fold_left].
  - unfold lenZ. cbn. lia.
  - rewrite IH, (IH (0 * 10 + (c - 48))). replace (lenZ (c :: s)) with (lenZ s + 1) by (unfold lenZ; cbn [length]; lia).
    rewrite Z.pow_add_r by (unfold lenZ; lia). change (10 ^ 1) with 10. ring.
Qed.
Lemma dec_snoc s c : decimal_value (s ++ [c]) = decimal_value s * 10 + (c - 48).
Proof. unfold decimal_value. rewrite fold_left_app. reflexivity. Qed.

Lemma digits_ok room : forall v, 0 <= v < 10 ^ Z.of_nat room -> (0 < room)%nat -> exists ds,
  itoa_digits room v = Some ds /\ canonical_nat v (rev ds) /\ (length ds <= room)%nat.
Proof.
  induction room as [|r IH]; intros v Hv Hr; [lia|]. cbn [itoa_digits].
  destruct (Z.eqb_spec (Z.quot v 10) 0) as [E|E].
  - eexists. split; [reflexivity|]. split; [|cbn; lia]. cbn [rev app]. assert (V: Z.rem v 10 = v) by lia. rewrite V.
    repeat split.
    + constructor; [lia|constructor].
    + discriminate.
    + unfold decimal_value. cbn. lia.
    + cbn. intros N. intros Q. apply N. f_equal. lia.
  - assert (Hq: 0 <= Z.quot v 10 < 10 ^ Z.of_nat r).
    { rewrite Nat2Z.inj_succ, Z.pow_succ_r in Hv by lia. generalize dependent (10 ^ Z.of_nat r). intros. lia. }
    destruct r as [|r']; [cbn in Hq; lia|].
    destruct (IH _ Hq ltac:(lia)) as (ds&E1&(C1&C2&C3&C4)&L). rewrite E1. eexists. split; [reflexivity|]. split; [|cbn [length]; lia].
    cbn [rev]. assert (D: 48 <= Z.rem v 10 + 48 <= 57) by lia. repeat split.
    + apply Forall_app. split; [exact C1|]. constructor; [exact D|constructor].
    + destruct (rev ds); discriminate.
    + rewrite dec_snoc, C3. lia.
    + intros _. destruct (rev ds) as [|c t] eqn:Er; [congruence|]. cbn [app hd].
      destruct (list_eq_dec Z.eq_dec (c :: t) [48]) as [Q|N]; [|exact (C4 N)].
      injection Q as -> ->. unfold decimal_value in C3. cbn in C3. lia.
Qed.

Lemma digits_mono n : forall m v ds, (n <= m)%nat -> itoa_digits n v = Some ds -> itoa_digits m v = Some ds.
Proof.
  induction n as [|n IH]; intros m v ds Hm H; [discriminate|]. destruct m as [|m]; [lia|]. cbn [itoa_digits] in *.
  destruct (Z.quot v 10 =? 0); [exact H|]. destruct (itoa_digits n (Z.quot v 10)) eqn:E; [|discriminate]. now rewrite (IH m _ _ ltac:(lia) E).
Qed.
Lemma digits_len v : 0 <= v <= 2147483647 -> exists ds,
  itoa_digits 12 v = Some ds /\ canonical_nat v (rev ds) /\ (length ds <= 10)%nat.
Proof.
  intros Hv. destruct (digits_ok 10 v) as (ds&E&C&L); [cbn; lia|lia|].
  exists ds. split; [|auto]. eapply digits_mono; [|exact E]. lia.
Qed.
Lemma itoa_text i len : is_s32 i -> i <> -2147483648 -> (11 <= len)%nat -> exists s,
  wr_itoa i len = Some s /\ decimal_text i s /\ (length s <= 11)%nat.
Proof.
  unfold is_s32, wr_itoa, decimal_text. intros Hi Hm Hl. destruct (i <? 0) eqn:E.
  - rewrite chk_some by lia. destruct (digits_len (- i)) as (ds&->&C&L); [lia|]. eexists. split; [reflexivity|].
    rewrite firstn_all2 by (rewrite rev_length; cbn [length]; lia). split; [exists (rev ds); auto|]. cbn [app length]. rewrite rev_length. lia.
  - destruct (digits_len i) as (ds&->&C&L); [lia|]. eexists. split; [reflexivity|].
    rewrite firstn_all2 by (rewrite rev_length; cbn [length]; lia). split; [exact C|]. cbn [app]. rewrite rev_length. lia.
Qed.
Lemma itoa_bound i len s : (1 <= len)%nat -> wr_itoa i len = Some s -> (length s <= len)%nat.
Proof.
  unfold wr_itoa. intros Hl. destruct (i <? 0); [destruct (chk (- i)); [|discriminate]|];
  (destruct (itoa_digits 12 _); [|discriminate]); intros [= <-]; cbn [app length]; rewrite firstn_length; cbn; lia.
Qed.

Lemma digits_val_all s : forall acc, all_digits s -> digits_val acc s = fold_left (fun acc c => acc * 10 + (c - 48)) s acc.
Proof.
  induction s as [|c s IH]; intros acc H; [reflexivity|]. inversion H; subst. cbn [digits_val fold_left].
  unfold is_digit. replace ((48 <=? c) && (c <=? 57)) with true by lia. now apply IH.
Qed.
Lemma strtol_nat n s : canonical_nat n s -> 0 <= n <= 2147483648 -> strtol10 s = n /\ strtol10 (45 :: s) = - n.
Proof.
  intros (A&N&V&_) Hn. pose proof (digits_val_all s 0 A) as D. fold (decimal_value s) in D. rewrite V in D.
  split.
  - unfold strtol10. destruct s as [|c t]; [congruence|]. inversion A; subst. cbn [skip_space].
    unfold is_space. replace ((c =? 32) || (9 <=? c) && (c <=? 13)) with false by lia.
    assert (G: clamp_long (digits_val 0 (c :: t)) = digits_val 0 (c :: t)) by (unfold clamp_long; lia).
    destruct c as [|p|p]; try lia. rewrite <- D.
    repeat (match goal with |- context [match ?q with _ => _ end] => is_var q; destruct q end; try lia; try exact G).
  - unfold strtol10. cbn [skip_space]. change (is_space 45) with false. cbv iota. rewrite D. unfold clamp_long. lia.
Qed.
Lemma decimal_text_parse i s : is_s32 i -> decimal_text i s -> strtol10 s = i.
Proof.
  unfold decimal_text, is_s32. intros Hi H. destruct (i <? 0) eqn:E.
  - destruct H as (t&->&C). destruct (strtol_nat _ _ C) as [_ ->]; lia.
  - destruct (strtol_nat _ _ H) as [-> _]; lia.
Qed.

(* ---- random numbers ---- *)
Lemma rand_step_ok s : is_s32 s -> exists s', rand_step s = Some s' /\ is_s32 s' /\
  (exists q, s' = 16807 * s - 2147483647 * q) /\ -2147483647 <= s' <= 2147483647.
Proof.
  unfold is_s32, rand_step. intros Hs.
  assert (Q: exists k r, Z.quot s 127773 = k /\ s = 127773 * k + r /\ -16808 <= k <= 16808 /\ -127773 < r < 127773 /\ (0 <= s -> 0 <= r /\ 0 <= k) /\ (s <= 0 -> r <= 0 /\ k <= 0)
           /\ (k = 16807 -> r <= 2836) /\ (k = -16807 -> -2837 <= r) /\ -16807 <= k <= 16807).
  { exists (Z.quot s 127773), (Z.rem s 127773). lia. }
  destruct Q as (k&r&->&->&Hk&Hr&P&N&K1&K2&K3).
  rewrite (chk_some (k * 127773)) by lia.
  replace (127773 * k + r - k * 127773) with r by lia. rewrite (chk_some r) by lia.
  assert (R: -2147464204 <= 16807 * r <= 2147464204) by lia.
  rewrite (chk_some (16807 * r)) by lia. rewrite (chk_some (2836 * k)) by lia.
  assert (B: -2147483647 <= 16807 * r - 2836 * k <= 2147483647).
  { destruct (Z_le_gt_dec 0 (127773 * k + r)) as [G|G].
    - destruct (P G). lia.
    - destruct (N ltac:(lia)). lia. }
  rewrite chk_some by lia. eexists. split; [reflexivity|]. split; [lia|]. split; [|lia]. exists k. lia.
Qed.
Lemma rand_range seed from to : is_s32 seed -> is_s32 from -> is_s32 to -> from <= to -> to - from < 2147483647 ->
  exists s r, wr_randEx seed from to = Some (s, r) /\ from <= r <= to /\ rand_step seed = Some s.
Proof.
  unfold is_s32. intros Hs Hf Ht L D. destruct (rand_step_ok seed Hs) as (s&E&_&_). unfold wr_randEx. rewrite E.
  destruct (to <=? from) eqn:C; [exists s, from; repeat split; auto; lia|].
  rewrite chk_some by lia. rewrite chk_some by lia. eexists _, _. split; [reflexivity|]. split; [|reflexivity].
  rewrite (u32_id (to - from + 1)) by (unfold is_u32; lia).
  assert (M: 0 <= u32 s mod (to - from + 1) < to - from + 1) by (apply Z.mod_pos_bound; lia).
  generalize dependent (u32 s mod (to - from + 1)). intros m M.
  unfold s32. rewrite (u32_id (u32 (m + from))) by apply u32_range. unfold u32.
  destruct (Z.ltb_spec ((m + from) mod 4294967296) 2147483648); lia.
Qed.

(* ---- the generator's period ---- *)
From Coq Require Import Znumtheory Zpow_facts.
Definition P31 : Z := 2147483647.
Lemma step_mod s : is_s32 s -> exists s', rand_step s = Some s' /\ is_s32 s' /\ s' mod P31 = (16807 * s) mod P31.
Proof.
  intros H. destruct (rand_step_ok s H) as (s'&E&R&(q&Q)&_). exists s'. split; [exact E|]. split; [exact R|]. rewrite Q.
  replace (16807 * s - 2147483647 * q) with (16807 * s + (- q) * P31) by (unfold P31; ring). apply Z_mod_plus_full.
Qed.
Lemma iter_mod n : forall s, is_s32 s -> exists s', rand_iter n s = Some s' /\ is_s32 s' /\ s' mod P31 = (16807 ^ Z.of_nat n * s) mod P31.
Proof.
  induction n as [|n IH]; intros s H; cbn [rand_iter].
  - exists s. split; [reflexivity|]. split; [exact H|]. change (16807 ^ Z.of_nat 0) with 1. now rewrite Z.mul_1_l.
  - destruct (step_mod s H) as (s1&->&H1&M1). destruct (IH s1 H1) as (s2&E2&H2&M2). exists s2. split; [exact E2|]. split; [exact H2|].
    rewrite M2, Nat2Z.inj_succ, Z.pow_succ_r by lia. rewrite <- Z.mul_mod_idemp_r, M1, Z.mul_mod_idemp_r by discriminate. f_equal. ring.
Qed.
Definition pow1 (n : Z) : Prop := (16807 ^ n) mod P31 = 1.
Lemma pow1_compute n : 0 < n -> Zpow_mod 16807 n P31 =? 1 = true -> pow1 n.
Proof. intros Hn H. unfold pow1. rewrite <- Zpow_mod_correct by discriminate. lia. Qed.
Lemma not_pow1_compute n : 0 < n -> Zpow_mod 16807 n P31 =? 1 = false -> ~ pow1 n.
Proof. intros Hn H. unfold pow1. rewrite <- Zpow_mod_correct by discriminate. lia. Qed.
Lemma pow1_mul n k : 0 <= n -> 0 <= k -> pow1 n -> pow1 (n * k).
Proof.
  unfold pow1. intros Hn Hk H. rewrite Z.pow_mul_r by auto. rewrite Zpower_mod, H by (unfold P31; lia). rewrite Z.pow_1_l by auto. reflexivity.
Qed.
Lemma pow1_add n k : 0 <= n -> 0 <= k -> pow1 n -> (pow1 (n + k) <-> pow1 k).
Proof.
  unfold pow1. intros Hn Hk H. rewrite Z.pow_add_r by auto. rewrite <- Z.mul_mod_idemp_l, H, Z.mul_1_l by discriminate. reflexivity.
Qed.
Lemma pow1_gcd b : forall n, (Z.abs_nat b < n)%nat -> forall a, 0 <= a -> 0 <= b -> pow1 a -> pow1 b -> pow1 (Z.gcd a b).
Proof.
  intros n. revert b. induction n as [|n IH]; intros b Hn a Ha Hb Pa Pb; [lia|].
  destruct (Z.eq_dec b 0) as [->|N].
  - rewrite Z.gcd_0_r, Z.abs_eq by auto. exact Pa.
  - rewrite Z.gcd_comm, <- Z.gcd_mod by auto. rewrite Z.gcd_comm.
    assert (R: 0 <= a mod b < b) by (apply Z.mod_pos_bound; lia).
    apply IH; auto; try lia.
    assert (D: 0 <= a / b) by (apply Z.div_pos; lia).
    assert (E: a = b * (a / b) + a mod b) by (apply Z.div_mod; auto).
    rewrite E in Pa at 1. apply pow1_add in Pa; [exact Pa|apply Z.mul_nonneg_nonneg; lia|lia|apply pow1_mul; auto].
Qed.
Fixpoint no_div (n : nat) (q : Z) : bool :=
  match n with O => true | S m => (if Z.of_nat n <? 2 then true else negb (q mod Z.of_nat n =? 0)) && no_div m q end.
Lemma no_div_spec n q : no_div n q = true -> forall d, 2 <= d <= Z.of_nat n -> ~ (d | q).
Proof.
  induction n as [|n IH]; intros H d Hd; [lia|]. cbn [no_div] in H. apply andb_prop in H. destruct H as [H1 H2].
  destruct (Z.eq_dec d (Z.of_nat (S n))) as [->|N].
  - destruct (Z.ltb_spec (Z.of_nat (S n)) 2); [lia|]. intros D. apply Z.mod_divide in D; [|lia]. rewrite D in H1. discriminate.
  - apply (IH H2). lia.
Qed.
Lemma prime_compute q : 1 < q -> no_div (Z.to_nat (q - 1)) q = true -> prime q.
Proof.
  intros Hq H. apply prime_alt. split; [lia|]. intros d Hd D. apply (no_div_spec _ _ H d); auto. lia.
Qed.
Lemma rel_or_div q e : prime q -> (q | e) \/ rel_prime e q.
Proof. intros P. destruct (Zdivide_dec q e) as [D|D]; [auto|]. right. apply rel_prime_sym. apply prime_rel_prime; auto. Qed.
(* a proper divisor of p-1 divides (p-1)/q for one of its prime factors q *)
Lemma proper_divisor d : 0 < d -> (d | P31 - 1) -> d <> P31 - 1 ->
  exists q, In q [2; 3; 7; 11; 31; 151; 331] /\ (d | (P31 - 1) / q) .
Proof.
  intros Hd [e He] Hne.
  assert (He1: e <> 1) by (intros ->; apply Hne; lia). assert (He0: 0 < e) by (unfold P31 in He; nia).
  assert (K: forall q, prime q -> In q [2;3;7;11;31;151;331] -> (q | e) -> exists q, In q [2; 3; 7; 11; 31; 151; 331] /\ (d | (P31 - 1) / q)).
  { intros q Pq Iq [f Hf]. exists q. split; [exact Iq|]. exists f. rewrite He, Hf. pose proof (prime_ge_2 q Pq).
    replace (f * q * d) with (f * d * q) by ring. apply Z.div_mul. lia. }
  assert (Q2: prime 2) by (apply prime_compute; [lia|vm_compute; reflexivity]).
  destruct (rel_or_div 2 e Q2) as [D|R2]; [apply (K 2 Q2); [cbn; auto 10|exact D]|].
  assert (Q3: prime 3) by (apply prime_compute; [lia|vm_compute; reflexivity]).
  destruct (rel_or_div 3 e Q3) as [D|R3]; [apply (K 3 Q3); [cbn; auto 10|exact D]|].
  assert (Q7: prime 7) by (apply prime_compute; [lia|vm_compute; reflexivity]).
  destruct (rel_or_div 7 e Q7) as [D|R7]; [apply (K 7 Q7); [cbn; auto 10|exact D]|].
  assert (Q11: prime 11) by (apply prime_compute; [lia|vm_compute; reflexivity]).
  destruct (rel_or_div 11 e Q11) as [D|R11]; [apply (K 11 Q11); [cbn; auto 10|exact D]|].
  assert (Q31: prime 31) by (apply prime_compute; [lia|vm_compute; reflexivity]).
  destruct (rel_or_div 31 e Q31) as [D|R31]; [apply (K 31 Q31); [cbn; auto 10|exact D]|].
  assert (Q151: prime 151) by (apply prime_compute; [lia|vm_compute; reflexivity]).
  destruct (rel_or_div 151 e Q151) as [D|R151]; [apply (K 151 Q151); [cbn; auto 10|exact D]|].
  assert (Q331: prime 331) by (apply prime_compute; [lia|vm_compute; reflexivity]).
  destruct (rel_or_div 331 e Q331) as [D|R331]; [apply (K 331 Q331); [cbn; auto 10|exact D]|].
  assert (R: rel_prime e (P31 - 1)).
  { change (P31 - 1) with (2 * (3 * (3 * (7 * (11 * (31 * (151 * 331))))))). repeat apply rel_prime_mult; auto. }
  exfalso. apply He1. destruct R as [_ _ G]. apply Z.divide_1_r_nonneg; [lia|]. apply G; [exists 1; ring|exists d; rewrite He; ring].
Qed.
Lemma order_16807 n : 0 < n < P31 - 1 -> ~ pow1 n.
Proof.
  intros Hn P. assert (PN: pow1 (P31 - 1)) by (apply pow1_compute; [reflexivity|vm_compute; reflexivity]).
  pose proof (pow1_gcd n (S (Z.abs_nat n)) ltac:(lia) (P31 - 1) ltac:(unfold P31; lia) ltac:(lia) PN P) as G.
  set (d := Z.gcd (P31 - 1) n) in *.
  assert (Dd: (d | P31 - 1)) by apply Z.gcd_divide_l. assert (Dn: (d | n)) by apply Z.gcd_divide_r.
  assert (Hd: 0 < d). { pose proof (Z.gcd_nonneg (P31 - 1) n). assert (d <> 0) by (intros Z0; apply Z.gcd_eq_0_r in Z0; lia). unfold d in *. lia. }
  assert (Hle: d <= n) by (apply Z.divide_pos_le; auto; lia).
  destruct (proper_divisor d Hd Dd ltac:(lia)) as (q&Iq&(m&Hm)).
  assert (Q: pow1 ((P31 - 1) / q)).
  { rewrite Hm, Z.mul_comm. apply pow1_mul; [lia| |exact G]. assert (0 <= (P31 - 1) / q). { apply Z.div_pos; [unfold P31; lia|]. cbn in Iq. lia. } nia. }
  revert Q. clear - Iq. cbn in Iq. repeat (destruct Iq as [<-|Iq]; [apply not_pow1_compute; [reflexivity|vm_compute; reflexivity]|]). destruct Iq.
Qed.
Lemma rand_period seed n s : is_s32 seed -> rel_prime seed P31 -> 0 < Z.of_nat n < P31 - 1 ->
  rand_iter n seed = Some s -> s mod P31 <> seed mod P31.
Proof.
  intros Hs G Hn E Q. destruct (iter_mod n seed Hs) as (s'&E'&_&M). rewrite E in E'. injection E' as <-. rewrite Q in M.
  apply (order_16807 (Z.of_nat n) Hn). unfold pow1.
  assert (D: (P31 | (16807 ^ Z.of_nat n - 1) * seed)).
  { apply Z.mod_divide; [discriminate|]. replace ((16807 ^ Z.of_nat n - 1) * seed) with (16807 ^ Z.of_nat n * seed - seed) by ring.
    rewrite Zminus_mod, <- M, Z.sub_diag. reflexivity. }
  rewrite Z.mul_comm in D. apply Gauss in D; [|now apply rel_prime_sym]. destruct D as [k Hk].
  replace (16807 ^ Z.of_nat n) with (1 + k * P31) by lia. rewrite Z_mod_plus_full. reflexivity.
Qed.
