From Verif Require Import Base BaseLemmas HashModel HashProofs HashTableModel SerialModel SerialSpec.
Ltac Zify.zify_post_hook ::= Z.div_mod_to_equations.

Definition slotP (P : sval -> Prop) (s : option (Z * sval * sval)) : Prop :=
  match s with None => True | Some (_, x, k) => P x /\ P k end.
Section SvalInd.
Variable P : sval -> Prop.
Hypothesis Hi : forall u, P (SInt u).
Hypothesis Hf : forall u, P (SFlt u).
Hypothesis Hs : forall bs, P (SStr bs).
Hypothesis Ha : forall vs, Forall P vs -> P (SArr vs).
Hypothesis Hh : forall n ss, Forall (slotP P) ss -> P (SHash n ss).
Hypothesis Ho : forall x, P (SOther x).
Fixpoint sval_ind' (v : sval) : P v :=
  match v with
  | SInt u => Hi u | SFlt u => Hf u | SStr b => Hs b | SOther x => Ho x
  | SArr vs => Ha vs ((fix go l : Forall P l := match l with [] => Forall_nil _ | x :: t => Forall_cons _ (sval_ind' x) (go t) end) vs)
  | SHash n ss => Hh n ss ((fix go (l : list (option (Z * sval * sval))) : Forall (slotP P) l :=
      match l with
      | [] => Forall_nil _
      | s :: t => @Forall_cons _ (slotP P) s t
          (match s return slotP P s with None => I | Some (h, x, k) => conj (sval_ind' x) (sval_ind' k) end) (go t)
      end) ss)
  end.
End SvalInd.

(* the nested fixes as separate functions *)
Fixpoint ser_elems (l : list sval) : list Z * bool :=
  match l with
  | [] => ([], true)
  | x :: t => let '(b, ok) := ser x in
              if ok then let '(b2, ok2) := ser_elems t in (b ++ b2, ok2) else (b, false)
  end.
Fixpoint ser_entries (l : list (option (Z * sval * sval))) : list Z :=
  match l with
  | [] => []
  | None :: t => 0 :: ser_entries t
  | Some (_, x, k) :: t => 1 :: fst (ser x) ++ fst (ser k) ++ ser_entries t
  end.
Lemma ser_arr vs : ser (SArr vs) = let '(b, ok) := ser_elems vs in (T_EX :: X_ARRAY :: S_VALUE :: le16 (lenZ vs) ++ b, ok).
Proof. reflexivity. Qed.
Lemma ser_hash n ss : ser (SHash n ss) = (T_EX :: X_HASH :: le16 (lenZ ss) ++ ser_entries ss, true).
Proof. reflexivity. Qed.

Lemma rd8_cons x r : rd8 (x :: r) = DOk x r.
Proof. reflexivity. Qed.
Lemma rd16_cons a b r : rd16 (a :: b :: r) = DOk (a + 256 * b) r.
Proof. reflexivity. Qed.
Lemma rd32_cons a b c d r : rd32 (a :: b :: c :: d :: r) = DOk (a + 256 * b + 65536 * c + 16777216 * d) r.
Proof. reflexivity. Qed.
Lemma rd8_cases bs : (rd8 bs = DFail) \/ exists x r, bs = x :: r /\ rd8 bs = DOk x r.
Proof. destruct bs as [|a t]; [now left|right]. exists a, t. auto. Qed.
Lemma rd16_cases bs : (rd16 bs = DFail) \/ exists a b r, bs = a :: b :: r /\ rd16 bs = DOk (a + 256 * b) r.
Proof. destruct bs as [|a [|b t]]; [now left|now left|right]. exists a, b, t. auto. Qed.
Lemma rd32_cases bs : (rd32 bs = DFail) \/ exists a b c d r, bs = a :: b :: c :: d :: r /\ exists u, rd32 bs = DOk u r.
Proof. destruct bs as [|a [|b [|c [|d t]]]]; [now left|now left|now left|now left|right]. exists a, b, c, d, t. split; [reflexivity|]. rewrite rd32_cons. eauto. Qed.
Lemma rd_cases n bs : (rd n bs = DFail) \/ exists c r, bs = c ++ r /\ length c = n /\ rd n bs = DOk c r.
Proof.
  unfold rd. destruct (n <=? length bs)%nat eqn:E; [right|now left].
  exists (firstn n bs), (skipn n bs). rewrite firstn_skipn. split; [reflexivity|].
  assert (L: length (firstn n bs) = n) by (rewrite firstn_length; lia).
  split; [exact L|]. unfold copy. rewrite L, Nat.eqb_refl. reflexivity.
Qed.
Lemma rd16_le n r : 0 <= n < 65536 -> rd16 (le16 n ++ r) = DOk n r.
Proof. intros. unfold le16. cbn [app]. rewrite rd16_cons. f_equal. lia. Qed.
Lemma rd32_le n r : is_u32 n -> rd32 (le32 n ++ r) = DOk n r.
Proof. unfold is_u32. intros. unfold le32. cbn [app]. rewrite rd32_cons. f_equal. lia. Qed.
Lemma rd_app a r : rd (length a) (a ++ r) = DOk a r.
Proof.
  unfold rd, copy. rewrite app_length. replace (length a <=? length a + length r)%nat with true by lia.
  rewrite firstn_app, Nat.sub_diag, firstn_all. cbn [firstn]. rewrite app_nil_r, Nat.eqb_refl.
  rewrite skipn_app, Nat.sub_diag, skipn_all. reflexivity.
Qed.
Lemma prime_mod p : In p prime_table -> hash_mod (p - 1) = Some p.
Proof. intros H. repeat (destruct H as [<-|H]; [reflexivity|]). destruct H. Qed.
Lemma prime_range p : In p prime_table -> 0 < p < 65536.
Proof. intros H. repeat (destruct H as [<-|H]; [lia|]). destruct H. Qed.

Lemma F2_length {A B} (R : A -> B -> Prop) a b : Forall2 R a b -> length a = length b.
Proof. induction 1; cbn; auto. Qed.

Section R.
Variable oh : sval -> Z.
Lemma key_hash_plain k : plain_key k -> key_hash oh k = key_hash (fun _ => 0) k.
Proof. destruct k; cbn; auto; contradiction. Qed.

Lemma same_key_hash k k' : plain_key k -> same k k' -> key_hash oh k' = key_hash oh k.
Proof. intros H S. destruct S; cbn in *; auto; contradiction. Qed.

Lemma roundtrip v : good v -> snd (ser v) = true /\
  forall n rest, (length (fst (ser v)) <= n)%nat -> exists v', deser oh n (fst (ser v) ++ rest) = DOk v' rest /\ same v v'.
Proof.
  induction v as [u|u|bs|vs IH|cnt ss IH|x] using sval_ind'; intros G; inversion G as [? Hu|? Hu|? Hb Hl|? Hl Hg|? ? Hp Hg]; subst.
  - split; [reflexivity|]. intros n rest Hn. destruct n as [|n]; [cbn in Hn; lia|]. exists (SInt u). split; [|constructor].
    cbn [ser fst deser]. rewrite <- app_comm_cons. rewrite rd8_cons. change ((T_INT =? T_INT) || (T_INT =? T_FLOAT)) with true. cbv iota.
    now rewrite rd32_le.
  - split; [reflexivity|]. intros n rest Hn. destruct n as [|n]; [cbn in Hn; lia|]. exists (SFlt u). split; [|constructor].
    cbn [ser fst deser]. rewrite <- app_comm_cons. rewrite rd8_cons. change ((T_FLOAT =? T_INT) || (T_FLOAT =? T_FLOAT)) with true. cbv iota.
    now rewrite rd32_le.
  - split; [reflexivity|]. intros n rest Hn. destruct n as [|n]; [cbn in Hn; lia|]. exists (SStr bs). split; [|constructor].
    cbn [ser fst]. rewrite <- !app_comm_cons, <- app_assoc. cbn [deser]; rewrite ?rd8_cons.
    change ((T_EX =? T_INT) || (T_EX =? T_FLOAT)) with false. cbv iota.
    change (T_EX =? T_EX) with true. cbv iota. change (X_ARRAY =? X_ARRAY) with true. cbv iota.
    rewrite rd16_le by (unfold lenZ in *; lia). change (S_CHAR =? S_CHAR) with true. cbv iota.
    unfold lenZ. rewrite Nat2Z.id, rd_app. reflexivity.
  - assert (E: snd (ser_elems vs) = true /\ forall n rest, (length (fst (ser_elems vs)) <= n)%nat ->
      exists vs', de_elems (deser oh n) (length vs) (fst (ser_elems vs) ++ rest) = DOk vs' rest /\ Forall2 same vs vs').
    { clear Hl G. induction vs as [|v vs IHv].
      - split; [reflexivity|]. intros. exists []. split; [reflexivity|constructor].
      - inversion IH as [|? ? I1 I2]; subst. inversion Hg as [|? ? G1 G2]; subst.
        destruct (IHv I2 G2) as (F2&R2). destruct (I1 G1) as (F1&R1).
        cbn [ser_elems length]. destruct (ser v) as [b ok] eqn:Es. cbn [snd fst] in *. subst ok.
        destruct (ser_elems vs) as [b2 ok2] eqn:Ee. cbn [snd fst] in *. subst ok2. split; [reflexivity|].
        intros n rest Hn. rewrite app_length in Hn. destruct (R1 n (b2 ++ rest) ltac:(lia)) as (v'&D1&S1).
        destruct (R2 n rest ltac:(lia)) as (vs'&D2&S2). exists (v' :: vs'). cbn [de_elems]. rewrite <- app_assoc, D1, D2.
        split; [reflexivity|constructor; auto]. }
    destruct E as (F&R). rewrite ser_arr. destruct (ser_elems vs) as [b ok]. cbn [fst snd] in *. split; [exact F|].
    intros n rest Hn. cbn [length] in Hn. rewrite app_length in Hn. destruct n as [|n]; [lia|].
    destruct (R n rest ltac:(lia)) as (vs'&D&S). exists (SArr vs'). split; [|now constructor].
    rewrite <- !app_comm_cons, <- app_assoc. cbn [deser]; rewrite ?rd8_cons.
    change ((T_EX =? T_INT) || (T_EX =? T_FLOAT)) with false. cbv iota.
    change (T_EX =? T_EX) with true. cbv iota. change (X_ARRAY =? X_ARRAY) with true. cbv iota.
    rewrite rd16_le by (unfold lenZ in *; lia). change (S_VALUE =? S_CHAR) with false. change (S_VALUE =? S_VALUE) with true. cbv iota.
    unfold lenZ. rewrite Nat2Z.id, D. reflexivity.
  - assert (E: forall n rest, (length (ser_entries ss) <= n)%nat ->
      exists ss', de_slots oh (deser oh n) (length ss) (ser_entries ss ++ rest) = DOk ss' rest /\ Forall2 (slot_same same) ss ss').
    { clear Hp G. induction ss as [|s ss IHs].
      - intros. exists []. split; [reflexivity|constructor].
      - inversion IH as [|? ? I1 I2]; subst. inversion Hg as [|? ? G1 G2]; subst.
        pose proof (IHs I2 G2) as R2. destruct s as [[[h x] k]|].
        + destruct I1 as [Ix Ik]. inversion G1 as [|? ? ? Gx Gk Pk Eh Nh]; subst.
          destruct (Ix Gx) as (_&R3). destruct (Ik Gk) as (_&R4).
          intros n rest Hn. cbn [ser_entries length] in Hn. rewrite !app_length in Hn.
          destruct (R3 n (fst (ser k) ++ ser_entries ss ++ rest) ltac:(lia)) as (x'&D3&S3).
          destruct (R4 n (ser_entries ss ++ rest) ltac:(lia)) as (k'&D4&S4).
          destruct (R2 n rest ltac:(lia)) as (ss'&D2&S2). exists (Some (key_hash (fun _ => 0) k, x', k') :: ss').
          cbn [ser_entries length de_slots]. rewrite <- app_comm_cons, <- !app_assoc. rewrite rd8_cons. change (1 =? 0) with false. cbv iota zeta.
          rewrite D3, D4. unfold slot_of. rewrite (same_key_hash k k' Pk S4), key_hash_plain by auto.
          replace (key_hash (fun _ => 0) k =? NULL_HASH) with false by lia. rewrite D2. split; [reflexivity|]. constructor; auto. now constructor.
        + intros n rest Hn. cbn [ser_entries length] in Hn. destruct (R2 n rest ltac:(lia)) as (ss'&D2&S2). exists (None :: ss').
          cbn [ser_entries length de_slots]. rewrite <- app_comm_cons. rewrite rd8_cons. change (0 =? 0) with true. cbv iota zeta. rewrite D2.
          split; [reflexivity|]. constructor; auto. constructor. }
    rewrite ser_hash. split; [reflexivity|]. intros m rest Hm. cbn [fst length] in Hm. rewrite app_length in Hm. destruct m as [|m]; [lia|].
    destruct (E m rest ltac:(lia)) as (ss'&D&S). exists (SHash (lenZ ss - 1) ss'). split; [|now constructor].
    cbn [fst]. rewrite <- !app_comm_cons, <- app_assoc. cbn [deser]; rewrite ?rd8_cons.
    change ((T_EX =? T_INT) || (T_EX =? T_FLOAT)) with false. cbv iota.
    change (T_EX =? T_EX) with true. cbv iota. change (X_HASH =? X_ARRAY) with false. change (X_HASH =? X_HASH) with true. cbv iota.
    pose proof (prime_range _ Hp). rewrite rd16_le by lia. rewrite prime_mod by auto. unfold lenZ at 1. rewrite Nat2Z.id, D.
    rewrite <- (F2_length _ _ _ S). unfold lenZ at 2. rewrite Nat2Z.id, Nat.sub_diag. cbn [repeat]. now rewrite app_nil_r.
Qed.

(* ---- arbitrary bytes ---- *)
Definition suffix (r bs : list Z) : Prop := exists p, bs = p ++ r.
Lemma suffix_refl b : suffix b b. Proof. now exists []. Qed.
Lemma suffix_cons x r b : suffix r b -> suffix r (x :: b).
Proof. intros [p ->]. now exists (x :: p). Qed.
Lemma suffix_trans a b c : suffix a b -> suffix b c -> suffix a c.
Proof. intros [p ->] [q ->]. exists (q ++ p). now rewrite app_assoc. Qed.
Lemma suffix_len a b : suffix a b -> (length a <= length b)%nat.
Proof. intros [p ->]. rewrite app_length. lia. Qed.
Lemma bad_suffix r b : suffix r b -> bad_hash_header r -> bad_hash_header b.
Proof. intros [p ->] (pre&lo&hi&post&->&H). exists (p ++ pre), lo, hi, post. rewrite app_assoc. auto. Qed.

(* outcome of a reader that consumes at least [c] bytes when it succeeds *)
Definition okres {A} (c : nat) (bs : list Z) (r : dres A) : Prop :=
  match r with
  | DOk _ rest => suffix rest bs /\ (length rest + c <= length bs)%nat
  | DFail => True
  | DUB => bad_hash_header bs
  | DFuel => False
  end.
Lemma okres_suffix {A} c r bs (x : dres A) : suffix r bs -> okres c r x -> okres c bs x.
Proof.
  destruct x; cbn; auto; [|now eauto using bad_suffix].
  intros S [S1 L]. split; [eapply suffix_trans; eauto|]. apply suffix_len in S. lia.
Qed.
Lemma elems_ok f k : (forall bs, (length bs < k)%nat -> okres 1 bs (f bs)) ->
  forall n bs, (length bs < k)%nat -> okres 0 bs (de_elems f n bs).
Proof.
  intros Hf. induction n as [|n IH]; intros bs Hl; cbn [de_elems].
  - cbn. split; [apply suffix_refl|lia].
  - pose proof (Hf bs Hl) as H1. destruct (f bs) as [v r| | |]; cbn in *; auto.
    destruct H1 as [S1 L1]. specialize (IH r ltac:(lia)).
    destruct (de_elems f n r) as [vs r'| | |]; cbn in *; auto.
    + destruct IH as [S2 L2]. split; [eapply suffix_trans; eauto|lia].
    + eapply bad_suffix; eauto.
Qed.
Lemma slots_ok f k : (forall bs, (length bs < k)%nat -> okres 1 bs (f bs)) ->
  forall n bs, (length bs < k)%nat -> okres 0 bs (de_slots oh f n bs).
Proof.
  intros Hf. induction n as [|n IH]; intros bs Hl; cbn [de_slots].
  - cbn. split; [apply suffix_refl|lia].
  - destruct (rd8_cases bs) as [E|(flag&r&->&E)]; rewrite E; [exact I|]. cbn [length] in Hl. cbv zeta.
    assert (O: okres 0 r (if flag =? 0 then DOk None r
                 else match f r with
                      | DOk x r1 => match f r1 with DOk k r2 => DOk (slot_of oh x k) r2 | DFail => DFail | DUB => DUB | DFuel => DFuel end
                      | DFail => DFail | DUB => DUB | DFuel => DFuel
                      end)).
    { destruct (flag =? 0); [cbn; split; [apply suffix_refl|lia]|].
      pose proof (Hf r ltac:(lia)) as H1. destruct (f r) as [x r1| | |]; cbn in *; auto. destruct H1 as [S1 L1].
      pose proof (Hf r1 ltac:(lia)) as H2. destruct (f r1) as [y r2| | |]; cbn in *; auto.
      - destruct H2 as [S2 L2]. split; [eapply suffix_trans; eauto|lia].
      - eapply bad_suffix; eauto. }
    destruct (if flag =? 0 then _ else _) as [s r'| | |]; cbn in *; auto.
    + destruct O as [S1 L1]. specialize (IH r' ltac:(lia)). destruct (de_slots oh f n r') as [ss r2| | |]; cbn in *; auto.
      * destruct IH as [S2 L2]. split; [|lia]. apply suffix_cons. eapply suffix_trans; eauto.
      * eapply bad_suffix; [|exact IH]. now apply suffix_cons.
    + eapply bad_suffix; [|exact O]. apply suffix_cons, suffix_refl.
Qed.

Lemma hash_mod_none md : is_u16 md -> hash_mod (md - 1) = None -> md = 0 \/ 49157 < md.
Proof.
  unfold is_u16, hash_mod. intros Hr. destruct (Z.eq_dec md 0) as [->|N]; [auto|].
  unfold u16. rewrite Z.mod_small by lia. intros H.
  destruct (Z_lt_le_dec 49157 md) as [L|L]; [auto|exfalso]. cbn [drop_primes prime_table] in H.
  repeat match goal with H : context [if ?a <=? ?b then _ else _] |- _ => destruct (Z.leb_spec a b); [|discriminate] end. lia.
Qed.

Lemma deser_ok : forall fuel bs, Forall is_byte bs -> (length bs < fuel)%nat -> okres 1 bs (deser oh fuel bs).
Proof.
  assert (BS: forall r b, suffix r b -> Forall is_byte b -> Forall is_byte r).
  { intros r b [p ->] H. apply Forall_app in H. tauto. }
  induction fuel as [|n IH]; intros bs HB Hl; [lia|]. cbn [deser].
  destruct (rd8_cases bs) as [E|(t&r&->&E)]; rewrite E; [exact I|]. cbn [length] in Hl.
  inversion HB as [|? ? Bt Br]; subst.
  destruct ((t =? T_INT) || (t =? T_FLOAT)).
  { destruct (rd32_cases r) as [E1|(a&b&c&d&r'&->&u&E1)]; rewrite E1; [exact I|]. cbn. split; [do 5 apply suffix_cons; apply suffix_refl|lia]. }
  destruct (Z.eqb_spec t T_EX) as [->|]; [|exact I].
  destruct (rd8_cases r) as [E1|(x&r1&->&E1)]; rewrite E1; [exact I|]. cbn [length] in *.
  inversion Br as [|? ? Bx Br1]; subst.
  assert (IH': forall bs, Forall is_byte bs -> (length bs < n)%nat -> okres 1 bs (deser oh n bs)) by auto.
  (* the nested readers only ever see suffixes of the input *)
  set (f := fun b => if forallb is_byteb b then deser oh n b else @DFail sval).
  assert (Hf: forall b, (length b < n)%nat -> okres 1 b (f b)).
  { intros b Hb. unfold f. destruct (forallb is_byteb b) eqn:Eb; [|exact I]. apply IH'; auto.
    apply Forall_forall. intros z Hz. rewrite forallb_forall in Eb. specialize (Eb z Hz). unfold is_byteb, is_byte in *. lia. }
  assert (Ff: forall b, Forall is_byte b -> f b = deser oh n b).
  { intros b Hb. unfold f. replace (forallb is_byteb b) with true; [reflexivity|]. symmetry. apply forallb_forall.
    rewrite Forall_forall in Hb. intros z Hz. specialize (Hb z Hz). unfold is_byteb, is_byte in *. lia. }
  assert (FE: forall m b, Forall is_byte b -> (length b < n)%nat -> de_elems f m b = de_elems (deser oh n) m b).
  { induction m as [|m IHm]; intros b Hb Hn; cbn [de_elems]; [reflexivity|]. rewrite Ff by auto.
    pose proof (IH' b Hb Hn) as O. destruct (deser oh n b) as [v q| | |]; auto. cbn in O. destruct O as [S1 L1].
    rewrite IHm; eauto. lia. }
  assert (FS: forall m b, Forall is_byte b -> (length b < n)%nat -> de_slots oh f m b = de_slots oh (deser oh n) m b).
  { induction m as [|m IHm]; intros b Hb Hn; cbn [de_slots]; [reflexivity|].
    destruct (rd8_cases b) as [Eq|(fl&q&->&Eq)]; rewrite Eq; [reflexivity|]. cbn [length] in Hn. inversion Hb as [|? ? B1 B2]; subst. cbv zeta.
    rewrite !Ff by auto. destruct (fl =? 0).
    - rewrite IHm; auto. lia.
    - pose proof (IH' q B2 ltac:(lia)) as O. destruct (deser oh n q) as [v q1| | |]; auto. cbn in O. destruct O as [S1 L1].
      rewrite Ff by eauto. pose proof (IH' q1 (BS _ _ S1 B2) ltac:(lia)) as O2. destruct (deser oh n q1) as [k q2| | |]; auto.
      cbn in O2. destruct O2 as [S2 L2]. rewrite IHm; eauto. lia. }
  destruct (Z.eqb_spec x X_ARRAY) as [->|].
  { destruct (rd8_cases r1) as [E2|(st&r2&->&E2)]; rewrite E2; [exact I|]. cbn [length] in *.
    inversion Br1 as [|? ? Bs Br2]; subst.
    destruct (rd16_cases r2) as [E3|(lo&hi&r3&->&E3)]; rewrite E3; [exact I|]. set (sz := lo + 256 * hi).
    assert (S3: suffix r3 (lo :: hi :: r3)) by (do 2 apply suffix_cons; apply suffix_refl).
    pose proof (suffix_len _ _ S3).
    destruct (st =? S_CHAR).
    { destruct (rd_cases (Z.to_nat sz) r3) as [E4|(c&r4&->&_&E4)]; rewrite E4; [exact I|].
      assert (S4: suffix r4 (c ++ r4)) by now exists c. pose proof (suffix_len _ _ S4).
      cbn. split; [|lia]. apply suffix_cons, suffix_cons, suffix_cons. eapply suffix_trans; eauto. }
    destruct (st =? S_VALUE); [|exact I].
    assert (B3: Forall is_byte r3) by eauto.
    pose proof (elems_ok f n Hf (Z.to_nat sz) r3 ltac:(lia)) as O. rewrite FE in O by (auto; lia).
    destruct (de_elems (deser oh n) (Z.to_nat sz) r3) as [vs r4| | |]; cbn in *; auto.
    - destruct O as [S4 L4]. split; [|lia]. apply suffix_cons, suffix_cons, suffix_cons. eapply suffix_trans; eauto.
    - eapply bad_suffix; [|exact O]. now apply suffix_cons, suffix_cons, suffix_cons. }
  destruct (Z.eqb_spec x X_HASH) as [->|]; [|exact I].
  destruct (rd16_cases r1) as [E2|(a&b&r2&->&E2)]; rewrite E2; [exact I|].
  inversion Br1 as [|? ? Ba Br2]; subst. inversion Br2 as [|? ? Bb Br3]; subst. cbn [length] in *.
  destruct (hash_mod (a + 256 * b - 1)) as [p|] eqn:EM.
  - pose proof (slots_ok f n Hf (Z.to_nat (a + 256 * b)) r2 ltac:(lia)) as O. rewrite FS in O by (auto; lia).
    destruct (de_slots oh (deser oh n) (Z.to_nat (a + 256 * b)) r2) as [ss r3| | |]; cbn in *; auto.
    + destruct O as [S4 L4]. split; [|lia]. do 4 apply suffix_cons. exact S4.
    + eapply bad_suffix; [|exact O]. do 4 apply suffix_cons. apply suffix_refl.
  - cbn. exists [], a, b, r2. split; [reflexivity|]. apply hash_mod_none; auto. unfold is_byte, is_u16 in *. lia.
Qed.

Lemma roundtrip_exact v rest : good v ->
  serialize v = Some (fst (ser v)) /\
  exists v', deserialize oh (fst (ser v) ++ rest) = DOk v' rest /\ same v v'.
Proof.
  intros G. destruct (roundtrip v G) as [F R]. split.
  - unfold serialize. destruct (ser v) as [b ok]. cbn in *. now subst ok.
  - unfold deserialize. apply R. rewrite app_length. lia.
Qed.
End R.

(* ---- the output buffer ---- *)
Definition buf_inv (b : sbuf) : Prop := 0 <= b_pos b <= b_cap b /\ lenZ (b_mem b) = b_cap b.
Lemma lenZ_nonneg {A} (l : list A) : 0 <= lenZ l. Proof. unfold lenZ. lia. Qed.
Lemma blit_ok mem pos data : 0 <= pos -> pos + lenZ data <= lenZ mem -> exists m',
  blit mem pos data = Some m' /\ lenZ m' = lenZ mem /\
  firstn (Z.to_nat (pos + lenZ data)) m' = firstn (Z.to_nat pos) mem ++ data.
Proof.
  intros H1 H2. unfold blit. replace ((0 <=? pos) && (pos + lenZ data <=? lenZ mem)) with true by lia.
  eexists. split; [reflexivity|]. unfold lenZ in *. split.
  - rewrite !app_length, firstn_length, skipn_length. lia.
  - rewrite app_assoc, firstn_app.
    rewrite app_length, firstn_length.
    replace (Z.to_nat (pos + Z.of_nat (length data)) - (Nat.min (Z.to_nat pos) (length mem) + length data))%nat with 0%nat by lia.
    cbn [firstn]. rewrite app_nil_r. apply firstn_all2. rewrite app_length, firstn_length. lia.
Qed.
Lemma firstn_blit0 mem data m' : blit mem 0 data = Some m' -> firstn (length data) m' = data.
Proof.
  unfold blit. destruct (_ && _) eqn:E; [|discriminate]. intros [= <-]. cbn [Z.to_nat firstn app].
  rewrite firstn_app, Nat.sub_diag, firstn_all. cbn. now rewrite app_nil_r.
Qed.
Lemma write_ok junk b data : buf_inv b -> b_cap b + 2 * lenZ data + 8 < 4294967296 -> exists b',
  buf_write junk b data = Some b' /\ buf_inv b' /\ buf_contents b' = buf_contents b ++ data /\
  b_cap b' <= b_cap b + 2 * lenZ data + 8 /\ (data = [] -> b' = b).
Proof.
  intros [Hp Hm] Hc. unfold buf_write. pose proof (lenZ_nonneg data).
  destruct (lenZ data <=? 0) eqn:E0.
  { assert (data = []) as -> by (destruct data; auto; unfold lenZ in *; cbn in *; lia).
    exists b. rewrite app_nil_r. split; [reflexivity|]. split; [split; auto|]. split; [reflexivity|]. split; [cbn; lia|reflexivity]. }
  rewrite (u32_id (b_pos b + lenZ data)) by (unfold is_u32; lia).
  rewrite (u32_id (b_cap b + (lenZ data * 2 + 8))) by (unfold is_u32; lia).
  set (cap := if b_cap b <=? b_pos b + lenZ data then b_cap b + (lenZ data * 2 + 8) else b_cap b).
  assert (HC: b_pos b + lenZ data <= cap /\ b_cap b <= cap <= b_cap b + 2 * lenZ data + 8).
  { unfold cap. destruct (b_cap b <=? b_pos b + lenZ data) eqn:E; lia. }
  match goal with |- context [match ?x with None => None | Some mem => _ end] => set (fr := x) end.
  assert (F: exists mem, fr = Some mem /\ lenZ mem = cap /\ firstn (Z.to_nat (b_pos b)) mem = buf_contents b).
  { unfold fr, cap, buf_contents. destruct (b_cap b <=? b_pos b + lenZ data) eqn:E.
    - destruct (0 <? b_pos b) eqn:E1.
      + set (pre := firstn (Z.to_nat (b_pos b)) (b_mem b)).
        assert (L: lenZ pre = b_pos b) by (unfold pre, lenZ in *; rewrite firstn_length; lia).
        set (R := repeat junk _). assert (LR: lenZ R = b_cap b + (lenZ data * 2 + 8)) by (unfold R, lenZ in *; rewrite repeat_length; lia).
        destruct (blit_ok R 0 pre ltac:(lia) ltac:(lia)) as (m'&B1&B2&B3). exists m'. split; [exact B1|]. split; [lia|].
        pose proof (firstn_blit0 _ _ _ B1) as Q. replace (Z.to_nat (b_pos b)) with (length pre) by (unfold lenZ in L; lia). exact Q.
      + exists (repeat junk (Z.to_nat (b_cap b + (lenZ data * 2 + 8)))). split; [reflexivity|]. split; [unfold lenZ in *; rewrite repeat_length; lia|].
        replace (b_pos b) with 0 by lia. reflexivity.
    - exists (b_mem b). auto. }
  destruct F as (mem&->&L1&L2). destruct (blit_ok mem (b_pos b) data ltac:(lia) ltac:(lia)) as (m'&->&B2&B3).
  eexists. split; [reflexivity|]. unfold buf_inv, buf_contents. cbn [b_pos b_cap b_mem]. split; [lia|]. split.
  - rewrite B3, L2. reflexivity.
  - split; [lia|]. intros ->. unfold lenZ in E0. discriminate.
Qed.
Definition total (ds : list (list Z)) : Z := lenZ (concat ds).
Lemma writes_ok junk ds : forall b, buf_inv b -> b_cap b + 10 * lenZ (concat ds) < 4294967296 -> exists b',
  buf_writes junk b ds = Some b' /\ buf_contents b' = buf_contents b ++ concat ds.
Proof.
  induction ds as [|d ds IH]; intros b Hb Hc; cbn [buf_writes concat] in *.
  - exists b. now rewrite app_nil_r.
  - unfold lenZ in Hc. rewrite app_length in Hc.
    destruct d as [|x d].
    + change (buf_write junk b []) with (Some b). apply IH; auto.
    + destruct (write_ok junk b (x :: d) Hb) as (b1&->&I1&C1&K1&_); [unfold lenZ; cbn [length] in *; lia|].
      destruct (IH b1 I1) as (b2&->&C2); [unfold lenZ in *; cbn [length] in *; lia|]. exists b2. split; [reflexivity|].
      now rewrite C2, C1, <- app_assoc.
Qed.
