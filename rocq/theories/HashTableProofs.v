From Verif Require Import Base BaseLemmas HashTableModel.

Local Arguments Z.mul : simpl never.
Local Arguments Z.add : simpl never.
Local Arguments Z.modulo : simpl never.
Local Arguments key_at : simpl never.
Local Arguments val_at {V} : simpl never.

(* ------------------------------------------------------------------ *)
(* slots *)
Definition slots (keys : list Z) (md : Z) : Prop := 0 < md /\ length keys = Z.to_nat md.

Lemma key_at_upd keys i j x : 0 <= i < lenZ keys -> 0 <= j ->
  key_at (upd keys (Z.to_nat i) x) j = if i =? j then x else key_at keys j.
Proof.
  unfold key_at, lenZ. intros Hi Hj. destruct (Z.eqb_spec i j) as [->|Hn].
  - apply upd_nth_same. lia.
  - apply upd_nth_other. lia.
Qed.
Lemma mod_range h md : 0 < md -> 0 <= h mod md < md.
Proof. intro. apply Z.mod_pos_bound. assumption. Qed.
Lemma slots_len keys md : slots keys md -> lenZ keys = md.
Proof. intros [H E]. unfold lenZ. rewrite E. lia. Qed.
Lemma slots_upd keys md i x : slots keys md -> slots (upd keys i x) md.
Proof. intros [H E]. split; [exact H|]. rewrite upd_length. exact E. Qed.
Lemma mod_succ h d md : 0 < md -> ((h + d) mod md + 1) mod md = (h + (d + 1)) mod md.
Proof. intro. rewrite Zplus_mod_idemp_l. f_equal. lia. Qed.

(* ------------------------------------------------------------------ *)
(* the probe loop *)
Lemma probe_hit keys md hash ins n d i :
  0 < md -> probe keys md hash ins ((hash + d) mod md) n = PHit i ->
  exists e, d < e <= d + Z.of_nat n /\ i = (hash + e) mod md /\ key_at keys i = hash.
Proof.
  intro Hmd. revert d; induction n as [|n IH]; intros d E; cbn in E; [discriminate|].
  destruct (ins && _); [discriminate|]. rewrite mod_succ in E by assumption.
  destruct (Z.eqb_spec (key_at keys ((hash + (d + 1)) mod md)) hash) as [K|K].
  - inversion E; subst. exists (d + 1). split; [lia|]. split; [reflexivity|exact K].
  - destruct (IH _ E) as (e & He & Hi & Hk). exists e. split; [lia|]. split; assumption.
Qed.
Lemma probe_insert keys md hash ins n d i :
  0 < md -> probe keys md hash ins ((hash + d) mod md) n = PInsert i ->
  ins = true /\ exists e, d <= e < d + Z.of_nat n /\ i = (hash + e) mod md /\ key_at keys i = NULL_HASH.
Proof.
  intro Hmd. revert d; induction n as [|n IH]; intros d E; cbn in E; [discriminate|].
  destruct (ins && _) eqn:G.
  - inversion E; subst. apply andb_prop in G as [G1 G2]. split; [exact G1|].
    exists d. split; [lia|]. split; [reflexivity|]. apply Z.eqb_eq; exact G2.
  - rewrite mod_succ in E by assumption.
    destruct (Z.eqb_spec (key_at keys ((hash + (d + 1)) mod md)) hash) as [K|K]; [discriminate|].
    destruct (IH _ E) as (Hins & e & He & Hi & Hk). split; [exact Hins|].
    exists e. split; [lia|]. split; assumption.
Qed.
Lemma probe_miss keys md hash ins n d :
  0 < md -> probe keys md hash ins ((hash + d) mod md) n = PMiss ->
  (forall e, d < e <= d + Z.of_nat n -> key_at keys ((hash + e) mod md) <> hash) /\
  (ins = true -> forall e, d <= e < d + Z.of_nat n -> key_at keys ((hash + e) mod md) <> NULL_HASH).
Proof.
  intro Hmd. revert d; induction n as [|n IH]; intros d E; cbn in E.
  - split; intros; lia.
  - destruct (ins && _) eqn:G; [discriminate|]. rewrite mod_succ in E by assumption.
    destruct (Z.eqb_spec (key_at keys ((hash + (d + 1)) mod md)) hash) as [K|K]; [discriminate|].
    destruct (IH _ E) as [H1 H2]. split.
    + intros e He. destruct (Z.eq_dec e (d + 1)) as [->|]; [exact K|]. apply H1. lia.
    + intros Hins e He. destruct (Z.eq_dec e d) as [->|].
      * subst ins. cbn in G. apply Z.eqb_neq in G. exact G.
      * apply H2; [exact Hins|lia].
Qed.
(* before a hit or an insertion there was neither a match nor (when inserting) a free slot *)
Lemma probe_insert_before keys md hash n d i :
  0 < md -> probe keys md hash true ((hash + d) mod md) n = PInsert i ->
  exists e, d <= e < d + Z.of_nat n /\ i = (hash + e) mod md /\ key_at keys i = NULL_HASH /\
  forall e', d < e' <= e -> key_at keys ((hash + e') mod md) <> hash.
Proof.
  intro Hmd. revert d; induction n as [|n IH]; intros d E; cbn in E; [discriminate|].
  destruct (key_at keys ((hash + d) mod md) =? NULL_HASH) eqn:G.
  - inversion E; subst. exists d. split; [lia|]. split; [reflexivity|].
    split; [apply Z.eqb_eq; exact G|]. intros; lia.
  - rewrite mod_succ in E by assumption.
    destruct (Z.eqb_spec (key_at keys ((hash + (d + 1)) mod md)) hash) as [K|K]; [discriminate|].
    destruct (IH _ E) as (e & He & Hi & Hk & Hb). exists e.
    split; [lia|]. split; [exact Hi|]. split; [exact Hk|].
    intros e' He'. destruct (Z.eq_dec e' (d + 1)) as [->|]; [exact K|]. apply Hb. lia.
Qed.

Lemma home_0 hash md : hash mod md = (hash + 0) mod md.
Proof. f_equal. lia. Qed.

(* ------------------------------------------------------------------ *)
(* well-formed key arrays *)
Definition has (keys : list Z) (md k : Z) : Prop := exists i, 0 <= i < md /\ key_at keys i = k.
Definition homes (keys : list Z) (md : Z) : Prop :=
  forall i, 0 <= i < md -> key_at keys i <> NULL_HASH ->
    exists e, 0 <= e <= 3 /\ i = (key_at keys i + e) mod md.
Definition uniq (keys : list Z) (md : Z) : Prop :=
  forall i j, 0 <= i < md -> 0 <= j < md -> key_at keys i <> NULL_HASH ->
    key_at keys i = key_at keys j -> i = j.
(* first fit: every stored key sits behind occupied slots only *)
Definition firstfit (keys : list Z) (md : Z) : Prop :=
  forall k, k <> NULL_HASH -> has keys md k ->
    exists e, 0 <= e <= 3 /\ key_at keys ((k + e) mod md) = k /\
      forall e', 0 <= e' < e -> key_at keys ((k + e') mod md) <> NULL_HASH.
Definition kwf (keys : list Z) (md : Z) : Prop := slots keys md /\ homes keys md /\ uniq keys md.

Lemma find_slot_present keys md k i :
  kwf keys md -> k <> NULL_HASH -> 0 <= i < md -> key_at keys i = k ->
  find_slot keys md k false = PHit i.
Proof.
  intros (Hs & Hh & Hu) Hk Hi Hki. destruct Hs as [Hmd Hlen].
  destruct (Hh i Hi) as (e & He & Hie); [congruence|]. rewrite Hki in Hie.
  unfold find_slot. destruct (Z.eqb_spec (key_at keys (k mod md)) k) as [K|K].
  - f_equal. symmetry. apply Hu; try assumption; [apply mod_range; lia|congruence|congruence].
  - rewrite (home_0 k md). destruct (probe keys md k false ((k + 0) mod md) 4) as [j|j|] eqn:E.
    + apply probe_hit in E as (e' & He' & Hj & Hkj); [|assumption].
      f_equal. symmetry. apply Hu; try assumption; try congruence. subst j. apply mod_range; lia.
    + apply probe_insert in E as [E _]; [discriminate|assumption].
    + apply probe_miss in E as [E _]; [|assumption]. exfalso.
      destruct (Z.eq_dec e 0) as [->|He0].
      * apply K. rewrite home_0. rewrite <- Hie. exact Hki.
      * apply (E e); [lia|]. rewrite <- Hie. exact Hki.
Qed.
Lemma find_slot_absent keys md k :
  0 < md -> ~ has keys md k -> find_slot keys md k false = PMiss.
Proof.
  intros Hmd Hn. unfold find_slot.
  destruct (Z.eqb_spec (key_at keys (k mod md)) k) as [K|K].
  - exfalso. apply Hn. exists (k mod md). split; [apply mod_range; assumption|exact K].
  - rewrite (home_0 k md). destruct (probe keys md k false ((k + 0) mod md) 4) as [j|j|] eqn:E; [| |reflexivity].
    + apply probe_hit in E as (e' & He' & Hj & Hkj); [|assumption].
      exfalso. apply Hn. exists j. split; [subst j; apply mod_range; assumption|exact Hkj].
    + apply probe_insert in E as [E _]; [discriminate|assumption].
Qed.
Lemma find_slot_insert keys md k i :
  0 < md -> k <> NULL_HASH -> find_slot keys md k true = PInsert i ->
  exists e, 0 <= e <= 3 /\ i = (k + e) mod md /\ key_at keys i = NULL_HASH.
Proof.
  intros Hmd Hk. unfold find_slot.
  destruct (Z.eqb_spec (key_at keys (k mod md)) k) as [K|K]; [discriminate|].
  rewrite (home_0 k md). intro E. apply probe_insert in E as (_ & e & He & Hi & Hki); [|assumption].
  exists e. split; [lia|]. split; assumption.
Qed.
Lemma find_slot_hit keys md k b i :
  0 < md -> find_slot keys md k b = PHit i -> 0 <= i < md /\ key_at keys i = k.
Proof.
  intros Hmd. unfold find_slot.
  destruct (Z.eqb_spec (key_at keys (k mod md)) k) as [K|K].
  - intro E. inversion E; subst. split; [apply mod_range; assumption|exact K].
  - rewrite (home_0 k md). intro E. apply probe_hit in E as (e & He & Hi & Hki); [|assumption].
    split; [subst i; apply mod_range; assumption|exact Hki].
Qed.
Lemma find_slot_firstfit keys md k i :
  slots keys md -> uniq keys md -> firstfit keys md -> k <> NULL_HASH ->
  0 <= i < md -> key_at keys i = k -> find_slot keys md k true = PHit i.
Proof.
  intros [Hmd Hlen] Hu Hf Hk Hi Hki.
  destruct (Hf k Hk) as (e & He & Hke & Hb); [exists i; auto|].
  unfold find_slot. destruct (Z.eqb_spec (key_at keys (k mod md)) k) as [K|K].
  - f_equal. symmetry. apply Hu; auto; [apply mod_range; lia|congruence|congruence].
  - rewrite (home_0 k md).
    assert (He0 : e <> 0) by (intros ->; apply K; rewrite home_0; exact Hke).
    destruct (probe keys md k true ((k + 0) mod md) 4) as [j|j|] eqn:E.
    + apply probe_hit in E as (e' & He' & Hj & Hkj); [|assumption].
      f_equal. symmetry. apply Hu; auto; [subst j; apply mod_range; lia|congruence|congruence].
    + apply probe_insert_before in E as (e' & He' & Hj & Hkj & Hbef); [|assumption].
      exfalso. destruct (Z.lt_ge_cases e' e) as [L|L].
      * apply (Hb e'); [lia|]. rewrite <- Hj. exact Hkj.
      * apply (Hbef e); [lia|exact Hke].
    + apply probe_miss in E as [E _]; [|assumption]. exfalso. apply (E e); [lia|exact Hke].
Qed.

(* ------------------------------------------------------------------ *)
(* exists *)
Lemma exists_loop_spec keys md hash n d i :
  0 < md -> exists_loop keys md hash ((hash + d) mod md) n = Some i ->
  exists e, d < e <= d + Z.of_nat n /\ i = (hash + e) mod md /\ key_at keys i = hash.
Proof.
  intro Hmd. revert d; induction n as [|n IH]; intros d E; cbn in E; [discriminate|].
  rewrite mod_succ in E by assumption.
  destruct (Z.eqb_spec (key_at keys ((hash + (d + 1)) mod md)) hash) as [K|K].
  - inversion E; subst. exists (d + 1). split; [lia|]. split; [reflexivity|exact K].
  - destruct (IH _ E) as (e & He & Hi & Hk). exists e. split; [lia|]. split; assumption.
Qed.
Lemma exists_loop_none keys md hash n d :
  0 < md -> exists_loop keys md hash ((hash + d) mod md) n = None ->
  forall e, d < e <= d + Z.of_nat n -> key_at keys ((hash + e) mod md) <> hash.
Proof.
  intro Hmd. revert d; induction n as [|n IH]; intros d E e He; cbn in E; [lia|].
  rewrite mod_succ in E by assumption.
  destruct (Z.eqb_spec (key_at keys ((hash + (d + 1)) mod md)) hash) as [K|K]; [discriminate|].
  destruct (Z.eq_dec e (d + 1)) as [->|]; [exact K|]. apply (IH _ E). lia.
Qed.

Section TableProofs.
Context {V : Type}.
Variable zero : V.
Notation table := (table V).

Definition twf (t : table) : Prop :=
  kwf (t_keys t) (t_mod t) /\ length (t_vals t) = Z.to_nat (t_mod t).

Lemma exists_slot_some (t : table) k i :
  0 < t_mod t -> exists_slot t k = Some i -> 0 <= i < t_mod t /\ key_at (t_keys t) i = k.
Proof.
  intros Hmd. unfold exists_slot.
  destruct (Z.eqb_spec (key_at (t_keys t) (k mod t_mod t)) k) as [K|K].
  - intro E; inversion E; subst. split; [apply mod_range; assumption|exact K].
  - rewrite (home_0 k (t_mod t)). intro E.
    apply exists_loop_spec in E as (e & He & Hi & Hk); [|assumption].
    split; [subst i; apply mod_range; assumption|exact Hk].
Qed.
Lemma exists_slot_present (t : table) k i :
  twf t -> k <> NULL_HASH -> 0 <= i < t_mod t -> key_at (t_keys t) i = k ->
  exists_slot t k = Some i.
Proof.
  intros (((Hmd & Hlen) & Hh & Hu) & Hv) Hk Hi Hki.
  destruct (exists_slot t k) as [j|] eqn:E.
  - apply exists_slot_some in E as [Hj Hkj]; [|assumption].
    f_equal. apply Hu; try assumption; congruence.
  - exfalso. unfold exists_slot in E.
    destruct (Z.eqb_spec (key_at (t_keys t) (k mod t_mod t)) k) as [K|K]; [discriminate|].
    rewrite (home_0 k (t_mod t)) in E. 
    destruct (Hh i Hi) as (e & He & Hie); [congruence|]. rewrite Hki in Hie.
    destruct (Z.eq_dec e 0) as [->|He0].
    + apply K. rewrite home_0, <- Hie. exact Hki.
    + apply (exists_loop_none _ _ _ _ _ Hmd E e); [lia|]. rewrite <- Hie. exact Hki.
Qed.

(* observable content of the table: what exists(key,false) designates *)
Definition lookup (t : table) (k : Z) : option V := snd (ht_exists zero t k false).

Lemma lookup_char (t : table) k : twf t -> k <> NULL_HASH ->
  forall v, lookup t k = Some v <->
    exists i, 0 <= i < t_mod t /\ key_at (t_keys t) i = k /\ v = val_at zero (t_vals t) i.
Proof.
  intros Hw Hk v. assert (Hmd : 0 < t_mod t) by (destruct Hw as (((?&?)&?)&?); assumption).
  unfold lookup, ht_exists. split.
  - destruct (exists_slot t k) as [i|] eqn:E; cbn; [|discriminate].
    intro H; inversion H; subst. apply exists_slot_some in E as [H1 H2]; [|assumption].
    exists i. auto.
  - intros (i & Hi & Hki & ->). rewrite (exists_slot_present t k i) by assumption. reflexivity.
Qed.
Lemma lookup_none (t : table) k : twf t -> k <> NULL_HASH ->
  (lookup t k = None <-> ~ has (t_keys t) (t_mod t) k).
Proof.
  intros Hw Hk. split.
  - intros E (i & Hi & Hki). assert (L : lookup t k = Some (val_at zero (t_vals t) i)).
    { apply lookup_char; try assumption. exists i; auto. } congruence.
  - intro Hn. destruct (lookup t k) as [v|] eqn:E; [|reflexivity].
    apply lookup_char in E as (i & Hi & Hki & _); [|assumption|assumption].
    exfalso. apply Hn. exists i; auto.
Qed.

Lemma val_at_upd vals i j x : 0 <= i < lenZ vals -> 0 <= j ->
  val_at zero (upd vals (Z.to_nat i) x) j = if i =? j then x else val_at zero vals j.
Proof.
  unfold val_at, lenZ. intros Hi Hj. destruct (Z.eqb_spec i j) as [->|Hn].
  - apply upd_nth_same. lia.
  - apply upd_nth_other. lia.
Qed.

(* ------------------------------------------------------------------ *)
(* placing keys during growth *)
Definition pwf (keys : list Z) (md : Z) : Prop :=
  slots keys md /\ homes keys md /\ uniq keys md /\ firstfit keys md.

Lemma place_spec keys md k n d keys' :
  0 < md -> place keys md k ((k + d) mod md) n = Some keys' ->
  exists e, d <= e <= d + Z.of_nat n /\ key_at keys ((k + e) mod md) = NULL_HASH /\
    keys' = upd keys (Z.to_nat ((k + e) mod md)) k /\
    forall e', d <= e' < e -> key_at keys ((k + e') mod md) <> NULL_HASH.
Proof.
  intro Hmd. revert d; induction n as [|n IH]; intros d E; cbn in E;
    destruct (Z.eqb_spec (key_at keys ((k + d) mod md)) NULL_HASH) as [K|K].
  - inversion E; subst. exists d. split; [lia|]. split; [exact K|]. split; [reflexivity|]. intros; lia.
  - discriminate.
  - inversion E; subst. exists d. split; [lia|]. split; [exact K|]. split; [reflexivity|]. intros; lia.
  - rewrite mod_succ in E by assumption. destruct (IH _ E) as (e & He & H1 & H2 & H3).
    exists e. split; [lia|]. split; [exact H1|]. split; [exact H2|].
    intros e' He'. destruct (Z.eq_dec e' d) as [->|]; [exact K|]. apply H3. lia.
Qed.

Lemma place_pwf keys md k keys' :
  pwf keys md -> (k <> NULL_HASH -> ~ has keys md k) ->
  place keys md k (k mod md) 3 = Some keys' ->
  pwf keys' md /\
  (forall x, x <> NULL_HASH -> (has keys' md x <-> has keys md x \/ x = k)).
Proof.
  intros (Hs & Hh & Hu & Hf) Hn E. pose proof Hs as [Hmd Hlen].
  rewrite (home_0 k md) in E. apply place_spec in E as (e & He & Hnull & Hk' & Hbef); [|assumption].
  set (p := (k + e) mod md) in *.
  assert (Hp : 0 <= p < md) by (apply mod_range; assumption).
  pose proof (slots_len _ _ Hs) as HL.
  assert (KA : forall j, 0 <= j < md -> key_at keys' j = if p =? j then k else key_at keys j).
  { intros j Hj. subst keys'. apply key_at_upd; lia. }
  destruct (Z.eq_dec k NULL_HASH) as [Hkn|Hkn].
  - (* an empty old slot: nothing changes *)
    assert (Heq : keys' = keys).
    { subst keys'. apply upd_id. unfold key_at in Hnull. 
      transitivity (Some (nth (Z.to_nat p) keys NULL_HASH)); [|congruence].
      apply nth_error_nth'. unfold lenZ in HL. lia. }
    rewrite Heq. split; [repeat split; assumption|].
    intros x Hx. split; [auto|]. intros [H| ->]; [exact H|contradiction].
  - specialize (Hn Hkn).
    assert (Hhas : forall x, x <> NULL_HASH -> (has keys' md x <-> has keys md x \/ x = k)).
    { intros x Hx. split.
      - intros (i & Hi & Hki). rewrite KA in Hki by assumption.
        destruct (Z.eqb_spec p i); [right; congruence|]. left. exists i; auto.
      - intros [(i & Hi & Hki)| ->].
        + exists i. split; [exact Hi|]. rewrite KA by assumption.
          destruct (Z.eqb_spec p i) as [<-|]; [congruence|exact Hki].
        + exists p. split; [exact Hp|]. rewrite KA by assumption. rewrite Z.eqb_refl. reflexivity. }
    split; [|exact Hhas]. split; [subst keys'; apply slots_upd; exact Hs|].
    split; [|split].
    + intros i Hi Hne. rewrite KA in * by assumption. destruct (Z.eqb_spec p i) as [<-|Hpi].
      * exists e. split; [lia|]. reflexivity.
      * apply Hh; assumption.
    + intros i j Hi Hj Hne Heq. rewrite !KA in * by assumption.
      destruct (Z.eqb_spec p i) as [<-|Hpi]; destruct (Z.eqb_spec p j) as [<-|Hpj]; auto.
      * exfalso. apply Hn. exists j; auto.
      * exfalso. apply Hn. exists i; auto.
    + intros x Hx Hhx. apply Hhas in Hhx as [Hhx| ->]; [| |exact Hx].
      * destruct (Hf x Hx Hhx) as (d & Hd & Hkd & Hb). exists d. split; [exact Hd|].
        assert (Hr : forall y, 0 <= (x + y) mod md < md) by (intro; apply mod_range; assumption).
        split.
        -- rewrite KA by apply Hr. destruct (Z.eqb_spec p ((x + d) mod md)) as [Hpe|]; [|exact Hkd].
           rewrite <- Hpe in Hkd. congruence.
        -- intros e' He'. rewrite KA by apply Hr.
           destruct (Z.eqb_spec p ((x + e') mod md)); [exact Hkn|]. apply Hb; exact He'.
      * exists e. split; [lia|]. fold p. split.
        -- rewrite KA by exact Hp. rewrite Z.eqb_refl. reflexivity.
        -- intros e' He'. rewrite KA by (apply mod_range; assumption).
           destruct (Z.eqb_spec p ((k + e') mod md)); [exact Hkn|]. apply Hbef. lia.
Qed.

Lemma place_all_pwf olds : forall keys md keys',
  pwf keys md ->
  (forall x, x <> NULL_HASH -> In x olds -> ~ has keys md x) ->
  (forall i j, (i < j < length olds)%nat -> nth i olds NULL_HASH <> NULL_HASH ->
               nth i olds NULL_HASH <> nth j olds NULL_HASH) ->
  place_all keys md olds = Some keys' ->
  pwf keys' md /\
  (forall x, x <> NULL_HASH -> (has keys' md x <-> has keys md x \/ In x olds)).
Proof.
  induction olds as [|k olds IH]; intros keys md keys' Hp Hdis Hnd E; cbn [place_all] in E.
  - inversion E; subst. split; [exact Hp|]. intros x Hx. cbn. tauto.
  - destruct (place keys md k (k mod md) 3) as [p|] eqn:EP; [|discriminate].
    apply place_pwf in EP as [Hp' Hhas']; [|exact Hp|intro; apply Hdis; cbn; auto].
    apply IH in E as [H1 H2].
    + split; [exact H1|]. intros x Hx. rewrite H2, Hhas' by exact Hx. cbn. 
      intuition congruence.
    + exact Hp'.
    + intros x Hx Hin Hh. apply Hhas' in Hh as [Hh| ->]; [| |exact Hx].
      * apply (Hdis x Hx); [cbn; auto|exact Hh].
      * apply In_nth with (d := NULL_HASH) in Hin as (j & Hj & Hjx).
        apply (Hnd 0%nat (S j)); [cbn; lia|exact Hx|cbn; congruence].
    + intros i j Hij Hne. apply (Hnd (S i) (S j)); [cbn; lia|exact Hne].
Qed.

Lemma key_at_repeat n i : key_at (repeat NULL_HASH n) i = NULL_HASH.
Proof.
  unfold key_at. revert i. assert (H : forall j, nth j (repeat NULL_HASH n) NULL_HASH = NULL_HASH).
  { induction n as [|n IH]; intros [|j]; cbn; auto. }
  intro i. apply H.
Qed.

(* the first key, placed at its home of the fresh table *)
Lemma proposed_pwf md hash : 0 < md ->
  pwf (upd (repeat NULL_HASH (Z.to_nat md)) (Z.to_nat (hash mod md)) hash) md /\
  (forall x, x <> NULL_HASH ->
    (has (upd (repeat NULL_HASH (Z.to_nat md)) (Z.to_nat (hash mod md)) hash) md x <-> x = hash)).
Proof.
  intro Hmd. set (keys := upd _ _ _).
  assert (Hr : 0 <= hash mod md < md) by (apply mod_range; assumption).
  assert (KA : forall j, 0 <= j < md -> key_at keys j = if hash mod md =? j then hash else NULL_HASH).
  { intros j Hj. unfold keys. rewrite key_at_upd; [|unfold lenZ; rewrite repeat_length; lia|lia].
    rewrite key_at_repeat. reflexivity. }
  assert (Hhas : forall x, x <> NULL_HASH -> (has keys md x <-> x = hash)).
  { intros x Hx. split.
    - intros (i & Hi & Hki). rewrite KA in Hki by assumption.
      destruct (hash mod md =? i); congruence.
    - intros ->. exists (hash mod md). split; [exact Hr|]. rewrite KA by assumption.
      rewrite Z.eqb_refl. reflexivity. }
  split; [|exact Hhas]. split.
  { split; [exact Hmd|]. unfold keys. rewrite upd_length, repeat_length. reflexivity. }
  split; [|split].
  - intros i Hi Hne. rewrite KA in * by assumption. destruct (Z.eqb_spec (hash mod md) i) as [<-|].
    + exists 0. split; [lia|]. f_equal. lia.
    + congruence.
  - intros i j Hi Hj Hne Heq. rewrite !KA in * by assumption.
    destruct (Z.eqb_spec (hash mod md) i); destruct (Z.eqb_spec (hash mod md) j); congruence.
  - intros x Hx Hh. apply Hhas in Hh as ->; [|exact Hx]. exists 0. split; [lia|].
    rewrite <- home_0. rewrite KA by assumption. rewrite Z.eqb_refl. split; [reflexivity|]. intros; lia.
Qed.

Lemma try_primes_spec primes hash olds md keys :
  Forall (fun p => 0 < p) primes ->
  (forall x, x <> NULL_HASH -> In x olds -> x <> hash) ->
  (forall i j, (i < j < length olds)%nat -> nth i olds NULL_HASH <> NULL_HASH ->
               nth i olds NULL_HASH <> nth j olds NULL_HASH) ->
  try_primes primes hash olds = Some (md, keys) ->
  In md primes /\ 0 < md /\ pwf keys md /\
  (forall x, x <> NULL_HASH -> (has keys md x <-> x = hash \/ In x olds)).
Proof.
  intros Hp Hnh Hnd. induction Hp as [|p primes Hp0 Hp IH]; cbn; [discriminate|].
  destruct (place_all _ p olds) as [pr|] eqn:E.
  - intro H; inversion H; subst. destruct (proposed_pwf md hash Hp0) as [Hw Hh].
    eapply place_all_pwf in E as [H1 H2].
    + split; [auto|]. split; [exact Hp0|]. split; [exact H1|].
      intros x Hx. rewrite H2, Hh by exact Hx. reflexivity.
    + exact Hw.
    + intros x Hx Hin Hhx. apply Hh in Hhx; [|exact Hx]. apply (Hnh x Hx Hin Hhx).
    + exact Hnd.
  - intro H. apply IH in H as (H1 & H2). split; [auto|exact H2].
Qed.

Lemma drop_primes_in primes start p : In p (drop_primes primes start) -> In p primes.
Proof.
  induction primes as [|q l IH]; cbn; [auto|]. destruct (q <=? start); [auto|cbn; auto].
Qed.
Lemma drop_primes_gt primes start p :
  (forall i j, (i < j < length primes)%nat -> nth i primes 0 < nth j primes 0) ->
  In p (drop_primes primes start) -> start < p.
Proof.
  induction primes as [|q l IH]; cbn [drop_primes]; intros Hs Hin; [destruct Hin|].
  destruct (Z.leb_spec q start).
  - apply IH; [|exact Hin]. intros i j Hij. apply (Hs (S i) (S j)). cbn; lia.
  - destruct Hin as [<-|Hin]; [lia|]. apply In_nth with (d := 0) in Hin as (j & Hj & <-).
    pose proof (Hs 0%nat (S j) ltac:(cbn; lia)) as Hlt. cbn in Hlt. lia.
Qed.
Lemma prime_table_sorted : forall i j, (i < j < length prime_table)%nat ->
  nth i prime_table 0 < nth j prime_table 0.
Proof.
  intros i j Hij. cbn [prime_table length] in Hij.
  do 17 (destruct i as [|i]; [do 17 (destruct j as [|j]; [try lia; cbn; lia|]); lia|]). lia.
Qed.
Lemma prime_table_pos : Forall (fun p => 0 < p <= 49157) prime_table.
Proof. unfold prime_table. repeat (constructor; [lia|]). constructor. Qed.

(* ------------------------------------------------------------------ *)
(* moving the values *)
Lemma move_vals_spec olds : forall oldVals keys md size newVals,
  slots keys md -> uniq keys md -> firstfit keys md ->
  length newVals = Z.to_nat md -> length oldVals = length olds ->
  (forall x, x <> NULL_HASH -> In x olds -> has keys md x) ->
  (forall i j, (i < j < length olds)%nat -> nth i olds NULL_HASH <> NULL_HASH ->
               nth i olds NULL_HASH <> nth j olds NULL_HASH) ->
  exists vals, move_vals keys md size newVals olds oldVals = Some (keys, size, vals) /\
    length vals = Z.to_nat md /\
    (forall i n, 0 <= i < md -> (n < length olds)%nat -> key_at keys i <> NULL_HASH ->
       nth n olds NULL_HASH = key_at keys i -> val_at zero vals i = nth n oldVals zero) /\
    (forall i, 0 <= i < md -> ~ (key_at keys i <> NULL_HASH /\ In (key_at keys i) olds) ->
       val_at zero vals i = val_at zero newVals i).
Proof.
  induction olds as [|k olds IH]; intros oldVals keys md size newVals Hs Hu Hf Hlv Hlo Hin Hnd.
  - destruct oldVals; [|discriminate]. exists newVals. cbn. repeat split; auto. intros; lia.
  - destruct oldVals as [|v oldVals]; [discriminate|]. cbn in Hlo. cbn [move_vals].
    assert (Hin' : forall x, x <> NULL_HASH -> In x olds -> has keys md x)
      by (intros; apply Hin; cbn; auto).
    assert (Hnd' : forall i j, (i < j < length olds)%nat -> nth i olds NULL_HASH <> NULL_HASH ->
               nth i olds NULL_HASH <> nth j olds NULL_HASH)
      by (intros i j Hij Hne; apply (Hnd (S i) (S j)); [cbn; lia|exact Hne]).
    destruct (Z.eqb_spec k NULL_HASH) as [->|Hk].
    + destruct (IH oldVals keys md size newVals) as (vals & E & Hl & H1 & H2); auto.
      exists vals. split; [exact E|]. split; [exact Hl|]. split.
      * intros i [|n] Hi Hn Hne Heq; cbn in *; [congruence|]. apply H1; auto. lia.
      * intros i Hi Hno. apply H2; [exact Hi|]. intros [Hne HinO]. apply Hno. cbn; auto.
    + destruct (Hin k Hk) as (i0 & Hi0 & Hki0); [cbn; auto|].
      rewrite (find_slot_firstfit keys md k i0) by assumption.
      destruct (IH oldVals keys md size (upd newVals (Z.to_nat i0) v)) as (vals & E & Hl & H1 & H2); auto.
      { rewrite upd_length; exact Hlv. }
      assert (Hi0L : 0 <= i0 < lenZ newVals) by (unfold lenZ; rewrite Hlv; lia).
      exists vals. split; [exact E|]. split; [exact Hl|]. split.
      * intros i [|n] Hi Hn Hne Heq; cbn in Heq.
        -- assert (i = i0) by (apply Hu; auto; congruence). subst i.
           cbn. rewrite H2; [|exact Hi0|].
           ++ rewrite val_at_upd by lia. rewrite Z.eqb_refl. reflexivity.
           ++ intros [_ HinO]. apply In_nth with (d := NULL_HASH) in HinO as (j & Hj & Hjx).
              apply (Hnd 0%nat (S j)); [cbn; lia|exact Hk|cbn; congruence].
        -- cbn. apply H1; auto. cbn in Hn. lia.
      * intros i Hi Hno. rewrite H2; [|exact Hi|].
        -- rewrite val_at_upd by lia. destruct (Z.eqb_spec i0 i) as [->|]; [|reflexivity].
           exfalso. apply Hno. split; [congruence|]. cbn. left. congruence.
        -- intros [Hne HinO]. apply Hno. cbn; auto.
Qed.

Lemma slot_nth keys md i : slots keys md -> 0 <= i < md ->
  nth (Z.to_nat i) keys NULL_HASH = key_at keys i /\ In (key_at keys i) keys.
Proof.
  intros [Hmd Hl] Hi. split; [reflexivity|]. apply nth_In. lia.
Qed.
Lemma in_has keys md x : slots keys md -> In x keys -> has keys md x.
Proof.
  intros [Hmd Hl] Hin. apply In_nth with (d := NULL_HASH) in Hin as (n & Hn & Hx).
  exists (Z.of_nat n). split; [lia|]. unfold key_at. rewrite Nat2Z.id. exact Hx.
Qed.
Lemma has_in keys md x : slots keys md -> has keys md x -> In x keys.
Proof. intros Hs (i & Hi & <-). apply (slot_nth keys md i Hs Hi). Qed.
Lemma uniq_nth keys md : slots keys md -> uniq keys md ->
  forall i j, (i < j < length keys)%nat -> nth i keys NULL_HASH <> NULL_HASH ->
               nth i keys NULL_HASH <> nth j keys NULL_HASH.
Proof.
  intros [Hmd Hl] Hu i j Hij Hne Heq.
  assert (Z.of_nat i = Z.of_nat j); [|lia].
  apply Hu; unfold key_at; rewrite ?Nat2Z.id; try assumption; lia.
Qed.

(* growth: everything kept, the new key added with a zero payload, size unchanged *)
Lemma growHash_spec (t t' : table) hash hint i :
  twf t -> ~ has (t_keys t) (t_mod t) hash -> hash <> NULL_HASH ->
  growHash zero t hash hint = Some (t', i) ->
  twf t' /\ In (t_mod t') prime_table /\ t_mod t < t_mod t' /\ t_size t' = t_size t /\
  0 <= i < t_mod t' /\ key_at (t_keys t') i = hash /\ val_at zero (t_vals t') i = zero /\
  firstfit (t_keys t') (t_mod t') /\
  (forall x, x <> NULL_HASH -> (has (t_keys t') (t_mod t') x <-> x = hash \/ has (t_keys t) (t_mod t) x)) /\
  (forall x, x <> NULL_HASH -> x <> hash -> lookup t' x = lookup t x) /\
  (forall j, 0 <= j < t_mod t' -> key_at (t_keys t') j = NULL_HASH -> val_at zero (t_vals t') j = zero).
Proof.
  intros Hw Hn Hh E. pose proof Hw as ((Hs & Hho & Hu) & Hv).
  unfold growHash in E.
  destruct (try_primes _ hash (t_keys t)) as [[md keys]|] eqn:ET; [|discriminate].
  apply try_primes_spec in ET as (Hin & Hmd & Hp & Hhas).
  2: { apply Forall_forall. intros p Hp. apply drop_primes_in in Hp.
       pose proof prime_table_pos as HP. rewrite Forall_forall in HP. specialize (HP p Hp). lia. }
  2: { intros x Hx Hi ->. apply Hn. eapply in_has; eauto. }
  2: { apply uniq_nth with (md := t_mod t); assumption. }
  assert (Hhas' : forall x, x <> NULL_HASH -> (has keys md x <-> x = hash \/ has (t_keys t) (t_mod t) x)).
  { intros x Hx. rewrite Hhas by exact Hx. split; intros [?|?]; auto; right.
    - eapply in_has; eauto.
    - eapply has_in; eauto. }
  destruct Hp as (Hs' & Hh' & Hu' & Hf').
  destruct (move_vals_spec (t_keys t) (t_vals t) keys md (t_size t) (repeat zero (Z.to_nat md)))
    as (vals & EM & Hlv & HV1 & HV2); auto.
  { apply repeat_length. }
  { rewrite Hv. symmetry. apply Hs. }
  { intros x Hx Hi. apply Hhas; auto. }
  { apply uniq_nth with (md := t_mod t); assumption. }
  rewrite EM in E.
  assert (HP : has keys md hash) by (apply Hhas; auto).
  destruct HP as (i0 & Hi0 & Hki0).
  rewrite (find_slot_firstfit keys md hash i0) in E by assumption.
  inversion E; subst t' i; clear E. cbn [t_mod t_keys t_vals t_size].
  assert (Hz : forall j, val_at zero (repeat zero (Z.to_nat md)) j = zero).
  { intro j. unfold val_at. generalize (Z.to_nat j). generalize (Z.to_nat md).
    induction n as [|n IH]; intros [|m]; cbn; auto. }
  assert (Hw' : twf (mkTable md keys vals (t_size t))) by (repeat split; cbn; auto; apply Hs').
  assert (Hlookup : forall x, x <> NULL_HASH -> x <> hash ->
            lookup (mkTable md keys vals (t_size t)) x = lookup t x).
  { intros x Hx Hxh. destruct (lookup t x) as [v|] eqn:E.
    - apply lookup_char in E as (n & Hn' & Hkn & ->); [|exact Hw|exact Hx].
      assert (HX : has keys md x) by (apply Hhas'; [exact Hx|right; exists n; auto]).
      destruct HX as (p & Hp & Hkp). apply lookup_char; [exact Hw'|exact Hx|].
      cbn. exists p. split; [exact Hp|]. split; [exact Hkp|].
      symmetry. rewrite (HV1 p (Z.to_nat n)); auto.
      + destruct Hs as [? Hl]. rewrite Hl. lia.
      + congruence.
      + unfold key_at in Hkn. congruence.
    - apply lookup_none; [exact Hw'|exact Hx|]. cbn. intro HX. apply Hhas' in HX as [->|HX]; auto.
      apply lookup_none in E; auto. }
  split; [exact Hw'|]. split; [eapply drop_primes_in; exact Hin|].
  split; [eapply drop_primes_gt in Hin; [|exact prime_table_sorted];
          destruct (t_mod t <? hint) eqn:EE; lia|].
  split; [reflexivity|]. split; [exact Hi0|]. split; [exact Hki0|].
  split.
  { rewrite HV2; [apply Hz|exact Hi0|]. rewrite Hki0. intros [_ HI]. apply Hn. eapply in_has; eauto. }
  split; [exact Hf'|]. split; [exact Hhas'|]. split; [exact Hlookup|].
  intros j Hj Hnull. rewrite HV2; [apply Hz|exact Hj|]. intros [HX _]. contradiction.
Qed.

(* ------------------------------------------------------------------ *)
(* get *)
Definition absent (t : table) k := ~ has (t_keys t) (t_mod t) k.
Lemma has_dec keys md k : 0 < md -> {has keys md k} + {~ has keys md k}.
Proof.
  intro Hmd.
  assert (D : forall n, {exists i, (i < n)%nat /\ nth i keys NULL_HASH = k} +
                        {~ exists i, (i < n)%nat /\ nth i keys NULL_HASH = k}).
  { induction n as [|n IH]; [right; intros (i & Hi & _); lia|].
    destruct IH as [IH|IH]; [left; destruct IH as (i & Hi & E); exists i; split; [lia|exact E]|].
    destruct (Z.eq_dec (nth n keys NULL_HASH) k) as [E|E].
    - left. exists n. split; [lia|exact E].
    - right. intros (i & Hi & Ei). destruct (Nat.eq_dec i n) as [->|]; [contradiction|].
      apply IH. exists i. split; [lia|exact Ei]. }
  destruct (D (Z.to_nat md)) as [E|E].
  - left. destruct E as (i & Hi & Ei). exists (Z.of_nat i). split; [lia|].
    unfold key_at. rewrite Nat2Z.id. exact Ei.
  - right. intros (i & Hi & Ei). apply E. exists (Z.to_nat i). split; [lia|exact Ei].
Qed.

(* insertion into a free slot *)
Lemma insert_spec (t : table) k i e size :
  twf t -> k <> NULL_HASH -> absent t k -> 0 <= e <= 3 -> i = (k + e) mod t_mod t ->
  key_at (t_keys t) i = NULL_HASH ->
  let t' := mkTable (t_mod t) (upd (t_keys t) (Z.to_nat i) k) (t_vals t) size in
  twf t' /\ key_at (t_keys t') i = k /\
  (forall x, x <> NULL_HASH -> (has (t_keys t') (t_mod t') x <-> x = k \/ has (t_keys t) (t_mod t) x)) /\
  (forall x, x <> NULL_HASH -> x <> k -> lookup t' x = lookup t x) /\
  (forall j, 0 <= j < t_mod t -> key_at (t_keys t') j = NULL_HASH -> key_at (t_keys t) j = NULL_HASH).
Proof.
  intros Hw Hk Hab He Hie Hnull t'. pose proof Hw as ((Hs & Hho & Hu) & Hv).
  pose proof Hs as [Hmd Hlen]. pose proof (slots_len _ _ Hs) as HL.
  assert (Hi : 0 <= i < t_mod t) by (subst i; apply mod_range; exact Hmd).
  assert (KA : forall j, 0 <= j < t_mod t -> key_at (t_keys t') j = if i =? j then k else key_at (t_keys t) j).
  { intros j Hj. cbn. apply key_at_upd; lia. }
  assert (Hw' : twf t').
  { split; [|exact Hv]. split; [apply slots_upd; exact Hs|]. split.
    - intros j Hj Hne. change (t_mod t') with (t_mod t) in *. rewrite KA in * by assumption.
      destruct (Z.eqb_spec i j) as [<-|]; [exists e; auto|]. apply Hho; assumption.
    - intros j j' Hj Hj' Hne Heq. change (t_mod t') with (t_mod t) in *.
      rewrite !KA in * by assumption.
      destruct (Z.eqb_spec i j) as [<-|]; destruct (Z.eqb_spec i j') as [<-|]; auto;
        exfalso; apply Hab; [exists j'|exists j]; auto. }
  assert (Hhas : forall x, x <> NULL_HASH -> (has (t_keys t') (t_mod t') x <-> x = k \/ has (t_keys t) (t_mod t) x)).
  { intros x Hx. change (t_mod t') with (t_mod t). split.
    - intros (j & Hj & Hkj). rewrite KA in Hkj by assumption.
      destruct (Z.eqb_spec i j); [left; congruence|right; exists j; auto].
    - intros [->|(j & Hj & Hkj)].
      + exists i. split; [exact Hi|]. rewrite KA, Z.eqb_refl by assumption. reflexivity.
      + exists j. split; [exact Hj|]. rewrite KA by assumption.
        destruct (Z.eqb_spec i j) as [<-|]; [congruence|exact Hkj]. }
  split; [exact Hw'|]. split; [rewrite KA, Z.eqb_refl by exact Hi; reflexivity|].
  split; [exact Hhas|]. split.
  - intros x Hx Hxk. destruct (lookup t x) as [v|] eqn:E.
    + apply lookup_char in E as (j & Hj & Hkj & ->); auto.
      apply lookup_char; auto. exists j. split; [exact Hj|]. split; [|reflexivity].
      rewrite KA by exact Hj. destruct (Z.eqb_spec i j) as [<-|]; [congruence|exact Hkj].
    + apply lookup_none; auto. intro HX. apply Hhas in HX as [->|HX]; auto.
      apply lookup_none in E; auto.
  - intros j Hj Hn. rewrite KA in Hn by exact Hj. destruct (i =? j); [contradiction|exact Hn].
Qed.

Definition pmod (t : table) : Prop := In (t_mod t) prime_table.

(* what getting a key does: wf kept, the key is present at the returned slot, all other keys
   keep their value, and the key keeps its own value if it was present *)
Record get_ok (t t' : table) (k i : Z) : Prop := {
  g_wf : twf t';
  g_pmod : pmod t';
  g_idx : 0 <= i < t_mod t';
  g_key : key_at (t_keys t') i = k;
  g_other : forall x, x <> NULL_HASH -> x <> k -> lookup t' x = lookup t x;
  g_same : forall v, lookup t k = Some v -> lookup t' k = Some v /\ t' = t;
  g_has : forall x, x <> NULL_HASH -> (has (t_keys t') (t_mod t') x <-> x = k \/ has (t_keys t) (t_mod t) x);
  g_cnt : lookup t k = None ->
          (t_mod t' = t_mod t /\ t_size t' = u32 (t_size t + 1)) \/
          (t_mod t < t_mod t' /\ t_size t' = t_size t);
  g_zero : (forall j, 0 <= j < t_mod t -> key_at (t_keys t) j = NULL_HASH -> val_at zero (t_vals t) j = zero) ->
           (forall j, 0 <= j < t_mod t' -> key_at (t_keys t') j = NULL_HASH -> val_at zero (t_vals t') j = zero) /\
           (lookup t k = None -> lookup t' k = Some zero)
}.

Lemma getIndexOfHit_ins_ok (t t' : table) k i :
  twf t -> pmod t -> k <> NULL_HASH -> absent t k ->
  getIndexOfHit_ins zero t k = Some (t', i) -> get_ok t t' k i.
Proof.
  intros Hw Hpm Hk Hab E. pose proof Hw as ((Hs & Hho & Hu) & Hv). pose proof Hs as [Hmd _].
  unfold getIndexOfHit_ins in E.
  destruct (find_slot (t_keys t) (t_mod t) k true) as [j|j|] eqn:F.
  - apply find_slot_hit in F as [Hj Hkj]; [|exact Hmd]. exfalso. apply Hab. exists j; auto.
  - apply find_slot_insert in F as (e & He & Hje & Hnull); [|exact Hmd|exact Hk].
    inversion E; subst t' i; clear E.
    destruct (insert_spec t k j e (u32 (t_size t + 1)) Hw Hk Hab He Hje Hnull) as (H1 & H2 & H3 & H4 & H5).
    assert (Hj : 0 <= j < t_mod t) by (subst j; apply mod_range; exact Hmd).
    split.
    + exact H1.
    + exact Hpm.
    + exact Hj.
    + exact H2.
    + exact H4.
    + intros v Hl. apply lookup_char in Hl as (n & Hn & Hkn & _); auto. exfalso. apply Hab. exists n; auto.
    + exact H3.
    + intros _. left. split; reflexivity.
    + intro HZ. split; [intros n Hn Hkn; cbn in *; apply HZ; auto|].
      intros _. apply lookup_char; auto. exists j. cbn in *. split; [exact Hj|]. split; [exact H2|].
      symmetry. apply HZ; assumption.
  - apply growHash_spec in E as (H1 & H2 & H3 & H4 & H5 & H6 & H7 & H8 & H9 & H10 & H11); auto.
    split.
    + exact H1.
    + exact H2.
    + exact H5.
    + exact H6.
    + exact H10.
    + intros v Hl. apply lookup_char in Hl as (n & Hn & Hkn & _); auto. exfalso. apply Hab. exists n; auto.
    + exact H9.
    + intros _. right. split; assumption.
    + intros _. split; [exact H11|]. intros _. apply lookup_char; auto. exists i. auto.
Qed.

Lemma present_get_ok (t : table) k i : twf t -> pmod t -> k <> NULL_HASH ->
  0 <= i < t_mod t -> key_at (t_keys t) i = k -> get_ok t t k i.
Proof.
  intros Hw Hp Hk Hi Hki. split; auto.
  - intros x Hx. split; [auto|]. intros [->|H]; [exists i; auto|exact H].
  - intro HN. exfalso. apply lookup_none in HN; auto. apply HN. exists i; auto.
  - intro HZ. split; [exact HZ|]. intro HN. exfalso. apply lookup_none in HN; auto. apply HN. exists i; auto.
Qed.

Lemma ht_get_ok (t t' : table) k i :
  twf t -> pmod t -> k <> NULL_HASH -> ht_get zero t k = Some (t', i) -> get_ok t t' k i.
Proof.
  intros Hw Hpm Hk E. pose proof Hw as ((Hs & Hho & Hu) & Hv). pose proof Hs as [Hmd _].
  unfold ht_get, getIndexOfHit in E.
  destruct (has_dec (t_keys t) (t_mod t) k Hmd) as [(j & Hj & Hkj)|Hab].
  - rewrite (find_slot_present _ _ _ j (proj1 Hw) Hk Hj Hkj) in E.
    inversion E; subst. apply present_get_ok; auto.
  - rewrite find_slot_absent in E by assumption. apply getIndexOfHit_ins_ok; assumption.
Qed.
Lemma ht_getRaw_ok (t t' : table) k i :
  twf t -> pmod t -> k <> NULL_HASH -> ht_getRaw zero t k = Some (t', i) -> get_ok t t' k i.
Proof.
  intros Hw Hpm Hk E. pose proof Hw as ((Hs & Hho & Hu) & Hv). pose proof Hs as [Hmd _].
  unfold ht_getRaw in E. cbv zeta in E.
  assert (M : forall d, ((k + d) mod t_mod t + 1) mod t_mod t = (k + (d+1)) mod t_mod t)
    by (intro; apply mod_succ; exact Hmd).
  rewrite (home_0 k (t_mod t)), (M 0), (M (0+1)), (M (0+1+1)) in E.
  assert (R : forall d, 0 <= (k + d) mod t_mod t < t_mod t) by (intro; apply mod_range; exact Hmd).
  repeat match goal with
  | H : (if key_at ?ks ?j =? ?k then _ else _) = _ |- _ =>
      destruct (Z.eqb_spec (key_at ks j) k) in H;
      [inversion H; subst; apply present_get_ok; auto; fail|]
  end.
  apply getIndexOfHit_ins_ok; auto. intros (j & Hj & Hkj).
  destruct (Hho j Hj) as (e & He & Hje); [congruence|]. rewrite Hkj in Hje.
  assert (e = 0 \/ e = 0+1 \/ e = 0+1+1 \/ e = 0+1+1+1) as [->|[->|[->| ->]]] by lia; congruence.
Qed.

(* ------------------------------------------------------------------ *)
(* set and remove *)
Lemma ht_set_ok (t t' : table) k v :
  twf t -> pmod t -> k <> NULL_HASH -> ht_set zero t k v = Some t' ->
  twf t' /\ pmod t' /\ lookup t' k = Some v /\
  (forall x, x <> NULL_HASH -> x <> k -> lookup t' x = lookup t x) /\
  (forall x, x <> NULL_HASH -> (has (t_keys t') (t_mod t') x <-> x = k \/ has (t_keys t) (t_mod t) x)) /\
  (forall w, lookup t k = Some w -> t_size t' = t_size t /\ t_mod t' = t_mod t) /\
  (lookup t k = None -> (t_mod t' = t_mod t /\ t_size t' = u32 (t_size t + 1)) \/
          (t_mod t < t_mod t' /\ t_size t' = t_size t)) /\
  ((forall j, 0 <= j < t_mod t -> key_at (t_keys t) j = NULL_HASH -> val_at zero (t_vals t) j = zero) ->
   (forall j, 0 <= j < t_mod t' -> key_at (t_keys t') j = NULL_HASH -> val_at zero (t_vals t') j = zero)).
Proof.
  intros Hw Hpm Hk E. unfold ht_set in E.
  destruct (ht_get zero t k) as [[t1 i]|] eqn:G; [|discriminate].
  apply ht_get_ok in G; auto. inversion E; subst t'; clear E. destruct G as [G1 G2 G3 G4 G5 G6 G7 G8 G9].
  pose proof G1 as ((Gs & Gho & Gu) & Gv).
  assert (HL : 0 <= i < lenZ (t_vals t1)) by (unfold lenZ; rewrite Gv; lia).
  set (t2 := mkTable _ _ _ _).
  assert (Hw2 : twf t2) by (split; [exact (proj1 G1)|cbn; rewrite upd_length; exact Gv]).
  split; [exact Hw2|]. split; [exact G2|]. split.
  { apply lookup_char; auto. exists i. split; [exact G3|]. split; [exact G4|].
    cbn. rewrite val_at_upd by lia. rewrite Z.eqb_refl. reflexivity. }
  split.
  { intros x Hx Hxk. rewrite <- (G5 x Hx Hxk). destruct (lookup t1 x) as [w|] eqn:L.
    - apply lookup_char in L as (j & Hj & Hkj & ->); auto. apply lookup_char; auto.
      exists j. split; [exact Hj|]. split; [exact Hkj|]. cbn. rewrite val_at_upd by lia.
      destruct (Z.eqb_spec i j) as [->|]; [congruence|reflexivity].
    - apply lookup_none; auto. apply lookup_none in L; auto. }
  split; [exact G7|]. split.
  { intros w Hl. destruct (G6 w Hl) as [_ ->]. split; reflexivity. }
  split; [exact G8|].
  intros HZ j Hj Hn. cbn in *. rewrite val_at_upd by lia.
  destruct (Z.eqb_spec i j) as [->|]; [congruence|]. apply (proj1 (G9 HZ)); assumption.
Qed.

Lemma ht_remove_ok (t : table) k :
  twf t -> pmod t -> k <> NULL_HASH ->
  let t' := fst (ht_exists zero t k true) in
  twf t' /\ pmod t' /\ lookup t' k = None /\
  (forall x, x <> NULL_HASH -> x <> k -> lookup t' x = lookup t x) /\
  snd (ht_exists zero t k true) = lookup t k /\
  t_mod t' = t_mod t /\
  (lookup t k = None -> t' = t) /\
  (forall v, lookup t k = Some v -> t_size t' = u32 (t_size t - 1)).
Proof.
  intros Hw Hpm Hk t'. pose proof Hw as ((Hs & Hho & Hu) & Hv). pose proof Hs as [Hmd _].
  pose proof (slots_len _ _ Hs) as HL.
  assert (Hsnd : snd (ht_exists zero t k true) = lookup t k).
  { unfold lookup, ht_exists. destruct (exists_slot t k); reflexivity. }
  unfold t', ht_exists in *. destruct (exists_slot t k) as [i|] eqn:E.
  - apply exists_slot_some in E as [Hi Hki]; [|exact Hmd].
    set (t1 := fst _).
    assert (KA : forall j, 0 <= j < t_mod t -> key_at (t_keys t1) j = if i =? j then NULL_HASH else key_at (t_keys t) j).
    { intros j Hj. cbn. apply key_at_upd; lia. }
    assert (Hw1 : twf t1).
    { split; [|exact Hv]. split; [apply slots_upd; exact Hs|]. split.
      - intros j Hj Hne. change (t_mod t1) with (t_mod t) in *. rewrite KA in * by assumption.
        destruct (Z.eqb_spec i j); [congruence|]. apply Hho; assumption.
      - intros j j' Hj Hj' Hne Heq. change (t_mod t1) with (t_mod t) in *.
        rewrite !KA in * by assumption.
        destruct (Z.eqb_spec i j); destruct (Z.eqb_spec i j'); try congruence. apply Hu; assumption. }
    split; [exact Hw1|]. split; [exact Hpm|]. split.
    { apply lookup_none; auto. intros (j & Hj & Hkj). change (t_mod t1) with (t_mod t) in Hj.
      rewrite KA in Hkj by exact Hj. destruct (Z.eqb_spec i j); [congruence|].
      assert (i = j); [|contradiction]. apply Hu; auto; congruence. }
    split.
    { intros x Hx Hxk. destruct (lookup t x) as [w|] eqn:L.
      - apply lookup_char in L as (j & Hj & Hkj & ->); auto. apply lookup_char; auto.
        exists j. split; [exact Hj|]. split; [|reflexivity]. rewrite KA by exact Hj.
        destruct (Z.eqb_spec i j) as [<-|]; [congruence|exact Hkj].
      - apply lookup_none; auto. intros (j & Hj & Hkj). change (t_mod t1) with (t_mod t) in Hj.
        rewrite KA in Hkj by exact Hj. destruct (Z.eqb_spec i j); [congruence|].
        apply lookup_none in L; auto. apply L. exists j; auto. }
    split; [exact Hsnd|]. split; [reflexivity|]. split.
    { intro HN. exfalso. apply lookup_none in HN; auto. apply HN. exists i; auto. }
    intros v _. reflexivity.
  - assert (HN : lookup t k = None) by (unfold lookup, ht_exists; rewrite E; reflexivity).
    cbn. split; [exact Hw|]. split; [exact Hpm|]. split; [exact HN|].
    split; [auto|]. split; [exact Hsnd|]. split; [reflexivity|]. split; [auto|].
    intros v Hl. congruence.
Qed.

(* ------------------------------------------------------------------ *)
(* the fresh table *)
Lemma ht_init_0 : exists t : table, ht_init zero 0 = Some t /\ twf t /\ pmod t /\
  t_mod t = 2 /\ t_size t = 0 /\
  (forall k, k <> NULL_HASH -> lookup t k = None) /\
  (forall j, 0 <= j < t_mod t -> key_at (t_keys t) j = NULL_HASH -> val_at zero (t_vals t) j = zero).
Proof.
  assert (K2 : forall j, 0 <= j < 2 -> key_at [NULL_HASH; NULL_HASH] j = NULL_HASH).
  { intros j Hj. assert (j = 0 \/ j = 1) as [->| ->] by lia; reflexivity. }
  exists (mkTable 2 [NULL_HASH; NULL_HASH] [zero; zero] 0).
  split; [reflexivity|].
  assert (Hw : twf (mkTable 2 [NULL_HASH; NULL_HASH] [zero; zero] 0)).
  { split; [|reflexivity]. split; [split; [cbn; lia|reflexivity]|]. cbn [t_keys t_mod]. split.
    - intros i Hi Hne. rewrite K2 in Hne by exact Hi. congruence.
    - intros i j Hi Hj Hne. rewrite K2 in Hne by exact Hi. congruence. }
  split; [exact Hw|]. split; [cbn; auto|]. split; [reflexivity|]. split; [reflexivity|]. split.
  - intros k Hk. apply lookup_none; auto. intros (i & Hi & E). cbn [t_keys t_mod] in *.
    rewrite K2 in E by exact Hi. congruence.
  - intros j Hj _. cbn in *. assert (j = 0 \/ j = 1) as [->| ->] by lia; reflexivity.
Qed.

(* ------------------------------------------------------------------ *)
(* counting live slots *)
Definition live (keys : list Z) : list Z := filter (fun k => negb (k =? NULL_HASH)) keys.

Lemma iterate_keys (t : table) : length (t_vals t) = length (t_keys t) ->
  map fst (ht_iterate t) = live (t_keys t).
Proof.
  unfold ht_iterate. generalize (t_vals t). induction (t_keys t) as [|k ks IH]; intros [|v vs] H; cbn in *;
    try discriminate; auto.
  destruct (k =? NULL_HASH); cbn; [|f_equal]; apply IH; lia.
Qed.
Lemma live_NoDup keys md : slots keys md -> uniq keys md -> NoDup (live keys).
Proof.
  intros Hs Hu. pose proof (uniq_nth keys md Hs Hu) as H. clear Hs Hu.
  induction keys as [|k ks IH]; cbn; [constructor|].
  assert (IH' : NoDup (live ks)).
  { apply IH. intros i j Hij Hne. apply (H (S i) (S j)); [cbn; lia|exact Hne]. }
  destruct (Z.eqb_spec k NULL_HASH) as [->|Hk]; cbn; [exact IH'|].
  constructor; [|exact IH']. intro Hin. apply filter_In in Hin as [Hin _].
  apply In_nth with (d := NULL_HASH) in Hin as (j & Hj & Hjx).
  apply (H 0%nat (S j)); [cbn; lia|exact Hk|cbn; congruence].
Qed.
Lemma live_in keys md k : slots keys md -> (In k (live keys) <-> k <> NULL_HASH /\ has keys md k).
Proof.
  intro Hs. unfold live. rewrite filter_In. split.
  - intros [Hin Hne]. split; [lia|]. eapply in_has; eauto.
  - intros [Hne Hh]. split; [eapply has_in; eauto|]. lia.
Qed.
Lemma NoDup_same_length (a b : list Z) : NoDup a -> NoDup b -> (forall x, In x a <-> In x b) -> length a = length b.
Proof.
  intros Ha Hb H. apply Nat.le_antisymm; apply NoDup_incl_length; auto; intros x Hx; apply H; exact Hx.
Qed.
Lemma live_cons_length keys md keys' md' k :
  slots keys md -> uniq keys md -> slots keys' md' -> uniq keys' md' -> k <> NULL_HASH ->
  ~ has keys md k ->
  (forall x, x <> NULL_HASH -> (has keys' md' x <-> x = k \/ has keys md x)) ->
  length (live keys') = S (length (live keys)).
Proof.
  intros Hs Hu Hs' Hu' Hk Hab H.
  change (S (length (live keys))) with (length (k :: live keys)).
  apply NoDup_same_length.
  - eapply live_NoDup; eauto.
  - constructor; [|eapply live_NoDup; eauto]. rewrite (live_in keys md k Hs). tauto.
  - intro x. cbn. rewrite (live_in keys md x Hs), (live_in keys' md' x Hs'). split.
    + intros [Hx Hh]. apply H in Hh; [|exact Hx]. intuition congruence.
    + intros [<-|[Hx Hh]]; (split; [congruence|]); apply H; auto.
Qed.
Lemma live_same_length keys md keys' md' :
  slots keys md -> uniq keys md -> slots keys' md' -> uniq keys' md' ->
  (forall x, x <> NULL_HASH -> (has keys' md' x <-> has keys md x)) ->
  length (live keys') = length (live keys).
Proof.
  intros Hs Hu Hs' Hu' H. apply NoDup_same_length; try (eapply live_NoDup; eauto; fail).
  intro x. rewrite (live_in keys md x Hs), (live_in keys' md' x Hs'). 
  split; intros [Hx Hh]; (split; [exact Hx|]); apply H; auto.
Qed.

Lemma iterate_in (t : table) k v : twf t -> k <> NULL_HASH ->
  (In (k, v) (ht_iterate t) <-> lookup t k = Some v).
Proof.
  intros Hw Hk. rewrite lookup_char by assumption. pose proof Hw as ((Hs & _ & _) & Hv).
  assert (G : In (k, v) (ht_iterate t) <->
              exists n, (n < length (t_keys t))%nat /\ nth n (t_keys t) NULL_HASH = k /\ v = nth n (t_vals t) zero).
  { unfold ht_iterate. destruct Hs as [_ Hl]. rewrite <- Hl in Hv. clear Hl Hw. revert Hv.
    generalize (t_vals t). induction (t_keys t) as [|k0 ks IH]; intros [|v0 vs] Hv; cbn in Hv; try discriminate.
    - cbn. split; [tauto|]. intros (n & Hn & _); cbn in Hn; lia.
    - cbn [iter_from]. destruct (Z.eqb_spec k0 NULL_HASH) as [->|Hk0].
      + rewrite IH by lia. split.
        * intros (n & Hn & E1 & E2). exists (S n). cbn. split; [lia|]. auto.
        * intros ([|n] & Hn & E1 & E2); cbn in *; [congruence|]. exists n. split; [lia|]. auto.
      + cbn [In]. rewrite IH by lia. split.
        * intros [E|(n & Hn & E1 & E2)]; [inversion E; subst; exists 0%nat; cbn; split; [lia|]; auto|].
          exists (S n). cbn. split; [lia|]. auto.
        * intros ([|n] & Hn & E1 & E2); cbn in *; [left; congruence|]. right. exists n. split; [lia|]. auto. }
  rewrite G. destruct Hs as [Hmd Hl]. split.
  - intros (n & Hn & E1 & E2). exists (Z.of_nat n). unfold key_at, val_at. rewrite !Nat2Z.id.
    split; [lia|]. auto.
  - intros (i & Hi & E1 & E2). exists (Z.to_nat i). split; [lia|]. auto.
Qed.

End TableProofs.
