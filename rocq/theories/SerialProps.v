(* C09, C10: serialising and deserialising script values. *)
From Verif Require Import Base BaseLemmas HashModel HashProofs HashTableModel SerialModel SerialSpec SerialProofs.
Ltac Zify.zify_post_hook ::= Z.div_mod_to_equations.

(* C09: whatever follows in the stream, reading back yields the same tree and stops exactly at the
   end of the serialised form.  Missing: the reported element count of hash tables, container
   keys, containers of 65536 elements or more, structs inside hash tables (see the refutations). *)
Theorem serialise_roundtrip_partial obj_hash v rest : good v ->
  exists bs v', serialize v = Some bs /\ deserialize obj_hash (bs ++ rest) = DOk v' rest /\ same v v'.
Proof.
  intros G. destruct (roundtrip_exact obj_hash v rest G) as (S&v'&D&E). exists (fst (ser v)), v'. auto.
Qed.
(* without hash tables inside, reading back yields the value itself *)
Fixpoint no_tables (v : sval) : Prop :=
  match v with
  | SInt _ | SFlt _ | SStr _ => True
  | SArr vs => (fix all l := match l with [] => True | x :: t => no_tables x /\ all t end) vs
  | _ => False
  end.
Lemma same_no_tables v : no_tables v -> forall v', same v v' -> v' = v.
Proof.
  induction v as [u|u|bs|vs IH|cnt ss IH|x] using sval_ind'; intros N v' S; inversion S as [| | |? ws F|]; subst; auto.
  - f_equal. clear S. revert ws F. cbn in N. induction vs as [|y vs IHv]; intros ws F; inversion F; subst; [reflexivity|].
    inversion IH; subst. destruct N as [N1 N2]. f_equal; auto.
  - destruct N.
Qed.
Theorem serialise_arrays_exact obj_hash v rest : good v -> no_tables v ->
  exists bs, serialize v = Some bs /\ deserialize obj_hash (bs ++ rest) = DOk v rest.
Proof.
  intros G N. destruct (serialise_roundtrip_partial obj_hash v rest G) as (bs&v'&S&D&E). exists bs.
  rewrite (same_no_tables v N v' E) in D. auto.
Qed.

(* [ 1, "hi", { "k" -> 2.0 } ] *)
Definition sample : sval :=
  SArr [SInt 1; SStr [104; 105]; SHash 1 [Some (wr_hash [107] 0, SFlt 1073741824, SStr [107]); None]].
Example sample_good : good sample.
Proof.
  constructor; [reflexivity|]. repeat constructor; unfold is_u32, is_byte; try lia; try reflexivity.
  intros H. vm_compute in H. discriminate.
Qed.
Example sample_roundtrip : exists bs, serialize sample = Some bs /\ length bs = 34%nat.
Proof. eexists. split; [reflexivity|]. reflexivity. Qed.

(* the element count is not restored: a table of one element comes back reporting a different count *)
Theorem serialise_count_refuted : exists n slots, good (SHash n slots) /\ forall obj_hash, exists bs n',
  serialize (SHash n slots) = Some bs /\ deserialize obj_hash bs = DOk (SHash n' slots) [] /\ n' <> n.
Proof.
  exists 1, [Some (7, SInt 5, SInt 7); None; None; None; None]. split.
  - constructor; [cbn; auto|]. repeat constructor; unfold is_u32; try lia. discriminate.
  - intros. eexists _, 4. split; [reflexivity|]. split; [reflexivity|discriminate].
Qed.
(* a table holding a struct: serialisation reports success but the bytes cannot be read back *)
Theorem serialise_struct_in_table_refuted : exists v, forall obj_hash, exists bs,
  serialize v = Some bs /\ deserialize obj_hash bs = DFail.
Proof. exists (SHash 1 [Some (7, SOther 192, SInt 7); None]). intros. eexists. split; reflexivity. Qed.
(* 65536 characters: only the length modulo 2^16 is recorded *)
Theorem serialise_long_string_refuted obj_hash s : lenZ s = 65536 -> exists bs,
  serialize (SStr s) = Some bs /\ deserialize obj_hash bs = DOk (SStr []) s.
Proof.
  intros L. unfold serialize. cbn [ser]. rewrite L. eexists. split; [reflexivity|]. reflexivity.
Qed.
Example long_string_exists : lenZ (repeat 97 (Z.to_nat 65536)) = 65536.
Proof. unfold lenZ. rewrite repeat_length. lia. Qed.
(* keys that are containers are found again only if their address-dependent hash is reproduced *)
Theorem serialise_container_key_refuted : exists v, forall obj_hash, obj_hash (SArr []) <> 7 -> exists bs v',
  serialize v = Some bs /\ deserialize obj_hash bs = DOk v' [] /\ ~ same v v'.
Proof.
  exists (SHash 1 [Some (7, SInt 1, SArr []); None]). intros oh N. eexists. eexists. split; [reflexivity|]. split; [reflexivity|].
  intros S. inversion S as [| | | |? ? ? ? F]; subst. inversion F as [|? ? ? ? S1]; subst. unfold slot_of in S1.
  cbn [key_hash] in S1. destruct (oh (SArr []) =? NULL_HASH); inversion S1; subst; congruence.
Qed.

(* the output buffer: any sequence of writes stays inside its allocation and hands over exactly the
   bytes written, in order *)
Theorem serial_buffer_appends junk ds : lenZ (concat ds) < 268435456 -> exists b,
  buf_writes junk buf_empty ds = Some b /\ buf_contents b = concat ds.
Proof.
  intros H. destruct (writes_ok junk ds buf_empty) as (b&E&C); [split; cbn; lia|cbn [b_cap buf_empty]; lia|].
  exists b. auto.
Qed.
Example serial_buffer_ex : exists b, buf_writes 170 buf_empty [[3]; [160]; [5]; [2; 0]; [104; 105]; []; [1; 2; 3; 4; 5; 6; 7; 8; 9; 10]] = Some b /\ b_cap b = 38.
Proof. eexists. split; [vm_compute; reflexivity|reflexivity]. Qed.

(* C10: on any bytes the reader stops, only ever consumes a prefix of the input, and the only
   undefined behaviour is a hash table header of size 0 or above 49157. *)
Theorem deserialise_any_bytes_partial obj_hash bs : bytes_ok bs ->
  match deserialize obj_hash bs with
  | DOk _ rest => exists used, bs = used ++ rest /\ used <> []
  | DFail => True
  | DUB => bad_hash_header bs
  | DFuel => False
  end.
Proof.
  intros B. pose proof (deser_ok obj_hash (S (length bs)) bs B ltac:(lia)) as O. unfold deserialize.
  destruct (deser obj_hash (S (length bs)) bs) as [v r| | |]; cbn in O; auto.
  destruct O as [[p ->] L]. exists p. split; [reflexivity|]. intros ->. cbn in L. lia.
Qed.
Theorem deserialise_safe_refuted : exists bs, bytes_ok bs /\ forall obj_hash, deserialize obj_hash bs = DUB.
Proof. exists [3; 224; 0; 0]. split; [repeat constructor; unfold is_byte; lia|reflexivity]. Qed.
Example deserialise_truncated obj_hash : deserialize obj_hash [3; 160; 4; 2; 0; 0; 1; 0; 0; 0] = DFail.
Proof. reflexivity. Qed.

Print Assumptions serialise_roundtrip_partial.
Print Assumptions serialise_arrays_exact.
Print Assumptions serialise_count_refuted.
Print Assumptions serialise_struct_in_table_refuted.
Print Assumptions serialise_long_string_refuted.
Print Assumptions serialise_container_key_refuted.
Print Assumptions serial_buffer_appends.
Print Assumptions deserialise_any_bytes_partial.
Print Assumptions deserialise_safe_refuted.
