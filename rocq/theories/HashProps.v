(* C06, C07, C08: name hashing, image checksum, operand packing. *)
From Verif Require Import Base HashModel HashProofs.

(* ---- C06 ---- a name hashed as a C string equals the same bytes hashed by length,
   for every non-empty-byte ASCII name, whatever follows the terminator *)
Theorem name_hash_agrees : forall (name rest : list Z) (serial : Z),
  Forall (fun b => 1 <= b < 128) name ->
  wr_hashStr (name ++ 0 :: rest) serial = Some (wr_hash name serial).
Proof. intros; apply hashStr_agrees; assumption. Qed.
Print Assumptions name_hash_agrees.
Example name_hash_agrees_ex : Forall (fun b => 1 <= b < 128) [112;114;105;110;116].
Proof. repeat constructor; cbn; discriminate || reflexivity. Qed.

(* the same for arbitrary bytes is false: a byte >= 0x80 is sign-extended by the C-string
   version only (finding: string case labels / names outside ASCII hash differently) *)
Theorem name_hash_agrees_all_bytes_refuted :
  exists name : list Z, Forall (fun b => 1 <= b < 256) name /\
    wr_hashStr (name ++ [0]) 0 <> Some (wr_hash name 0).
Proof.
  exists [195; 169]. split; [repeat constructor; cbn; discriminate || reflexivity|].
  vm_compute. discriminate.
Qed.
Print Assumptions name_hash_agrees_all_bytes_refuted.

(* reading past an unterminated buffer is undefined behaviour *)
Theorem name_hash_needs_terminator : forall (mem : list Z) (serial : Z),
  Forall (fun b => b <> 0) mem -> wr_hashStr mem serial = None.
Proof. intros; apply hashStr_unterminated; assumption. Qed.
Print Assumptions name_hash_needs_terminator.

(* incremental hashing *)
Theorem hash_resumable : forall (a b : list Z) (serial : Z),
  wr_hash a serial <> 0 -> wr_hash (a ++ b) serial = wr_hash b (wr_hash a serial).
Proof. intros; apply wr_hash_app; assumption. Qed.
Print Assumptions hash_resumable.
Example hash_resumable_ex : wr_hash [115;116;114;58;58] 0 <> 0.
Proof. vm_compute. discriminate. Qed.

(* a zero intermediate hash restarts the hash: unconditional resumption is false *)
Theorem hash_resumable_refuted : exists a b : list Z,
  Forall is_byte a /\ Forall is_byte b /\ wr_hash (a ++ b) 0 <> wr_hash b (wr_hash a 0).
Proof.
  exists [204; 36; 49; 196], [65].
  split; [repeat constructor; cbn; discriminate || reflexivity|].
  split; [repeat constructor; cbn; discriminate || reflexivity|].
  vm_compute. discriminate.
Qed.
Print Assumptions hash_resumable_refuted.

(* the hash is a 32-bit value *)
Theorem hash_is_32bit : forall (a : list Z) (serial : Z), is_u32 serial -> is_u32 (wr_hash a serial).
Proof. intros; apply wr_hash_u32; assumption. Qed.
Print Assumptions hash_is_32bit.

(* ---- C07 ---- *)
Theorem linked_image_is_valid : forall code : list Z,
  (4 <= length code)%nat -> wr_isBytecodeValid (append_crc code) = true.
Proof. intros; apply append_crc_valid; assumption. Qed.
Print Assumptions linked_image_is_valid.

Theorem single_byte_corruption_rejected : forall (img : list Z) (i : nat) (old new : Z),
  Forall is_byte img -> is_byte new ->
  wr_isBytecodeValid img = true ->
  nth_error img i = Some old -> old <> new ->
  wr_isBytecodeValid (upd img i new) = false /\
  wr_createContext_accepts (upd img i new) = false.
Proof.
  intros img i old new Hi Hn Hv He Hd.
  pose proof (one_byte_detected img i new old Hi Hn Hv He Hd) as E. split; [exact E|].
  destruct (wr_createContext_accepts (upd img i new)) eqn:A; [|reflexivity].
  apply accepts_valid in A. congruence.
Qed.
Print Assumptions single_byte_corruption_rejected.
Example single_byte_corruption_ex :
  let img := append_crc [0;1;0;255;17;3;9;200] in
  Forall is_byte img /\ wr_isBytecodeValid img = true /\ nth_error img 4 = Some 17.
Proof. split; [repeat constructor; vm_compute; discriminate || reflexivity|split; vm_compute; reflexivity]. Qed.

(* the loader accepts exactly the valid images whose function table fits *)
Theorem loader_accepts_iff : forall img : list Z,
  wr_createContext_accepts img = true <->
  (wr_isBytecodeValid img = true /\ exists funcs, nth_error img 1 = Some funcs /\
     3 + funcs * 11 + 4 <= lenZ img).
Proof. exact accepts_iff. Qed.
Print Assumptions loader_accepts_iff.
Example loader_accepts_ex : wr_createContext_accepts (append_crc [0;0;0;255;17;3;9;200]) = true.
Proof. vm_compute. reflexivity. Qed.
Example loader_rejects_ex : wr_createContext_accepts (append_crc [0;1;0;255;17;3;9;200]) = false.
Proof. vm_compute. reflexivity. Qed.

(* ---- C08 ---- *)
Theorem packed16_roundtrip : forall (pre post : list Z) (x : Z), is_s16 x ->
  read16_at (pre ++ wr_pack16 x ++ post) (length pre) = Some x /\
  Forall is_byte (wr_pack16 x).
Proof.
  intros pre post x H. split; [|apply pack16_bytes].
  rewrite read16_at_pack. f_equal. apply BaseLemmas.s16_id. exact H.
Qed.
Print Assumptions packed16_roundtrip.
Theorem packed32_roundtrip : forall (pre post : list Z) (x : Z), is_s32 x ->
  read32_at (pre ++ wr_pack32 x ++ post) (length pre) = Some x /\
  Forall is_byte (wr_pack32 x).
Proof.
  intros pre post x H. split; [|apply pack32_bytes].
  rewrite read32_at_pack. f_equal. apply BaseLemmas.s32_id. exact H.
Qed.
Print Assumptions packed32_roundtrip.
(* unsigned readers: the value read, viewed as unsigned, is the value written modulo the width *)
Theorem packed_unsigned_roundtrip : forall (pre post : list Z) (x : Z),
  (is_u16 x -> option_map u16 (read16_at (pre ++ wr_pack16 x ++ post) (length pre)) = Some x) /\
  (is_u32 x -> option_map u32 (read32_at (pre ++ wr_pack32 x ++ post) (length pre)) = Some x).
Proof.
  intros pre post x. split; intro H.
  - rewrite read16_at_pack. cbn. rewrite BaseLemmas.u16_s16, BaseLemmas.u16_id by exact H. reflexivity.
  - rewrite read32_at_pack. cbn. rewrite BaseLemmas.u32_s32, BaseLemmas.u32_id by exact H. reflexivity.
Qed.
Print Assumptions packed_unsigned_roundtrip.
