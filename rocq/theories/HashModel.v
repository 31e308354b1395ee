(* Name hashing, little-endian packing, image checksum. *)
From Verif Require Import Base.

(* lib/std.cpp:35,54,71,84  initial value when no serial is given *)
Definition fnv_basis : Z := 2166136261. (* 0x811C9DC5 *)
(* lib/std.cpp:41,60,74,87 *)
Definition fnv_prime : Z := 16777619.   (* 0x1000193 *)

(* loop body of all four hash functions: hash ^= x; hash *= 0x1000193  (uint32_t) *)
Definition fnv_step (h x : Z) : Z := u32 (Z.lxor h x * fnv_prime).

(* lib/std.cpp:32-45 wr_hash_read8; the buffer is the list of its [len] bytes
   (unsigned char) *)
Definition wr_hash_read8 (dat : list Z) : Z := fold_left fnv_step dat fnv_basis.

(* lib/std.cpp:48-61 wr_hash *)
Definition wr_hash (dat : list Z) (serial : Z) : Z :=
  fold_left fnv_step dat (if serial =? 0 then fnv_basis else serial).

(* [(uint32_t)c] for a plain [char] c holding byte b, with signed [char]
   (x86/ARM-linux-gnu default for x86): sign extension, lib/std.cpp:72,86 *)
Definition char_to_u32 (b : Z) : Z := u32 (s8 b).

(* lib/std.cpp:81-93 wr_hashStr and lib/std.cpp:64-78 wr_hashStr_read8 (serial 0):
   [mem] is the memory from the pointer on; None = reads past the end of it (UB) *)
Fixpoint hashStr_loop (h : Z) (mem : list Z) : option Z :=
  match mem with
  | [] => None
  | b :: t => if b =? 0 then Some h else hashStr_loop (fnv_step h (char_to_u32 b)) t
  end.
Definition wr_hashStr (mem : list Z) (serial : Z) : option Z :=
  hashStr_loop (if serial =? 0 then fnv_basis else serial) mem.
Definition wr_hashStr_read8 (mem : list Z) : option Z := wr_hashStr mem 0.

(* utils/utils.cpp:63-68 wr_pack16 *)
Definition wr_pack16 (i : Z) : list Z :=
  [Z.land i 255; Z.land (Z.shiftr i 8) 255].
(* utils/utils.cpp:71-78 wr_pack32 *)
Definition wr_pack32 (l : Z) : list Z :=
  [Z.land l 255; Z.land (Z.shiftr l 8) 255;
   Z.land (Z.shiftr l 16) 255; Z.land (Z.shiftr l 24) 255].

(* vm/vm.h:161,191  READ_32_FROM_PC (portable form; the WRENCH_UNALIGNED_READS form
   is the same function on a little-endian machine): the four bytes at P *)
Definition read32 (b0 b1 b2 b3 : Z) : Z :=
  s32 (Z.lor (Z.lor (Z.lor b0 (Z.shiftl b1 8)) (Z.shiftl b2 16)) (Z.shiftl b3 24)).
(* vm/vm.h:168,194  READ_16_FROM_PC *)
Definition read16 (b0 b1 : Z) : Z := s16 (Z.lor b0 (Z.shiftl b1 8)).

(* reading from a byte list at a position; None = past the end *)
Definition read32_at (l : list Z) (p : nat) : option Z :=
  match skipn p l with
  | b0 :: b1 :: b2 :: b3 :: _ => Some (read32 b0 b1 b2 b3)
  | _ => None
  end.
Definition read16_at (l : list Z) (p : nat) : option Z :=
  match skipn p l with
  | b0 :: b1 :: _ => Some (read16 b0 b1)
  | _ => None
  end.

(* wrench.h WRENCH_VERSION_MAJOR *)
Definition version_major : Z := 7.

(* cc/link.cpp:404-407: append the salted CRC to the finished code *)
Definition append_crc (code : list Z) : list Z :=
  code ++ wr_pack32 (u32 (wr_hash code 0 + version_major)).

(* utils/utils.cpp:414-434 wr_isBytecodeValid *)
Definition wr_isBytecodeValid (img : list Z) : bool :=
  if (length img <? 8)%nat then false
  else match read32_at img (length img - 4) with
       | None => false (* not reachable: length >= 8 *)
       | Some h =>
         u32 h =? u32 (wr_hash_read8 (firstn (length img - 4) img) + version_major)
       end.

(* vm/vm.h:29 WR_FUNCTION_CORE_SIZE *)
Definition function_core_size : Z := 11.

(* utils/utils.cpp:277-303 wr_createContext, acceptance test only *)
Definition wr_createContext_accepts (img : list Z) : bool :=
  if (length img <? 8)%nat then false
  else if negb (wr_isBytecodeValid img) then false
  else match nth_error img 1 with
       | None => false
       | Some funcs => negb (lenZ img <? 3 + funcs * function_core_size + 4)
       end.
