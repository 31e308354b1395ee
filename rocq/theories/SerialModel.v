(* utils/serializer.cpp, utils/serializer.h: the binary form of script values.
   A value is the finite tree reached by dereferencing (serializer.cpp:34 derefs at every level);
   cyclic values make the C++ recursion infinite and have no finite tree.  Allocation failure is
   not modelled (WRENCH_HANDLE_MALLOC_FAIL).  All multi-byte fields are little-endian after
   wr_x16/wr_x32. *)
From Verif Require Import Base HashModel HashTableModel.

(* wrench.h:712-762 type bytes *)
Definition T_INT : Z := 0.
Definition T_FLOAT : Z := 1.
Definition T_EX : Z := 3.
Definition X_ARRAY : Z := 160.
Definition X_HASH : Z := 224.
Definition S_VALUE : Z := 4.
Definition S_CHAR : Z := 5.

(* SInt/SFlt: 32-bit payloads.  SHash size slots: m_size, and for each of the m_mod slots the
   (stored hash, value, key) if its m_hashTable entry is not WRENCH_NULL_HASH.
   SOther: any other WR_EX value (struct, host memory, iterator, ...), by its xtype byte. *)
Inductive sval :=
| SInt (u : Z) | SFlt (u : Z) | SStr (bs : list Z) | SArr (vs : list sval)
| SHash (size : Z) (slots : list (option (Z * sval * sval)))
| SOther (xtype : Z).

Definition le16 (n : Z) : list Z := [n mod 256; (n / 256) mod 256].
Definition le32 (n : Z) : list Z := [n mod 256; (n / 256) mod 256; (n / 65536) mod 256; (n / 16777216) mod 256].

(* serializer.cpp:28-108 wr_serializeEx: the bytes written, and the returned flag.  The flag of
   nested calls is ignored for hash tables (:94-95). *)
Fixpoint ser (v : sval) : list Z * bool :=
  match v with
  | SInt u => (T_INT :: le32 u, true)
  | SFlt u => (T_FLOAT :: le32 u, true)
  | SStr bs => (T_EX :: X_ARRAY :: S_CHAR :: le16 (lenZ bs) ++ bs, true)
  | SArr vs =>
    let fix elems (l : list sval) : list Z * bool :=
      match l with
      | [] => ([], true)
      | x :: t => let '(b, ok) := ser x in
                  if ok then let '(b2, ok2) := elems t in (b ++ b2, ok2) else (b, false)
      end in
    let '(b, ok) := elems vs in
    (T_EX :: X_ARRAY :: S_VALUE :: le16 (lenZ vs) ++ b, ok)
  | SHash _ slots =>
    let fix entries (l : list (option (Z * sval * sval))) : list Z :=
      match l with
      | [] => []
      | None :: t => 0 :: entries t
      | Some (_, x, k) :: t => 1 :: fst (ser x) ++ fst (ser k) ++ entries t
      end in
    (T_EX :: X_HASH :: le16 (lenZ slots) ++ entries slots, true)
  | SOther x => ([T_EX; x], false)
  end.
(* serializer.cpp:253-263 wr_serialize *)
Definition serialize (v : sval) : option (list Z) := let '(b, ok) := ser v in if ok then Some b else None.

(* DOk: true, the value, the unread bytes.  DFail: false.  DUB: undefined behaviour (c_primeTable
   or the input buffer read past its end). *)
Inductive dres A := DOk (a : A) (rest : list Z) | DFail | DUB | DFuel.
Arguments DOk {A} a rest. Arguments DFail {A}. Arguments DUB {A}. Arguments DFuel {A}.

(* serializer.h:69-84 read: false if fewer than n bytes are left, else memcpy from the input buffer
   ([copy]: None when it would read outside the buffer) *)
Definition copy (n : nat) (bs : list Z) : option (list Z) :=
  let c := firstn n bs in if (length c =? n)%nat then Some c else None.
Definition rd (n : nat) (bs : list Z) : dres (list Z) :=
  if (n <=? length bs)%nat then match copy n bs with Some c => DOk c (skipn n bs) | None => DUB end else DFail.
(* read( &x, 1 ), read( &x, 2 ) and read( &x, 4 ) followed by wr_x16, wr_x32 *)
Definition rd8 (bs : list Z) : dres Z :=
  match rd 1 bs with DOk [a] r => DOk a r | DFail => DFail | _ => DUB end.
Definition rd16 (bs : list Z) : dres Z :=
  match rd 2 bs with DOk [a; b] r => DOk (a + 256 * b) r | DFail => DFail | _ => DUB end.
Definition rd32 (bs : list Z) : dres Z :=
  match rd 4 bs with DOk [a; b; c; d] r => DOk (a + 256 * b + 65536 * c + 16777216 * d) r | DFail => DFail | _ => DUB end.

Section De.
(* getHash of a container used as a key depends on addresses (operations.cpp:196-243) *)
Variable obj_hash : sval -> Z.
(* wrench.h:874, operations.cpp:179-245 getHash of a deserialised key *)
Definition key_hash (k : sval) : Z :=
  match k with
  | SInt u | SFlt u => u
  | SStr bs => wr_hash bs 0
  | SOther _ => 0
  | _ => obj_hash k
  end.
(* gc_object.cpp:189-203 the modulus chosen by init( size, SV_HASH_TABLE ) *)
Definition hash_mod (size : Z) : option Z :=
  match drop_primes prime_table (u16 size) with [] => None | p :: _ => Some p end.
Definition slot_of (x k : sval) : option (Z * sval * sval) :=
  if key_hash k =? NULL_HASH then None else Some (key_hash k, x, k).

(* serializer.cpp:111-250 wr_deserializeEx; [fuel] bounds the recursion depth *)
Fixpoint de_elems (f : list Z -> dres sval) (n : nat) (bs : list Z) : dres (list sval) :=
  match n with
  | O => DOk [] bs
  | S n' =>
    match f bs with
    | DOk v r => match de_elems f n' r with DOk vs r' => DOk (v :: vs) r' | DFail => DFail | DUB => DUB | DFuel => DFuel end
    | DFail => DFail | DUB => DUB | DFuel => DFuel
    end
  end.
Fixpoint de_slots (f : list Z -> dres sval) (n : nat) (bs : list Z) : dres (list (option (Z * sval * sval))) :=
  match n with
  | O => DOk [] bs
  | S n' =>
    match rd8 bs with
    | DFail => DFail | DUB => DUB | DFuel => DFuel
    | DOk flag r =>
      let one := if flag =? 0 then DOk None r
                 else match f r with
                      | DOk x r1 => match f r1 with DOk k r2 => DOk (slot_of x k) r2 | DFail => DFail | DUB => DUB | DFuel => DFuel end
                      | DFail => DFail | DUB => DUB | DFuel => DFuel
                      end in
      match one with
      | DOk s r' => match de_slots f n' r' with DOk ss r2 => DOk (s :: ss) r2 | DFail => DFail | DUB => DUB | DFuel => DFuel end
      | DFail => DFail | DUB => DUB | DFuel => DFuel
      end
    end
  end.
Fixpoint deser (fuel : nat) (bs : list Z) : dres sval :=
  match fuel with
  | O => DFuel
  | S n =>
    match rd8 bs with
    | DFail => DFail | DUB => DUB | DFuel => DFuel
    | DOk t r =>
      if (t =? T_INT) || (t =? T_FLOAT) then
        match rd32 r with
        | DOk u r' => DOk (if t =? T_INT then SInt u else SFlt u) r'
        | DFail => DFail | DUB => DUB | DFuel => DFuel
        end
      else if t =? T_EX then
        match rd8 r with
        | DFail => DFail | DUB => DUB | DFuel => DFuel
        | DOk x r1 =>
          if x =? X_ARRAY then
            match rd8 r1 with
            | DFail => DFail | DUB => DUB | DFuel => DFuel
            | DOk st r2 =>
              match rd16 r2 with
              | DFail => DFail | DUB => DUB | DFuel => DFuel
              | DOk sz r3 =>
                if st =? S_CHAR then
                  match rd (Z.to_nat sz) r3 with DOk c r4 => DOk (SStr c) r4 | DFail => DFail | DUB => DUB | DFuel => DFuel end
                else if st =? S_VALUE then
                  match de_elems (deser n) (Z.to_nat sz) r3 with
                  | DOk vs r4 => DOk (SArr vs) r4 | DFail => DFail | DUB => DUB | DFuel => DFuel end
                else DFail
              end
            end
          else if x =? X_HASH then
            match rd16 r1 with
            | DFail => DFail | DUB => DUB | DFuel => DFuel
            | DOk md r2 =>
              match hash_mod (md - 1) with
              | None => DUB
              | Some p =>
                match de_slots (deser n) (Z.to_nat md) r2 with
                | DOk ss r3 => DOk (SHash (md - 1) (ss ++ repeat None (Z.to_nat p - length ss))) r3
                | DFail => DFail | DUB => DUB | DFuel => DFuel
                end
              end
            end
          else DFail
        end
      else DFail
    end
  end.
(* serializer.cpp:266-270 wr_deserialize: every level of nesting reads at least one byte, so
   depth [length bs] is never exceeded (proved) *)
Definition deserialize (bs : list Z) : dres sval := deser (S (length bs)) bs.
End De.

(* serializer.h:37-130 WRValueSerializer as a growing output buffer.  b_mem is the allocation, of
   length m_size; [junk] is the content of fresh memory.  [None]: a write outside the allocation.
   Positions are 32-bit in the C++; the theorem bounds the total written below 2^29. *)
Record sbuf := mkBuf { b_pos : Z; b_cap : Z; b_mem : list Z }.
Definition buf_empty : sbuf := mkBuf 0 0 [].
(* memcpy( mem + pos, data, size ) *)
Definition blit (mem : list Z) (pos : Z) (data : list Z) : option (list Z) :=
  if (0 <=? pos) && (pos + lenZ data <=? lenZ mem)
  then Some (firstn (Z.to_nat pos) mem ++ data ++ skipn (Z.to_nat (pos + lenZ data)) mem) else None.
(* serializer.h:86-117 write *)
Definition buf_write (junk : Z) (b : sbuf) (data : list Z) : option sbuf :=
  let size := lenZ data in
  if size <=? 0 then Some b
  else
    let grow := b_cap b <=? u32 (b_pos b + size) in
    let cap := if grow then u32 (b_cap b + (size * 2 + 8)) else b_cap b in
    let fresh := if grow then
                   if 0 <? b_pos b then blit (repeat junk (Z.to_nat cap)) 0 (firstn (Z.to_nat (b_pos b)) (b_mem b))
                   else Some (repeat junk (Z.to_nat cap))
                 else Some (b_mem b) in
    match fresh with
    | None => None
    | Some mem => match blit mem (b_pos b) data with
                  | None => None
                  | Some mem' => Some (mkBuf (u32 (b_pos b + size)) cap mem')
                  end
    end.
Fixpoint buf_writes (junk : Z) (b : sbuf) (ds : list (list Z)) : option sbuf :=
  match ds with [] => Some b | d :: t => match buf_write junk b d with None => None | Some b' => buf_writes junk b' t end end.
(* serializer.h:62-67 getOwnership: the first m_pos bytes are handed over *)
Definition buf_contents (b : sbuf) : list Z := firstn (Z.to_nat (b_pos b)) (b_mem b).
