(* Machine-integer vocabulary shared by every part of the model.
   The C code uses uint8_t/int8_t/uint16_t/int16_t/uint32_t/int32_t; a machine
   integer is a [Z] kept in range by the wrap functions below.  *)
From Coq Require Export ZArith List Bool Lia.
From Coq Require Export ZifyBool.
Export ListNotations.
Global Open Scope Z_scope.

(* (uint32_t)x, (uint16_t)x, (uint8_t)x *)
Definition u32 (x : Z) : Z := x mod 4294967296.
Definition u16 (x : Z) : Z := x mod 65536.
Definition u8  (x : Z) : Z := x mod 256.

(* (int32_t)x, (int16_t)x, (int8_t)x : two's complement reinterpretation *)
Definition s32 (x : Z) : Z :=
  let y := u32 x in if y <? 2147483648 then y else y - 4294967296.
Definition s16 (x : Z) : Z :=
  let y := u16 x in if y <? 32768 then y else y - 65536.
Definition s8 (x : Z) : Z :=
  let y := u8 x in if y <? 128 then y else y - 256.

Definition is_u32 (x : Z) : Prop := 0 <= x < 4294967296.
Definition is_s32 (x : Z) : Prop := -2147483648 <= x <= 2147483647.
Definition is_u16 (x : Z) : Prop := 0 <= x < 65536.
Definition is_s16 (x : Z) : Prop := -32768 <= x <= 32767.
Definition is_byte (x : Z) : Prop := 0 <= x < 256.

Definition is_byteb (x : Z) : bool := (0 <=? x) && (x <? 256).
Definition bytes_ok (l : list Z) : Prop := Forall is_byte l.

(* array access with an explicit out-of-bounds outcome *)
Definition nthZ {A} (l : list A) (i : Z) : option A :=
  if i <? 0 then None else nth_error l (Z.to_nat i).

Definition lenZ {A} (l : list A) : Z := Z.of_nat (length l).

(* in-place update of slot [i] (identity when out of range: callers check) *)
Fixpoint upd {A} (l : list A) (i : nat) (x : A) : list A :=
  match l, i with
  | [], _ => []
  | _ :: t, O => x :: t
  | h :: t, S j => h :: upd t j x
  end.
