(* Single-precision arithmetic as the C++ code uses it: `float` operands are the 32-bit
   patterns of WRValue::f (wrench.h:800+), operators are IEEE-754 binary32, round to nearest
   even, computed with the executable specification of Coq's standard library (SpecFloat).
   Simplifications: every NaN result is the quiet NaN 0x7FC00000; no excess precision
   (FLT_EVAL_METHOD = 0). *)
From Coq Require Import SpecFloat.
From Verif Require Import Base.

Definition f32_nan : Z := 2143289344.

(* the number a bit pattern stands for *)
Definition f32_decode (u : Z) : spec_float :=
  let s := 2147483648 <=? u in
  let e := (u / 8388608) mod 256 in
  let m := u mod 8388608 in
  if e =? 255 then (if m =? 0 then S754_infinity s else S754_nan)
  else if e =? 0 then
    match m with Zpos p => S754_finite s p (-149) | _ => S754_zero s end
  else
    match m + 8388608 with Zpos p => S754_finite s p (e - 150) | _ => S754_nan end.

Definition f32_encode (x : spec_float) : Z :=
  let sgn (s : bool) := if s then 2147483648 else 0 in
  match x with
  | S754_zero s => sgn s
  | S754_infinity s => sgn s + 2139095040
  | S754_nan => f32_nan
  | S754_finite s m e =>
    if Zpos m <? 8388608 then sgn s + Zpos m
    else sgn s + (e + 150) * 8388608 + (Zpos m - 8388608)
  end.

(* a + b, a - b, a * b, a / b on floats *)
Definition f32_add (a b : Z) : Z := f32_encode (SFadd 24 128 (f32_decode a) (f32_decode b)).
Definition f32_sub (a b : Z) : Z := f32_encode (SFsub 24 128 (f32_decode a) (f32_decode b)).
Definition f32_mul (a b : Z) : Z := f32_encode (SFmul 24 128 (f32_decode a) (f32_decode b)).
Definition f32_div (a b : Z) : Z := f32_encode (SFdiv 24 128 (f32_decode a) (f32_decode b)).
(* (float)i *)
Definition f32_of_int (i : Z) : Z := f32_encode (binary_normalize 24 128 i 0 false).
(* a < b, a > b, a <= b, and the test `if ( f )` *)
Definition f32_lt (a b : Z) : bool := SFltb (f32_decode a) (f32_decode b).
Definition f32_gt (a b : Z) : bool := SFltb (f32_decode b) (f32_decode a).
Definition f32_le (a b : Z) : bool := SFleb (f32_decode a) (f32_decode b).
Definition f32_true (a : Z) : bool := match f32_decode a with S754_zero _ => false | _ => true end.
(* -a, fabsf(a): the sign bit *)
Definition f32_neg (a : Z) : Z := Z.lxor a 2147483648.
Definition f32_abs (a : Z) : Z := a mod 2147483648.

(* the literals .0000005f and 1.0f *)
Definition f32_epsilon : Z := 889599933.
Definition f32_one : Z := 1065353216.
(* vm/vm.h:148 WR_FLOATS_EQUAL *)
Definition f32_equal (f1 f2 : Z) : bool :=
  f32_le (f32_abs (f32_sub f1 f2)) (f32_abs (f32_mul f1 f32_epsilon)).
