(* lib/std.cpp: integer to text, random numbers; lib/std_string.cpp wr_tol with the C library's
   strtol in base 10.  [None] is undefined behaviour (signed overflow, write outside a buffer). *)
From Verif Require Import Base.

(* signed 32-bit arithmetic: overflow is undefined *)
Definition chk (x : Z) : option Z := if (-2147483648 <=? x) && (x <=? 2147483647) then Some x else None.
Notation "x <-? e ;; k" := (match e with Some x => k | None => None end) (at level 60, e at level 50, right associativity).

(* lib/std.cpp:107-111 do { buf[digit++] = (val % 10) + '0' } while( val /= 10 ): least significant
   first; [room] is what is left of buf[12] *)
Fixpoint itoa_digits (room : nat) (val : Z) : option (list Z) :=
  match room with
  | O => None
  | S r => let d := Z.rem val 10 + 48 in
           let v := Z.quot val 10 in
           if v =? 0 then Some [d] else t <-? itoa_digits r v ;; Some (d :: t)
  end.
(* lib/std.cpp:92-121 wr_itoa: the characters stored before the terminator.  The terminator is
   stored right after them, so string must have room for one more than the result's length. *)
Definition wr_itoa (i : Z) (len : nat) : option (list Z) :=
  let sign := if i <? 0 then [45] else [] in
  val <-? (if i <? 0 then chk (- i) else Some i) ;;
  ds <-? itoa_digits 12 val ;;
  Some (sign ++ firstn (len - length sign) (rev ds)).

(* C library strtol( s, 0, 10 ) on a NUL-terminated string: optional white space, sign, digits;
   saturates at LONG_MIN/LONG_MAX (64 bit) *)
Definition is_space (c : Z) : bool := (c =? 32) || ((9 <=? c) && (c <=? 13)).
Definition is_digit (c : Z) : bool := (48 <=? c) && (c <=? 57).
Fixpoint digits_val (acc : Z) (s : list Z) : Z :=
  match s with
  | c :: t => if is_digit c then digits_val (acc * 10 + (c - 48)) t else acc
  | [] => acc
  end.
Fixpoint skip_space (s : list Z) : list Z :=
  match s with c :: t => if is_space c then skip_space t else s | [] => [] end.
Definition clamp_long (x : Z) : Z := Z.max (-9223372036854775808) (Z.min 9223372036854775807 x).
Definition strtol10 (s : list Z) : Z :=
  match skip_space s with
  | 45 :: t => clamp_long (- digits_val 0 t)
  | 43 :: t => clamp_long (digits_val 0 t)
  | t => clamp_long (digits_val 0 t)
  end.
(* lib/std_string.cpp:641-652 wr_tol with one argument, on the text of its argument:
   asString( buf, 20 ) then (int)strtol *)
Definition wr_tol (text : list Z) : Z := s32 (strtol10 (firstn 20 text)).

(* lib/std.cpp:177-184 wr_randEx: new seed and result.  The % and + are unsigned. *)
Definition rand_step (seed : Z) : option Z :=
  let k := Z.quot seed 127773 in
  kb <-? chk (k * 127773) ;; r <-? chk (seed - kb) ;; a <-? chk (16807 * r) ;;
  b <-? chk (2836 * k) ;; chk (a - b).
Definition wr_randEx (seed from to : Z) : option (Z * Z) :=
  s <-? rand_step seed ;;
  if to <=? from then Some (s, from)
  else d <-? chk (to - from) ;; d1 <-? chk (d + 1) ;;
       Some (s, s32 (u32 (u32 s mod u32 d1 + from))).
(* lib/std.cpp:186-196 wr_std_rand: rand( to ) or rand( from, to ) *)
Definition std_rand (seed : Z) (args : list Z) : option (Z * Z) :=
  match args with
  | [] => Some (seed, 0)
  | [to] => wr_randEx seed 0 to
  | from :: to :: _ => wr_randEx seed from to
  end.
(* lib/std.cpp:27 wr_Seed, 199-205 wr_std_srand *)
Definition initial_seed : Z := 679661.
Definition wr_srand (x : Z) : Z := s32 (u32 x).
Fixpoint rand_iter (n : nat) (seed : Z) : option Z :=
  match n with O => Some seed | S m => s <-? rand_step seed ;; rand_iter m s end.
