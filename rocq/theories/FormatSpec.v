(* What a format string means: literal text and directives, in the notation of C's printf. *)
From Verif Require Import Base StdModel StdSpec FormatModel.

Inductive conv := Cd | Cu | Cb | Co | Cx | CX | Cs | Cc.
Definition conv_char (v : conv) : Z :=
  match v with Cd => 100 | Cu => 117 | Cb => 98 | Co => 111 | Cx => 120 | CX => 88 | Cs => 115 | Cc => 99 end.
(* literal character, "%%", or a directive: left-justify flag, zero flag, width, conversion *)
Inductive directive := Lit (c : Z) | Percent | Dir (lj zero : bool) (width : list Z) (v : conv).
Definition render (d : directive) : list Z :=
  match d with
  | Lit c => [c]
  | Percent => [37; 37]
  | Dir lj zero width v => 37 :: (if lj then [45] else []) ++ (if zero then [48] else []) ++ width ++ [conv_char v]
  end.
(* widths are decimal numerals without leading zero (the zero flag is written separately) *)
Definition width_ok (w : list Z) : Prop := all_digits w /\ (w <> [] -> hd 0 w <> 48) /\ decimal_value w < 4294967296.
Definition directive_ok (d : directive) : Prop :=
  match d with Lit c => c <> 37 | Percent => True | Dir _ _ w _ => width_ok w end.

(* numerals in base b *)
Definition digit_of (lower : bool) (c d : Z) : Prop :=
  (0 <= d <= 9 /\ c = 48 + d) \/ (10 <= d <= 15 /\ c = (if lower then 97 else 65) + (d - 10)).
Definition radix_text (b : Z) (lower : bool) (n : Z) (s : list Z) : Prop :=
  exists ds, Forall2 (digit_of lower) s ds /\ Forall (fun d => 0 <= d < b) ds /\ ds <> [] /\
             fold_left (fun acc d => acc * b + d) ds 0 = n /\ (ds <> [0] -> hd 0 ds <> 0).

(* text of an argument under a conversion *)
Inductive conv_text : conv -> farg -> list Z -> Prop :=
| T_d i s : is_s32 i -> i <> -2147483648 -> decimal_text i s -> conv_text Cd (FInt i) s
| T_u i s : is_s32 i -> canonical_nat (u32 i) s -> conv_text Cu (FInt i) s
| T_b i s : 0 <= i < 65536 -> radix_text 2 false i s -> conv_text Cb (FInt i) s
| T_o i s : 0 <= i < 32768 -> radix_text 8 false i s -> conv_text Co (FInt i) s
| T_x i s : is_s32 i -> radix_text 16 true (u32 i) s -> conv_text Cx (FInt i) s
| T_X i s : is_s32 i -> radix_text 16 false (u32 i) s -> conv_text CX (FInt i) s
| T_s bs : conv_text Cs (FStr bs) bs.
(* padding to the field width *)
Definition padded (lj zero : bool) (w : Z) (v : conv) (s out : list Z) : Prop :=
  let n := Z.to_nat (w - lenZ s) in
  let c := if zero then match v with Cs => 32 | _ => 48 end else 32 in
  out = if lj then s ++ repeat 32 n else repeat c n ++ s.
(* the whole output, consuming the arguments from left to right *)
Inductive formatted : list directive -> list farg -> list Z -> Prop :=
| F_nil args : formatted [] args []
| F_lit c ds args out : formatted ds args out -> formatted (Lit c :: ds) args (c :: out)
| F_pct ds args out : formatted ds args out -> formatted (Percent :: ds) args (37 :: out)
| F_char i lj zero w ds args out :
    formatted ds args out -> formatted (Dir lj zero w Cc :: ds) (FInt i :: args) (u8 i :: out)
| F_dir lj zero w v a ds args s f out :
    conv_text v a s -> padded lj zero (decimal_value w) v s f ->
    formatted ds args out -> formatted (Dir lj zero w v :: ds) (a :: args) (f ++ out).
(* the arguments fit the directives, and negative numbers are printed without a field width *)
Inductive fits : list directive -> list farg -> Prop :=
| A_nil args : fits [] args
| A_lit c ds args : fits ds args -> fits (Lit c :: ds) args
| A_pct ds args : fits ds args -> fits (Percent :: ds) args
| A_char i lj zero w ds args : fits ds args -> fits (Dir lj zero w Cc :: ds) (FInt i :: args)
| A_str bs lj zero w ds args : fits ds args -> fits (Dir lj zero w Cs :: ds) (FStr bs :: args)
| A_int i v lj zero w ds args :
    is_s32 i ->
    match v with
    | Cd => i <> -2147483648 /\ (i < 0 -> w = [])
    | Cb => 0 <= i < 65536
    | Co => 0 <= i < 32768
    | Cu | Cx | CX => True
    | _ => False
    end -> fits ds args -> fits (Dir lj zero w v :: ds) (FInt i :: args).
