(* How tokens are written, independently of the tokenizer: the spelling of literals, names and
   operators, what separates them, and which tokens a source text consists of (C53-C55). *)
From Coq Require Import String.
From Verif Require Import Base OpsModel TokenModel.
Open Scope list_scope. Open Scope Z_scope.

Definition white (c : Z) : Prop := In c [9; 10; 11; 12; 13; 32].
Definition digit (c : Z) : Prop := 48 <= c <= 57.
Definition octal (c : Z) : Prop := 48 <= c <= 55.
Definition binary (c : Z) : Prop := 48 <= c <= 49.
Definition letter (c : Z) : Prop := 65 <= c <= 90 \/ 97 <= c <= 122.
Definition hexa (c : Z) : Prop := digit c \/ 65 <= c <= 70 \/ 97 <= c <= 102.
Definition word (c : Z) : Prop := letter c \/ digit c \/ c = 95.
(* a byte above 127 may stand in comments and string literals only *)
Definition ascii (c : Z) : Prop := c < 128.

(* positional notation *)
Definition digit_value (c : Z) : Z := if c <=? 57 then c - 48 else if c <=? 70 then c - 55 else c - 87.
Fixpoint value (base : Z) (ds : list Z) : Z :=
  match ds with [] => 0 | d :: r => digit_value d * base ^ lenZ r + value base r end.

(* white space and comments; [sep_last] also ends the source within a line comment *)
Definition occurs (w s : list Z) : Prop := exists a b, s = a ++ w ++ b.
Inductive sep : list Z -> Prop :=
| sep_nil : sep []
| sep_white : forall c s, white c -> sep s -> sep (c :: s)
| sep_line : forall t s, ~ In 10 t -> sep s -> sep (text "//" ++ t ++ [10] ++ s)
| sep_block : forall t s, ~ occurs (text "*/") t -> (forall r, t <> 47 :: r) -> sep s -> sep (text "/*" ++ t ++ text "*/" ++ s).
Inductive sep_last : list Z -> Prop :=
| sl_sep : forall s, sep s -> sep_last s
| sl_line : forall s t, sep s -> ~ In 10 t -> sep_last (s ++ text "//" ++ t).

(* what stands between the quotes [q], and the bytes it denotes.  \0 is followed by the decimal digits
   of the byte. *)
Definition escapes : list (Z * Z) := [(92, 92); (34, 34); (39, 39); (110, 10); (114, 13); (116, 9)].
Inductive chars (q : Z) : list Z -> list Z -> Prop :=
| ch_nil : chars q [] []
| ch_plain : forall c w t, c <> q -> c <> 92 -> c <> 10 -> chars q w t -> chars q (c :: w) (c :: t)
| ch_escape : forall e b w t, In (e, b) escapes -> chars q w t -> chars q (92 :: e :: w) (b :: t)
| ch_number : forall ds w t, Forall digit ds -> value 10 ds < 256 -> (forall c r, w = c :: r -> ~ digit c) -> chars q w t ->
    chars q (92 :: 48 :: ds ++ w) (value 10 ds :: t).

(* names, with :: between or before their parts *)
Inductive name_rest : list Z -> Prop :=
| nr_nil : name_rest []
| nr_char : forall c s, word c -> name_rest s -> name_rest (c :: s)
| nr_colon : forall s, name_rest s -> name_rest (58 :: 58 :: s).
Definition name (n : list Z) : Prop := exists c s, n = c :: s /\ (letter c \/ c = 95) /\ name_rest s.
Definition keywords : list (list Z) := [text "true"; text "false"; text "null"].

Definition operators : list (list Z) := map text
  ["-"; "--"; "-="; "="; "=="; "!"; "!="; "*"; "*="; "%"; "%="; "<"; "<="; "<<"; "<<="; ">"; ">="; ">>"; ">>=";
   "&"; "&&"; "&="; "^"; "^="; "|"; "||"; "|="; "+"; "++"; "+="; "/"; "/="]%string.
Definition punctuation : list (list Z) := map text ["("; ")"; "{"; "}"; "["; "]"; ";"; ","; "?"; "~"]%string.
Definition members : list (list Z) := map text ["._count"; "._hash"; "._remove"; "._exists"]%string.

(* the first character of what follows *)
Definition begins (p : Z -> Prop) (rest : list Z) : Prop := exists c r, rest = c :: r /\ p c.
Definition empty_or (p : Z -> Prop) (rest : list Z) : Prop := forall c r, rest = c :: r -> p c.
Definition clear (c : Z) : Prop := ascii c /\ ~ word c.

Section Spelled.
(* bits of a C long, and the float a decimal fraction denotes *)
Variable lbits : Z.
Variable atof : list Z -> Z.
(* the constants in scope (enum members and lib constants), outer ones first *)
Variable consts : list (list Z * tval).

(* no constant is a qualifier of the name *)
Definition unqualified (n : list Z) : Prop := forall l v r, In (l, v) consts -> n <> l ++ 58 :: 58 :: r.
Definition constant (n : list Z) (v : tval) : Prop :=
  exists a b, consts = a ++ (n, v) :: b /\ forall x, ~ In (n, x) a.

(* [w], followed by [rest], is a spelling of the token *)
Inductive spelled (rest : list Z) : list Z -> tok -> Prop :=
| s_decimal : forall c ds, digit c -> Forall digit ds -> (c = 48 -> ds = []) -> value 10 (c :: ds) < 2 ^ 32 ->
    begins (fun c => clear c /\ c <> 46) rest ->
    spelled rest (c :: ds) (mkTok (c :: ds) (IntVal (value 10 (c :: ds))) false)
| s_hexa : forall ds, Forall hexa ds -> value 16 ds < 2 ^ 32 -> begins (fun c => ascii c /\ ~ hexa c) rest ->
    spelled rest (text "0x" ++ ds) (mkTok ds (IntVal (value 16 ds)) false)
| s_octal : forall d ds, Forall octal (d :: ds) -> value 8 (d :: ds) < 2 ^ 32 -> value 8 (d :: ds) < 2 ^ (lbits - 1) -> begins (fun c => ascii c /\ ~ octal c) rest ->
    spelled rest (48 :: d :: ds) (mkTok (d :: ds) (IntVal (value 8 (d :: ds))) false)
| s_binary : forall ds, Forall binary ds -> value 2 ds < 2 ^ 32 -> value 2 ds < 2 ^ (lbits - 1) -> begins (fun c => ascii c /\ ~ binary c) rest ->
    spelled rest (text "0b" ++ ds) (mkTok ds (IntVal (value 2 ds)) false)
| s_float : forall a b, Forall digit a -> Forall digit b -> (a <> [] \/ b <> []) -> (forall r, a = 48 :: r -> r = []) ->
    begins (fun c => clear c /\ c <> 46) rest ->
    spelled rest (a ++ 46 :: b) (mkTok (a ++ 46 :: b) (FloatVal (atof (a ++ 46 :: b))) false)
| s_float_f : forall a b f, Forall digit a -> Forall digit b -> (a <> [] \/ b <> []) -> (forall r, a = 48 :: r -> r = []) ->
    f = 102 \/ f = 70 -> empty_or ascii rest ->
    spelled rest (a ++ 46 :: b ++ [f]) (mkTok (a ++ 46 :: b) (FloatVal (atof (a ++ 46 :: b))) false)
| s_string : forall w t, chars 34 w t -> empty_or ascii rest ->
    spelled rest (34 :: w ++ [34]) (mkTok t TextVal true)
| s_character : forall w b, chars 39 w [b] -> ascii b -> 0 <= b -> empty_or ascii rest ->
    spelled rest (39 :: w ++ [39]) (mkTok [] (IntVal b) true)
| s_true : unqualified (text "true") -> (forall v, ~ constant (text "true") v) -> empty_or clear rest -> (forall r, rest <> 58 :: 58 :: r) ->
    spelled rest (text "true") (mkTok (text "1") (IntVal 1) false)
| s_false : forall w, w = text "false" \/ w = text "null" -> unqualified w -> (forall v, ~ constant w v) -> empty_or clear rest -> (forall r, rest <> 58 :: 58 :: r) ->
    spelled rest w (mkTok (text "0") (IntVal 0) false)
| s_name : forall n, name n -> ~ In n keywords -> unqualified n -> (forall v, ~ constant n v) -> empty_or clear rest -> (forall r, rest <> 58 :: 58 :: r) ->
    spelled rest n (mkTok n NoVal false)
| s_global : forall n, name_rest n -> empty_or clear rest -> (forall r, rest <> 58 :: 58 :: r) ->
    spelled rest (58 :: 58 :: n) (mkTok (58 :: 58 :: n) NoVal false)
| s_constant : forall n v, name n -> unqualified n -> constant n v -> begins clear rest -> (forall r, rest <> 58 :: 58 :: r) ->
    spelled rest n (mkTok [] v false)
(* the longest operator *)
| s_operator : forall w, In w operators -> empty_or (fun c => ascii c /\ ~ In (w ++ [c]) (operators ++ [text "//"; text "/*"])) rest ->
    spelled rest w (mkTok w NoVal false)
| s_punctuation : forall w, In w punctuation -> empty_or ascii rest ->
    spelled rest w (mkTok w NoVal false)
| s_colon : begins (fun c => ascii c /\ c <> 58) rest ->
    spelled rest (text ":") (mkTok (text ":") NoVal false)
| s_member : forall w, In w members -> begins clear rest ->
    spelled rest w (mkTok w NoVal false)
| s_point : empty_or (fun c => ascii c /\ ~ digit c) rest ->
    (forall w c r, In w members -> clear c -> 46 :: rest <> w ++ c :: r) ->
    (* nor a byte above 127 behind the name of a member *)
    (forall w c r, In w members -> 46 :: rest = w ++ c :: r -> ascii c) ->
    spelled rest (text ".") (mkTok (text ".") NoVal false).

(* the text [s] consists of these tokens, with white space and comments between them *)
Inductive written : list tok -> list Z -> Prop :=
| wr_end : forall s, sep_last s -> written [] s
| wr_token : forall s w t rest l, sep s -> spelled rest w t -> written l rest -> written (t :: l) (s ++ w ++ rest).
End Spelled.

(* a way to write every byte string: every byte as \0 and its three digits *)
Definition quote_byte (b : Z) : list Z := [92; 48; 48 + b / 100; 48 + b / 10 mod 10; 48 + b mod 10].
Definition quote (t : list Z) : list Z := 34 :: flat_map quote_byte t ++ [34].

(* the ways to write an integer; octal and binary ones must fit into a C long of [lbits] bits *)
Inductive integer (lbits : Z) : list Z -> Z -> Prop :=
| in_decimal : forall c ds, digit c -> Forall digit ds -> (c = 48 -> ds = []) -> integer lbits (c :: ds) (value 10 (c :: ds))
| in_hexa : forall ds, Forall hexa ds -> integer lbits (text "0x" ++ ds) (value 16 ds)
| in_octal : forall d ds, Forall octal (d :: ds) -> value 8 (d :: ds) < 2 ^ (lbits - 1) -> integer lbits (48 :: d :: ds) (value 8 (d :: ds))
| in_binary : forall ds, Forall binary ds -> value 2 ds < 2 ^ (lbits - 1) -> integer lbits (text "0b" ++ ds) (value 2 ds).
