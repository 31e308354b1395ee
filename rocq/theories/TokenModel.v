(* The tokenizer: WRCompilationContext::getToken, cc/token.cpp:36-611.
   m_source + m_pos is the list of the characters still to be read, so "m_pos >= m_sourceLen" is the
   empty list; nothing before m_pos - 1 is read again.  Reading a character behind the last one, and
   passing a character above 127 (negative as a char) to a function of <ctype.h>, is UB.
   Not modelled: spaceBefore and spaceAfter, which nothing reads (only their isspace calls are), and
   m_LastParsedLabel, which is written only. *)
From Coq Require Import String Ascii.
From Verif Require Import Base OpsModel.
Open Scope list_scope. Open Scope Z_scope.

(* the bytes of a character string constant *)
Fixpoint text (s : string) : list Z :=
  match s with EmptyString => [] | String c r => Z.of_nat (nat_of_ascii c) :: text r end.

(* <ctype.h> in the C locale; token.cpp passes a plain char *)
Definition ctype (p : Z -> bool) (c : Z) : res bool := if c <? 128 then Ok (p c) else UB.
Definition between (a b c : Z) : bool := (a <=? c) && (c <=? b).
Definition c_space (c : Z) : bool := between 9 13 c || (c =? 32).
Definition c_digit (c : Z) : bool := between 48 57 c.
Definition c_alpha (c : Z) : bool := between 65 90 c || between 97 122 c.
Definition c_alnum (c : Z) : bool := c_alpha c || c_digit c.
Definition c_xdigit (c : Z) : bool := c_digit c || between 65 70 c || between 97 102 c.

(* ex.value as getToken leaves it: INIT_AS_REF (no value), an int, a float, WR_COMPILER_LITERAL_STRING
   (which points to the token) *)
Inductive tval := NoVal | IntVal (n : Z) | FloatVal (bits : Z) | TextVal.
Record tok := mkTok { t_text : list Z; t_val : tval; t_quoted : bool }.

(* m_err as set by getToken; FPlain: it returns false and sets nothing *)
Inductive tfail := FEof | FPlain | FUnterminated (* also sets m_EOF *) | FNewline | FEscape | FExpression | FUnexpectedEof.
Inductive tres := TTok (t : tok) (rest : list Z) | TFail (e : tfail).

Section Token.
(* bits of a C long; (float)atof( text ) *)
Variable lbits : Z.
Variable atof : list Z -> Z.
(* m_units[0].constantValues and m_units[m_unitTop].constantValues: label and value *)
Variable consts0 consts : list (list Z * tval).

(* token.cpp:55-63 *)
Fixpoint skip_space (s : list Z) : res (option (Z * list Z)) :=
  match s with
  | [] => Ok None
  | c :: r => b <- ctype c_space c ;; if b : bool then skip_space r else Ok (Some (c, r))
  end.

Fixpoint strip (w s : list Z) : option (list Z) :=
  match w, s with
  | [], _ => Some s
  | a :: w', c :: s' => if a =? c then strip w' s' else None
  | _, [] => None
  end.
(* the test of lines 73-80, 90-97, 108-115: the word, a following character, and that is no part of a
   name *)
Definition word_at (w s : list Z) : res (option (list Z)) :=
  match strip w s with
  | Some ((c :: _) as r) => b <- ctype c_alnum c ;; Ok (if (b : bool) || (c =? 95) then None else Some r)
  | _ => Ok None
  end.
(* cc.h:121-128 *)
Definition macros : list (list Z) := [text "._count"; text "._hash"; text "._remove"; text "._exists"].
(* token.cpp:71-86 *)
Fixpoint find_macro (l : list (list Z)) (s : list Z) : res (option (list Z * list Z)) :=
  match l with
  | [] => Ok None
  | w :: l' => r <- word_at w s ;; match r with Some rest => Ok (Some (w, rest)) | None => find_macro l' s end
  end.
(* token.cpp:88-122 *)
Fixpoint find_const (l : list (list Z * tval)) (s : list Z) : res (option (tval * list Z)) :=
  match l with
  | [] => Ok None
  | (w, v) :: l' => r <- word_at w s ;; match r with Some rest => Ok (Some (v, rest)) | None => find_const l' s end
  end.

(* token.cpp:124-258: what follows the first character of an operator and belongs to it *)
Definition opt (c : Z) (s : list Z) : list Z * list Z :=
  match s with a :: r => if a =? c then ([c], r) else ([], s) | [] => ([], s) end.
Definition op_tail (c : Z) (s : list Z) : list Z * list Z :=
  match s with
  | [] => ([], s)
  | a :: r =>
    if c =? 45 then if a =? 45 then ([45], r) else opt 61 s                                  (* - *)
    else if (c =? 61) || (c =? 33) || (c =? 42) || (c =? 37) || (c =? 94) then opt 61 s      (* = ! * % ^ *)
    else if (c =? 60) || (c =? 62) then                                                      (* < > *)
      if a =? 61 then ([61], r)
      else if a =? c then let (t, r') := opt 61 r in (c :: t, r') else ([], s)
    else if (c =? 38) || (c =? 124) || (c =? 43) then                                        (* & | + *)
      if a =? c then ([c], r) else opt 61 s
    else ([], s)
  end.
Definition is_op (c : Z) : bool :=
  existsb (Z.eqb c) (text "-=!*%<>&^|+").

(* token.cpp:266-355: the characters between the quotes.  The loop ends without error when it reaches
   the end of the source behind a character. *)
Fixpoint digits_of (s : list Z) : list Z * list Z :=
  match s with
  | [] => ([], [])
  | c :: r => if c_digit c then let (d, r') := digits_of r in (c :: d, r') else ([], s)
  end.
Definition number (base : Z) (ds : list Z) : Z :=
  fold_left (fun a c => a * base + (if c_digit c then c - 48 else if between 65 70 c then c - 55 else c - 87)) ds 0.
Inductive sres := SDone (t rest : list Z) | SFail (e : tfail).
Fixpoint scan (n : nat) (single : bool) (acc s : list Z) : res sres :=
  match n with
  | O => OutOfFuel
  | S k =>
    let next (acc s : list Z) := match s with [] => Ok (SDone acc []) | _ => scan k single acc s end in
    match s with
    | [] => Ok (SFail FUnterminated)
    | c :: r =>
      if (c =? 34) && negb single then Ok (SDone acc r)
      else if (c =? 39) && single then
        if (1 <? length acc)%nat then Ok (SFail FExpression) else Ok (SDone acc r)
      else if c =? 10 then Ok (SFail FNewline)
      else if c =? 92 then
        match r with
        | [] => UB                                  (* m_source[++m_pos] *)
        | e :: r' =>
          if e =? 48 then
            (* atoi, then past the digits *)
            let (d, r'') := digits_of r in
            let v := number 10 d in
            match r'' with
            | [] => UB                              (* atoi reads on *)
            | _ => if 2147483647 <? v then UB else next (acc ++ [u8 v]) r''
            end
          else if (e =? 92) || (e =? 34) || (e =? 39) then next (acc ++ [e]) r'
          else if e =? 110 then next (acc ++ [10]) r'
          else if e =? 114 then next (acc ++ [13]) r'
          else if e =? 116 then next (acc ++ [9]) r'
          else Ok (SFail FEscape)
        end
      else next (acc ++ [c]) r
    end
  end.
(* token.cpp:357-368; token[0] is a signed char *)
Definition quoted (single : bool) (t : list Z) : tok :=
  if single then mkTok [] (IntVal (match t with [c] => u32 (s8 c) | _ => 0 end)) true else mkTok t TextVal true.

(* token.cpp:380 and 386-393 *)
Fixpoint to_eol (s : list Z) : list Z :=
  match s with [] => [] | c :: r => if c =? 10 then s else to_eol r end.
Fixpoint comment_end (s : list Z) : option (list Z) :=
  match s with
  | a :: ((b :: r) as t) => if (a =? 42) && (b =? 47) then Some r else comment_end t
  | _ => None
  end.

(* strtoul, strtol of digits only: they saturate *)
Definition strtoul (base : Z) (ds : list Z) : Z := Z.min (number base ds) (2 ^ lbits - 1).
Definition strtol (base : Z) (ds : list Z) : Z := Z.min (number base ds) (2 ^ (lbits - 1) - 1).
(* the loops of lines 424-438, 449-463, 473-487: the digits, or None at the end of the source *)
Fixpoint run_of (ct : bool) (p : Z -> bool) (s : list Z) : res (option (list Z * list Z)) :=
  match s with
  | [] => Ok None
  | c :: r =>
    b <- (if ct then ctype p c else Ok (p c)) ;;
    if b : bool then
      x <- run_of ct p r ;; Ok (match x with Some (d, r') => Some (c :: d, r') | None => None end)
    else Ok (Some ([], s))
  end.
(* token.cpp:494-525: decimal digits and at most one point *)
Inductive dres := DEnd (decimal : bool) (t rest : list Z) | DFail (e : tfail).
Fixpoint dec_loop (decimal : bool) (acc s : list Z) : res dres :=
  match s with
  | [] => Ok (DFail FUnexpectedEof)
  | c :: r =>
    if c =? 46 then if decimal then Ok (DFail FPlain) else dec_loop true (acc ++ [c]) r
    else
      b <- ctype c_digit c ;;
      if b : bool then dec_loop decimal (acc ++ [c]) r
      else if (c =? 102) || (c =? 70) then Ok (DEnd true acc r) else Ok (DEnd decimal acc s)
  end.
(* token.cpp:406-538; [c] is the first character *)
Definition number_token (c : Z) (s : list Z) : res tres :=
  match s with
  | [] => Ok (TFail FPlain)
  | a :: r =>
    let lit (x : option (list Z * list Z)) (v : list Z -> Z) :=
      match x with Some (d, r') => TTok (mkTok d (IntVal (u32 (v d))) false) r' | None => TFail FUnexpectedEof end in
    if (c =? 48) && (a =? 120) then x <- run_of true c_xdigit r ;; Ok (lit x (strtoul 16))
    else if (c =? 48) && (a =? 98) then x <- run_of false (between 48 49) r ;; Ok (lit x (strtol 2))
    else
      oct <- (if c =? 48 then ctype c_digit a else Ok false) ;;
      if oct : bool then x <- run_of false (between 48 55) s ;; Ok (lit x (strtol 8))
      else
        d <- dec_loop (c =? 46) [c] s ;;
        Ok (match d with
            | DEnd decimal t r' => TTok (mkTok t (if decimal : bool then FloatVal (atof t) else IntVal (u32 (strtoul 10 t))) false) r'
            | DFail e => TFail e
            end)
  end.

(* token.cpp:557-576 *)
Fixpoint name_loop (acc s : list Z) : res (list Z * list Z) :=
  match s with
  | [] => Ok (acc, [])
  | c :: r =>
    let one := b <- ctype c_alnum c ;; if (b : bool) || (c =? 95) then name_loop (acc ++ [c]) r else Ok (acc, s) in
    match r with
    | c2 :: r2 => if (c =? 58) && (c2 =? 58) && (0 <? length acc)%nat then name_loop (acc ++ [58; 58]) r2 else one
    | [] => one
    end
  end.
Fixpoint same_text (a b : list Z) : bool :=
  match a, b with [], [] => true | x :: a', y :: b' => (x =? y) && same_text a' b' | _, _ => false end.
(* token.cpp:578-590 *)
Definition name_token (t rest : list Z) : tres :=
  if same_text t (text "true") then TTok (mkTok (text "1") (IntVal 1) false) rest
  else if same_text t (text "false") || same_text t (text "null") then TTok (mkTok (text "0") (IntVal 0) false) rest
  else TTok (mkTok t NoVal false) rest.

(* ex.spaceAfter, line 596 *)
Definition after (x : tres) : res tres :=
  match x with
  | TTok t ((c :: _) as rest) => _ <- ctype c_space c ;; Ok x
  | _ => Ok x
  end.

(* token.cpp:47-597: the next token of the source.  [n] bounds the comments. *)
Fixpoint next_token (n : nat) (s : list Z) : res tres :=
  match n with
  | O => OutOfFuel
  | S k =>
    x <- skip_space s ;;
    match x with
    | None => Ok (TFail FEof)
    | Some (c, r) =>
      m <- find_macro macros (c :: r) ;;
      match m with
      | Some (w, rest) => after (TTok (mkTok w NoVal false) rest)
      | None =>
      v <- find_const consts0 (c :: r) ;;
      match v with
      | Some (v, rest) => after (TTok (mkTok [] v false) rest)
      | None =>
      v <- find_const consts (c :: r) ;;
      match v with
      | Some (v, rest) => after (TTok (mkTok [] v false) rest)
      | None =>
        if is_op c then let (t, rest) := op_tail c r in after (TTok (mkTok (c :: t) NoVal false) rest)
        else if (c =? 34) || (c =? 39) then
          q <- scan (S (length r)) (c =? 39) [] r ;;
          match q with
          | SDone t rest => after (TTok (quoted (c =? 39) t) rest)
          | SFail e => Ok (TFail e)
          end
        else if c =? 47 then                                                        (* / *)
          let one := after (TTok (mkTok [c] NoVal false) r) in
          match r with
          | [] => one
          | a :: r' =>
            b <- ctype c_space a ;;
            if b : bool then one
            else if a =? 47 then next_token k (to_eol r)
            else if a =? 42 then match comment_end r with Some rest => next_token k rest | None => Ok (TFail FUnexpectedEof) end
            else if a =? 61 then after (TTok (mkTok [c; 61] NoVal false) r')
            else one
          end
        else
          b <- ctype c_digit c ;;
          num <- (if (b : bool) then Ok true else match r with a :: _ => if c =? 46 then ctype c_digit a else Ok false | [] => Ok false end) ;;
          if num : bool then t <- number_token c r ;; after t
          else
            colon <- (if c =? 58 then match r with [] => UB | a :: _ => ctype c_space a end else Ok false) ;;
            if colon : bool then after (TTok (mkTok [c] NoVal false) r)
            else
              al <- ctype c_alpha c ;;
              if (al : bool) || (c =? 95) then
                ' (t, rest) <- name_loop [c] r ;; after (name_token t rest)
              else
                match r with
                | a :: r' =>
                  if (c =? 58) && (a =? 58) then ' (t, rest) <- name_loop [58; 58] r' ;; after (name_token t rest)
                  else after (TTok (mkTok [c] NoVal false) r)
                | [] => after (TTok (mkTok [c] NoVal false) r)
                end
      end
      end
      end
    end
  end.

(* every token up to the first one that fails; FEof is the end of the source *)
Fixpoint lex (n : nat) (s : list Z) : res (list tok * tfail) :=
  match n with
  | O => OutOfFuel
  | S k =>
    x <- next_token (S (length s)) s ;;
    match x with
    | TFail e => Ok ([], e)
    | TTok t rest => ' (l, e) <- lex k rest ;; Ok (t :: l, e)
    end
  end.

(* token.cpp:36-46, 599-608: a token handed back (m_loadedToken, m_loadedValue, m_loadedQuoted) comes
   first; [expect] *)
Definition handed_back (t : tok) : bool := (0 <? length (t_text t))%nat || match t_val t with NoVal => false | _ => true end.
Definition get_token (n : nat) (loaded : option tok) (expect : option (list Z)) (s : list Z) : res (option tok * list Z * bool) :=
  x <- (match loaded with
        | Some t => if handed_back t then Ok (TTok t s) else next_token n s
        | None => next_token n s
        end) ;;
  Ok (match x with
      | TTok t rest => (Some t, rest, match expect with Some w => same_text (t_text t) w | None => true end)
      | TFail e => (None, s, false)
      end).
End Token.
