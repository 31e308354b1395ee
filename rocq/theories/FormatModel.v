(* lib/std_string.cpp:47-341 formatted output (build without WRENCH_FLOAT_SPRINTF). *)
From Verif Require Import Base StdModel.

(* an argument as the formatter sees it: array(&len) gives FStr for strings (FSelf: the very buffer
   being written), otherwise null; asInt gives the integer *)
Inductive farg := FInt (i : Z) | FStr (bs : list Z) | FSelf | FNone.
(* utils.h WRValue::asInt on a dereferenced argument; strings and containers are not modelled as
   numbers beyond 0 *)
Definition arg_int (a : farg) : Z := match a with FInt i => i | _ => 0 end.

(* output buffer of [max] bytes usable, and pos *)
Record fout := mkOut { fo_buf : list Z; fo_pos : Z }.
Section Fmt.
Variable max : Z.          (* outsize *)
Variable self_len : Z.     (* m_size of the buffer seen as an argument *)
(* std_string.cpp:47-55 addChar; None: store outside the allocation *)
Definition addChar (o : fout) (c : Z) : option fout :=
  if fo_pos o <? max then
    if (fo_pos o <? lenZ (fo_buf o)) then Some (mkOut (upd (fo_buf o) (Z.to_nat (fo_pos o)) c) (u32 (fo_pos o + 1))) else None
  else Some (mkOut (fo_buf o) (u32 (fo_pos o + 1))).
Fixpoint addChars (o : fout) (cs : list Z) : option fout :=
  match cs with [] => Some o | c :: t => o' <-? addChar o c ;; addChars o' t end.
Fixpoint addPad (o : fout) (n : nat) (c : Z) : option fout :=
  match n with O => Some o | S m => o' <-? addChar o c ;; addPad o' m c end.
(* std_string.cpp:196-199 *ptr++ while writing the same buffer *)
Fixpoint addSelf (o : fout) (i n : nat) : option fout :=
  match n with
  | O => Some o
  | S m => c <-? nth_error (fo_buf o) i ;; o' <-? addChar o c ;; addSelf o' (S i) m
  end.

(* std_string.cpp:263-292: digits of val, most significant first, exactly [width] of them;
   lower-case letters for 'x' *)
Definition digit_char (lower : bool) (d : Z) : Z :=
  let c := d + 48 in if 57 <? c then c + 7 + (if lower then 32 else 0) else c.
Fixpoint base_digits (width : nat) (base val : Z) : list Z :=
  match width with O => [] | S w => base_digits w base (val / base) ++ [val mod base] end.
(* ptr: the first non-zero digit, or the last one *)
Fixpoint strip (ds : list Z) : list Z :=
  match ds with
  | [] => []
  | [d] => [d]
  | d :: t => if d =? 0 then strip t else ds
  end.
Definition convert (width : nat) (base : Z) (lower : bool) (val : Z) : list Z :=
  map (digit_char lower) (strip (base_digits width base val)).

(* std_string.cpp:69-78 flags *)
Record fstate := mkF { f_second : bool; f_pad : Z; f_cols : Z; f_left : bool; f_alt : bool }.
Definition f_reset : fstate := mkF false 32 0 false false.

(* std_string.cpp:159-207 copyToString: [body] writes the text of length len *)
Definition copy_to (st : fstate) (pad : Z) (neg ptr : bool) (len : Z) (body : fout -> option fout) (o : fout) : option fout :=
  let n := if len <? f_cols st then Z.to_nat (f_cols st - len) else O in
  o1 <-? (if f_left st then Some o else addPad o n pad) ;;
  o2 <-? (if neg then addChar o1 45 else Some o1) ;;
  o3 <-? (if f_alt st || ptr then addChars o2 [48; 120] else Some o2) ;;
  o4 <-? body o3 ;;
  (if f_left st then addPad o4 n 32 else Some o4).

Inductive fres := FOk (o : fout) (ret : Z) | FUB.
Definition fin (o : option fout) : fres := match o with Some x => FOk x (fo_pos x) | None => FUB end.
(* std_string.cpp:58-300 wr_sprintfEx *)
Fixpoint sprintfEx (fmt : list Z) (st : fstate) (args : list farg) (o : fout) : fres :=
  match fmt with
  | [] => FOk o (fo_pos o)
  | c :: rest =>
    let continue (x : option fout) (args' : list farg) :=
      match x with Some o' => sprintfEx rest f_reset args' o' | None => FUB end in
    let integer (signed : bool) (base : Z) (width : nat) :=
      let '(v, args') := match args with a :: t => (u32 (arg_int a), t) | [] => (0, []) end in
      if signed && (2147483648 <=? v) then
        if v =? 2147483648 then FUB   (* -(int)0x80000000 *)
        else let ds := convert width base (c =? 120) (4294967296 - v) in
             continue (copy_to st (f_pad st) true (c =? 112) (lenZ ds) (fun x => addChars x ds) o) args'
      else let ds := convert width base (c =? 120) v in
           continue (copy_to st (f_pad st) false (c =? 112) (lenZ ds) (fun x => addChars x ds) o) args' in
    if negb (f_second st) then
      if c =? 37 then sprintfEx rest (mkF true (f_pad st) (f_cols st) (f_left st) (f_alt st)) args o
      else match addChar o c with
           | Some o' => sprintfEx rest st args o'
           | None => FUB
           end
    else if (48 <=? c) && (c <=? 57) then
      let cols := u32 (u32 (f_cols st * 10) + (c - 48)) in
      sprintfEx rest (mkF true (if cols =? 0 then 48 else f_pad st) cols (f_left st) (f_alt st)) args o
    else if c =? 35 then sprintfEx rest (mkF true (f_pad st) (f_cols st) (f_left st) true) args o
    else if c =? 45 then sprintfEx rest (mkF true (f_pad st) (f_cols st) true (f_alt st)) args o
    else if c =? 99 then
      match args with
      | a :: t => continue (addChar o (u8 (arg_int a))) t
      | [] => continue (Some o) []
      end
    else if c =? 37 then continue (addChar o 37) args
    else if c =? 115 then
      match args with
      | [] => continue (copy_to st 32 false false 0 (fun x => Some x) o) []
      | FStr bs :: t => continue (copy_to st 32 false false (lenZ bs) (fun x => addChars x bs) o) t
      | FSelf :: t => continue (copy_to st 32 false false self_len (fun x => addSelf x 0 (Z.to_nat self_len)) o) t
      | _ => FOk o 0
      end
    else if (c =? 100) || (c =? 105) then integer true 10 10%nat
    else if c =? 117 then integer false 10 10%nat
    else if c =? 98 then integer false 2 16%nat
    else if c =? 111 then integer false 8 5%nat
    else if (c =? 120) || (c =? 88) || (c =? 112) then integer false 16 8%nat
    else sprintfEx rest f_reset args o
  end.
End Fmt.

Definition TRY_SIZE : Z := 80.
(* std_string.cpp:303-386 wr_doSprintf: resulting string.  [to] is the destination's current
   string, if it has one; fresh allocations contain [junk]. *)
Definition fresh (junk n : Z) : list Z := repeat junk (Z.to_nat n).
(* the destination's string after a call that wrote its own buffer: later runs see it *)
Definition rerun (junk size : Z) (self : list Z) (fmt : list Z) (args : list farg) : option (list Z) :=
  match sprintfEx size (lenZ self) fmt f_reset (map (fun a => match a with FSelf => FStr self | x => x end) args) (mkOut (fresh junk size) 0) with
  | FOk o _ => Some (firstn (Z.to_nat size) (fo_buf o))
  | FUB => None
  end.
Definition doSprintf (junk : Z) (to : option (list Z)) (fmt : list Z) (args : list farg) : option (list Z * Z) :=
  match to with
  | None =>
    match sprintfEx TRY_SIZE 0 fmt f_reset args (mkOut (fresh junk (TRY_SIZE + 1)) 0) with
    | FUB => None
    | FOk o size =>
      if TRY_SIZE <? size then s <-? rerun junk size [] fmt args ;; Some (s, size)
      else Some (firstn (Z.to_nat size) (fo_buf o), size)
    end
  | Some buf =>
    match sprintfEx (lenZ buf) (lenZ buf) fmt f_reset args (mkOut buf 0) with
    | FUB => None
    | FOk o size =>
      if lenZ buf <? size then s <-? rerun junk size (fo_buf o) fmt args ;; Some (s, size)
      else if (TRY_SIZE <? lenZ buf) && (0 <? size) && (u32 (size * 4) <=? lenZ buf)
      then s <-? rerun junk size (fo_buf o) fmt args ;; Some (s, size)
      else Some (firstn (Z.to_nat size) (fo_buf o), size)
    end
  end.
