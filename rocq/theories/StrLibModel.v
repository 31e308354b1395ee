(* lib/std_string.cpp: the str:: functions on strings.  An argument is what array() and asInt()
   report of it.  memcpy is modelled with its bounds: reading outside the source or writing outside
   the destination is [UB], as is calling isspace/tolower/toupper on a (signed) char below 0. *)
From Verif Require Import Base StdModel.

Record sarg := mkArg { sa_str : option (list Z); sa_int : Z }.
(* RInt 0 is what the virtual machine put in the result slot before the call (vm.cpp:1078) *)
Inductive sres := RStr (s : list Z) | RInt (i : Z) | UB.
Definition arg_str (s : list Z) : sarg := mkArg (Some s) 0.
Definition arg_num (i : Z) : sarg := mkArg None i.

(* memcpy( dst + doff, src + soff, n ) *)
Definition memcpy (dst : list Z) (doff : Z) (src : list Z) (soff n : Z) : option (list Z) :=
  if (0 <=? soff) && (0 <=? n) && (soff + n <=? lenZ src) && (0 <=? doff) && (doff + n <=? lenZ dst)
  then Some (firstn (Z.to_nat doff) dst ++ firstn (Z.to_nat n) (skipn (Z.to_nat soff) src) ++ skipn (Z.to_nat (doff + n)) dst)
  else None.
Definition rstr (o : option (list Z)) : sres := match o with Some s => RStr s | None => UB end.
Section Str.
Variable junk : Z.
(* getSVA( n, SV_CHAR, false ): n bytes of anything *)
Definition alloc (n : Z) : list Z := repeat junk (Z.to_nat n).

(* std_string.cpp:31-45 *)
Definition wr_strlen (args : list sarg) : sres :=
  match args with [a] => RInt (match sa_str a with Some s => lenZ s | None => 0 end) | _ => RInt 0 end.
(* std_string.cpp:516-553 mid / substr.  data + start beyond the string is only formed when
   nothing is copied; forming it is not modelled as an error. *)
Definition wr_mid (args : list sarg) : sres :=
  match args with
  | a :: b :: more =>
    match sa_str a with
    | None => RInt 0
    | Some data =>
      let len := lenZ data in
      if len <=? 0 then RInt 0
      else
        let start := u32 (sa_int b) in
        let chars := if start <? len then
                       let ch := match more with c :: _ => u32 (sa_int c) | [] => len end in
                       if len - start <? ch then len - start else ch
                     else 0 in
        if chars =? 0 then RStr (alloc 0)
        else rstr (memcpy (alloc chars) 0 data start chars)
    end
  | _ => RInt 0
  end.
(* std_string.cpp:556-582 chr *)
Fixpoint find_char (s : list Z) (ch : Z) (i : Z) : Z :=
  match s with [] => -1 | c :: t => if c =? ch then i else find_char t ch (i + 1) end.
Definition wr_strchr (args : list sarg) : sres :=
  match args with
  | a :: b :: _ => match sa_str a with Some s => RInt (find_char s (u8 (sa_int b)) 0) | None => RInt (-1) end
  | _ => RInt (-1)
  end.
(* C locale <ctype.h>; bytes 128..255 are negative chars: undefined *)
Definition c_isspace (c : Z) : option bool := if c <? 128 then Some (is_space c) else None.
Definition c_tolower (c : Z) : option Z := if c <? 128 then Some (if (65 <=? c) && (c <=? 90) then c + 32 else c) else None.
Definition c_toupper (c : Z) : option Z := if c <? 128 then Some (if (97 <=? c) && (c <=? 122) then c - 32 else c) else None.
Fixpoint map_chars (f : Z -> option Z) (s : list Z) : option (list Z) :=
  match s with [] => Some [] | c :: t => match f c, map_chars f t with Some d, Some u => Some (d :: u) | _, _ => None end end.
(* std_string.cpp:585-638 tolower / toupper on strings *)
Definition wr_tolower (args : list sarg) : sres :=
  match args with [mkArg (Some s) _] => rstr (map_chars c_tolower s) | _ => RInt 0 end.
Definition wr_toupper (args : list sarg) : sres :=
  match args with [mkArg (Some s) _] => rstr (map_chars c_toupper s) | _ => RInt 0 end.
(* std_string.cpp:655-684 concat *)
Definition wr_concat (args : list sarg) : sres :=
  match args with
  | a :: b :: _ =>
    match sa_str a, sa_str b with
    | Some d1, Some d2 =>
      match memcpy (alloc (lenZ d1 + lenZ d2)) 0 d1 0 (lenZ d1) with
      | Some m => rstr (memcpy m (lenZ d1) d2 0 (lenZ d2))
      | None => UB
      end
    | _, _ => RInt 0
    end
  | _ => RInt 0
  end.
(* std_string.cpp:687-718 left / trunc, 721-751 right *)
Definition wr_left (args : list sarg) : sres :=
  match args with
  | a :: b :: _ =>
    match sa_str a with
    | Some d => let ch := u32 (sa_int b) in let n := if lenZ d <? ch then lenZ d else ch in
                rstr (memcpy (alloc n) 0 d 0 n)
    | None => RInt 0
    end
  | _ => RInt 0
  end.
Definition wr_right (args : list sarg) : sres :=
  match args with
  | a :: b :: _ =>
    match sa_str a with
    | Some d => let ch := u32 (sa_int b) in let n := if lenZ d <? ch then lenZ d else ch in
                rstr (memcpy (alloc n) 0 d (lenZ d - n) n)
    | None => RInt 0
    end
  | _ => RInt 0
  end.
(* std_string.cpp:763-767 while( --len >= lo && isspace(data[len]) ); ++len : new length *)
Fixpoint trim_end (data : list Z) (lo : Z) (len : nat) : option Z :=
  match len with
  | O => Some 0
  | S l => if Z.of_nat l <? lo then Some (Z.of_nat len)
           else match nthZ data (Z.of_nat l) with
                | None => None
                | Some c => match c_isspace c with
                            | None => None
                            | Some true => trim_end data lo l
                            | Some false => Some (Z.of_nat len)
                            end
                end
  end.
(* std_string.cpp:794-795 while( marker < len && isspace(data[marker]) ) ++marker *)
Fixpoint trim_start (data : list Z) (marker : Z) : option Z :=
  match data with
  | [] => Some marker
  | c :: t => match c_isspace c with
              | None => None
              | Some true => trim_start t (marker + 1)
              | Some false => Some marker
              end
  end.
(* std_string.cpp:754-780 trimright, 783-810 trimleft, 813-842 trim *)
Definition wr_trimright (args : list sarg) : sres :=
  match args with
  | mkArg (Some d) _ :: _ =>
    match trim_end d 0 (length d) with Some n => rstr (memcpy (alloc n) 0 d 0 n) | None => UB end
  | _ => RInt 0
  end.
Definition wr_trimleft (args : list sarg) : sres :=
  match args with
  | mkArg (Some d) _ :: _ =>
    match trim_start d 0 with Some m => rstr (memcpy (alloc (lenZ d - m)) 0 d m (lenZ d - m)) | None => UB end
  | _ => RInt 0
  end.
Definition wr_trim (args : list sarg) : sres :=
  match args with
  | mkArg (Some d) _ :: _ =>
    match trim_start d 0 with
    | None => UB
    | Some m => match trim_end d m (length d) with
                | Some n => rstr (memcpy (alloc (n - m)) 0 d m (n - m))
                | None => UB
                end
    end
  | _ => RInt 0
  end.
(* std_string.cpp:845-886 insert *)
Definition wr_insert (args : list sarg) : sres :=
  match args with
  | a :: b :: c :: _ =>
    match sa_str a, sa_str b with
    | Some d1, Some d2 =>
      let p := u32 (sa_int c) in
      let pos := if lenZ d1 <=? p then lenZ d1 else p in
      match memcpy (alloc (lenZ d1 + lenZ d2)) 0 d1 0 pos with
      | None => UB
      | Some m1 => match memcpy m1 pos d2 0 (lenZ d2) with
                   | None => UB
                   | Some m2 => rstr (memcpy m2 (pos + lenZ d2) d1 pos (lenZ d1 - pos))
                   end
      end
    | _, _ => RInt 0
    end
  | _ => RInt 0
  end.
End Str.
