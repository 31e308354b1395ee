(* Where in the source the compiler is: getSourcePosition (cc.cpp:302-342), which error messages (cc.cpp:114-139) and
   the debugger use, and the codewords for lines and calls in the code (cc.cpp:279-299, 1489-1490, 3107). *)
From Verif Require Import Base.
From Verif Require Import GCModel.
Open Scope list_scope. Open Scope Z_scope.

(* cc.cpp:315-318, 330-333 *)
Fixpoint up_to_newline (b : list Z) : list Z := match b with [] => [] | c :: r => if c =? 10 then [] else c :: up_to_newline r end.
(* cc.cpp:320-339: the loop, n characters to go *)
Fixpoint walk (n : nat) (rest : list Z) (on_line on_char : Z) (line : list Z) : res (Z * Z * list Z) :=
  match n with
  | O => Ok (on_line, on_char, line)
  | S k => match rest with
           | [] => UB
           | c :: r => if c =? 10 then walk k r (on_line + 1) 0 (up_to_newline r) else walk k r on_line (on_char + 1) line
           end
  end.
(* cc.cpp:310-342: onLine, onChar, line *)
Definition source_position (source : list Z) (pos : Z) : res (Z * Z * list Z) := walk (Z.to_nat pos) source 1 0 (up_to_newline source).

(* debug.h:32-43 *)
Definition WRD_FunctionCall : Z := 0x0000.
Definition WRD_LineNumber : Z := 0x4000.
Definition WRD_ExternalFunction : Z := 0x0E00.
(* cc.cpp:279-299 (pushDebug) with m_lastCode and m_lastParam: the codeword, if one is pushed; param as uint16_t *)
Definition push_debug (code param : Z) (last : Z * Z) : (Z * Z) * list Z :=
  let param := param mod 65536 in
  if (code =? fst last) && (param =? snd last) then (last, []) else ((code, param), [Z.lor code (Z.land param 0x3FFF)]).
(* cc.cpp:1489-1490: before a call *)
Definition call_debug (line : Z) (last : Z * Z) : (Z * Z) * list Z :=
  let (l1, a) := push_debug WRD_LineNumber line last in
  let (l2, b) := push_debug WRD_FunctionCall WRD_ExternalFunction l1 in (l2, a ++ b).
