(* What one expects of breakpoints and stepping: what the program does (it reaches lines, enters and leaves
   functions) and what the user asks for, in the order in which it happens. *)
From Verif Require Import Base.
Open Scope list_scope. Open Scope Z_scope.

Inductive event :=
| Line (n : Z)                   (* the program reaches line n *)
| Enter (u : Z) | Leave          (* it calls function u, it returns *)
| SetBreak (n : Z) | ClearBreak (n : Z) | StepOver | StepInto
| RunTo (n : Z).                 (* run; n: to a line, 0: none *)
(* is there a breakpoint at line n? the last request for that line says it *)
Definition armed (before : list event) (n : Z) : bool :=
  fold_left (fun a e => match e with SetBreak z => if z =? n then true else a | ClearBreak z => if z =? n then false else a | _ => a end) before false.
(* how many more functions were entered than left *)
Definition level (l : list event) : Z := fold_left (fun k e => match e with Enter _ => k + 1 | Leave => k - 1 | _ => k end) l 0.
(* only what was entered is left, at every moment *)
Definition nested (l : list event) : Prop := forall a b, l = a ++ b -> 0 <= level a.
(* lines that have a codeword, and functions: a file has at most 255 *)
Definition in_range (e : event) : Prop := match e with Line n => 0 < n < 16384 | Enter u => 0 < u < 256 | _ => True end.
(* nothing is asked for *)
Definition program_only (e : event) : Prop := match e with Line _ | Enter _ | Leave => True | _ => False end.
