(* What a script sees of an array variable. *)
From Verif Require Import Base OpsModel ArrayModel.

(* the elements of array object id *)
Definition contents (m : mem) (id : nat) : list value :=
  match mo m id with Some (OVal n) => map (fun k => mv m (LElem id k)) (seq 0 n) | _ => [] end.
(* variable x as a list: a number used as an array is an empty array *)
Definition view (m : mem) (x : loc) : option (list value) :=
  match mv m x with
  | VArr id => match mo m id with Some (OVal _) => Some (contents m id) | _ => None end
  | VInt _ | VFlt _ => Some []
  | _ => None
  end.
(* the list extended with zeroes to at least n elements *)
Definition pad (l : list value) (n : nat) : list value := l ++ repeat (VInt 0) (n - length l).
(* a value that is not a reference to some other place *)
Definition plain (v : value) : Prop :=
  match v with VRef _ | VMem _ _ | VHMem _ _ => False | _ => True end.
(* x is a script variable: not a scratch location, nor an element of its own array; fresh object
   numbers are unused *)
Definition variable (m : mem) (x : loc) : Prop :=
  match x with
  | LGlobal _ => True
  | LStack n => (4 <= n)%nat
  | LElem i _ => (i < mnext m)%nat /\ mv m x <> VArr i
  | _ => False
  end /\ forall id, mv m x = VArr id -> (id < mnext m)%nat.

(* first in, first out *)
Fixpoint fifo (q : list value) (ops : list qop) : list value * list value :=
  match ops with
  | [] => ([], q)
  | Push v :: t => fifo (q ++ [v]) t
  | Pop :: t => match q with
                | [] => let '(r, q') := fifo [] t in (VInt 0 :: r, q')
                | v :: q1 => let '(r, q') := fifo q1 t in (v :: r, q')
                end
  end.
(* last in, first out *)
Fixpoint lifo (s : list value) (ops : list qop) : list value * list value :=
  match ops with
  | [] => ([], s)
  | Push v :: t => lifo (v :: s) t
  | Pop :: t => match s with
                | [] => let '(r, s') := lifo [] t in (VInt 0 :: r, s')
                | v :: s1 => let '(r, s') := lifo s1 t in (v :: r, s')
                end
  end.
Fixpoint pushes (ops : list qop) : nat :=
  match ops with [] => O | Push _ :: t => S (pushes t) | Pop :: t => pushes t end.
(* the history of a list under element reads and writes *)
Fixpoint array_run (l : list value) (ops : list aop) : list value * list value :=
  match ops with
  | [] => ([], l)
  | Write i v :: t => array_run (upd (pad l (S i)) i v) t
  | Read i :: t => let '(r, l') := array_run (pad l (S i)) t in (nth i l (VInt 0) :: r, l')
  end.
(* x is a variable holding an array with the elements l *)
Definition is_array (m : mem) (x : loc) (l : list value) : Prop :=
  variable m x /\ view m x = Some l /\ exists id, mv m x = VArr id.
(* splicing: c zeroes inserted at position w; c elements deleted at position w *)
Definition insert_list (l : list value) (w c : nat) : list value := firstn w l ++ repeat (VInt 0) c ++ skipn w l.
Definition remove_list (l : list value) (w c : nat) : list value := firstn w l ++ skipn (w + c) l.
(* only values, not references, are pushed or written *)
Definition qop_plain (o : qop) : Prop := match o with Push v => plain v | Pop => True end.
Definition aop_ok (o : aop) : Prop := match o with Write i v => Z.of_nat i < 2097152 /\ plain v | Read i => Z.of_nat i < 2097152 end.
(* a double-ended list *)
Fixpoint deque (l : list value) (ops : list lop) : list value * list value :=
  match ops with
  | [] => ([], l)
  | PushFront v :: t => deque (v :: l) t
  | PushBack v :: t => deque (l ++ [v]) t
  | PopFront :: t => let '(r, l') := deque (tl l) t in (hd (VInt 0) l :: r, l')
  | PopBack :: t => let '(r, l') := deque (removelast l) t in (last l (VInt 0) :: r, l')
  end.
Definition lop_plain (o : lop) : Prop := match o with PushFront v | PushBack v => plain v | _ => True end.
