(* The names of functions and variables that a program compiled for the debugger carries: link.cpp:152-181 writes the
   symbol block, client_interface_private.cpp:97-146 (populateSymbols) reads it.  The lists the client fills are
   sequences (C63). *)
From Verif Require Import Base.
From Verif Require Import GCModel.
Open Scope list_scope. Open Scope Z_scope.

(* cc.h:362-366: of a unit its name, how many arguments it takes and the labels of its variables; wrench.h:1214-1225 *)
Record symbols := mkSymbols { y_name : list Z; y_args : Z; y_vars : list (list Z) }.
(* link.cpp:164-165, 169-170: a name and its terminator *)
Definition name_bytes (n : list Z) : list Z := n ++ [0].
(* link.cpp:160-171: the counts are stored in bytes *)
Definition unit_bytes (u : symbols) : list Z :=
  [lenZ (y_vars u) mod 256; y_args u mod 256] ++ name_bytes (y_name u) ++ concat (map name_bytes (y_vars u)).
(* link.cpp:152-181: None: the compiler panics *)
Definition symbol_block (us : list symbols) : option (list Z) :=
  let b := [lenZ us mod 256; (lenZ us / 256) mod 256] ++ concat (map unit_bytes us) in
  if 65535 <? lenZ b then None else Some b.

(* isspace in the C locale *)
Definition is_space (c : Z) : bool := (c =? 32) || ((9 <=? c) && (c <=? 13)).
Fixpoint skip_space (b : list Z) : list Z := match b with c :: r => if is_space c then skip_space r else b | [] => [] end.
(* what sscanf with %63s takes from where no space is; None: it reads behind the block *)
Fixpoint word (n : nat) (b : list Z) : option (list Z) :=
  match n with
  | O => Some []
  | S k => match b with
           | [] => None
           | c :: r => if (c =? 0) || is_space c then Some [] else match word k r with Some w => Some (c :: w) | None => None end
           end
  end.
(* while( block[pos++] ) *)
Fixpoint after_null (b : list Z) : option (list Z) := match b with [] => None | c :: r => if c =? 0 then Some r else after_null r end.
(* client_interface_private.cpp:130-132, 138-139: a name; without one what addTail made stays, the empty name *)
Definition read_name (b : list Z) : res (list Z * list Z) :=
  match word 63 (skip_space b), after_null b with Some w, Some r => Ok (w, r) | _, _ => UB end.
(* client_interface_private.cpp:135-140 *)
Fixpoint read_vars (count : nat) (b : list Z) : res (list (list Z) * list Z) :=
  match count with
  | O => Ok ([], b)
  | S c => match read_name b with
           | Ok (n, r) => match read_vars c r with Ok (ns, r1) => Ok (n :: ns, r1) | UB => UB | OutOfFuel => OutOfFuel end
           | UB => UB | OutOfFuel => OutOfFuel
           end
  end.
(* client_interface_private.cpp:122-141 *)
Fixpoint read_units (count : nat) (b : list Z) : res (list symbols) :=
  match count with
  | O => Ok []
  | S c =>
    match b with
    | vars :: args :: r =>
      match read_name r with
      | Ok (n, r1) =>
        match read_vars (Z.to_nat vars) r1 with
        | Ok (vs, r2) => match read_units c r2 with Ok us => Ok (mkSymbols n args vs :: us) | UB => UB | OutOfFuel => OutOfFuel end
        | UB => UB | OutOfFuel => OutOfFuel
        end
      | UB => UB | OutOfFuel => OutOfFuel
      end
    | _ => UB
    end
  end.
(* client_interface_private.cpp:117-141: the count is signed *)
Definition populate (b : list Z) : res (list symbols) :=
  match b with b0 :: b1 :: r => read_units (Z.to_nat (let n := b0 + 256 * b1 in if n <? 32768 then n else n - 65536)) r | _ => UB end.
