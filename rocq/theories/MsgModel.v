(* The message mailbox library, lib/std_msg.cpp, on top of the state's registry
   (WRState::globalRegistry, the same table that holds the registered functions). *)
From Verif Require Import Base HashTableModel.

(* what a registry slot holds: an integer message, or a registered function or constant *)
Inductive rval := RInt (i : Z) | RFn (f : nat).
Definition rzero : rval := RInt 0.

(* an argument of a library call: what getHash() and asInt() give for it.  The value itself does not
   matter to this library (see OpsModel.get_hash, ArrayModel.asInt for the two functions). *)
Record marg := mkArg { a_hash : Z; a_int : Z }.

(* the answer of a call is what is left in the return slot, which the caller sets to integer 0
   (vm.cpp:1088-1091) *)
Definition ret0 : rval := RInt 0.

(* std_msg.cpp:33-49 *)
Definition mbox_read (args : list marg) (t : table rval) : table rval * rval :=
  match args with
  | [] => (t, ret0)
  | k :: r =>
    let clear := match r with c :: _ => a_int c | [] => 0 end in
    let '(t', m) := ht_exists rzero t (a_hash k) (negb (clear =? 0)) in
    (t', match m with Some v => v | None => ret0 end)
  end.
(* std_msg.cpp:54-65: the message is the hash of the value, marked as an integer *)
Definition mbox_write (args : list marg) (t : table rval) : option (table rval * rval) :=
  match args with
  | k :: v :: _ =>
    match ht_getRaw rzero t (a_hash k) with
    | Some (t', i) => Some (mkTable (t_mod t') (t_keys t') (upd (t_vals t') (Z.to_nat i) (RInt (a_hash v))) (t_size t'), ret0)
    | None => None
    end
  | _ => Some (t, ret0)
  end.
(* std_msg.cpp:68-74 *)
Definition mbox_clear (args : list marg) (t : table rval) : table rval * rval :=
  match args with
  | k :: _ => (fst (ht_exists rzero t (a_hash k) true), ret0)
  | [] => (t, ret0)
  end.
(* std_msg.cpp:80-87: only ->i of the return slot is written, its type stays integer *)
Definition mbox_peek (args : list marg) (t : table rval) : table rval * rval :=
  match args with
  | k :: _ => (t, match snd (ht_exists rzero t (a_hash k) false) with Some _ => RInt 1 | None => ret0 end)
  | [] => (t, ret0)
  end.
(* utils.cpp:568-596 registering a function or constant under the hash of its name *)
Definition reg_set (k : Z) (v : rval) (t : table rval) : option (table rval) :=
  match ht_getRaw rzero t k with
  | Some (t', i) => Some (mkTable (t_mod t') (t_keys t') (upd (t_vals t') (Z.to_nat i) v) (t_size t'))
  | None => None
  end.
(* vm.cpp:873, 968, 1083, 1122: looking up a called function by hash creates the slot if it is absent *)
Definition reg_lookup (k : Z) (t : table rval) : option (table rval) := option_map fst (ht_getRaw rzero t k).

Inductive mop :=
| MRead (args : list marg) | MWrite (args : list marg) | MClear (args : list marg) | MPeek (args : list marg)
| MRegister (k : Z) (f : nat) | MLookup (k : Z).
Definition m_step (t : table rval) (o : mop) : option (table rval * rval) :=
  match o with
  | MRead a => Some (mbox_read a t)
  | MWrite a => mbox_write a t
  | MClear a => Some (mbox_clear a t)
  | MPeek a => Some (mbox_peek a t)
  | MRegister k f => option_map (fun t' => (t', ret0)) (reg_set k (RFn f) t)
  | MLookup k => option_map (fun t' => (t', ret0)) (reg_lookup k t)
  end.
Fixpoint m_run (t : table rval) (os : list mop) : option (list rval) :=
  match os with
  | [] => Some []
  | o :: r => match m_step t o with
              | Some (t', b) => option_map (cons b) (m_run t' r)
              | None => None
              end
  end.
