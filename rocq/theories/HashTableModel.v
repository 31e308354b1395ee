(* The VM's open-addressing hash table: vm/gc_object.cpp, wrench.h class WRGCObject.
   One payload of type [V] per slot: for script hash tables (SV_HASH_TABLE) it is the
   (value,key) pair stored at m_Vdata[2*i],m_Vdata[2*i+1]; for registries
   (SV_VOID_HASH_TABLE) it is m_Vdata[i].  Allocation failure is not modelled; the
   linking of the new block into the GC chain is modelled in GCModel. *)
From Verif Require Import Base.

(* vm/vm.h WRENCH_NULL_HASH : marks an empty slot *)
Definition NULL_HASH : Z := 2880154539. (* 0xABABABAB *)

(* utils/utils.h:36-55 c_primeTable.  There is no terminator: reading past the last
   entry is undefined behaviour, modelled as [None] by the functions below. *)
Definition prime_table : list Z :=
  [2;5;11;17;23;31;53;97;193;389;769;1543;3079;6151;12289;24593;49157].

Section Table.
Context {V : Type}.
Variable zero : V.   (* an all-zero payload, what memset(0) leaves: integer 0 *)

(* wrench.h:976-1096: m_mod, m_hashTable, m_Vdata, m_size *)
Record table := mkTable { t_mod : Z; t_keys : list Z; t_vals : list V; t_size : Z }.

(* m_hashTable[i]; indices are always reduced mod m_mod so out of range never happens on a
   well-formed table (proved); the default is the empty marker *)
Definition key_at (keys : list Z) (i : Z) : Z := nth (Z.to_nat i) keys NULL_HASH.
Definition val_at (vals : list V) (i : Z) : V := nth (Z.to_nat i) vals zero.

Inductive probe_result := PHit (i : Z) | PInsert (i : Z) | PMiss.

(* gc_object.cpp:164-181 the do{}while(tries--) loop of getIndexOfHit; [n] iterations left *)
Fixpoint probe (keys : list Z) (md hash : Z) (inserting : bool) (index : Z) (n : nat) : probe_result :=
  match n with
  | O => PMiss
  | S n' =>
    if inserting && (key_at keys index =? NULL_HASH) then PInsert index
    else let index' := (index + 1) mod md in
         if key_at keys index' =? hash then PHit index'
         else probe keys md hash inserting index' n'
  end.

(* gc_object.cpp:155-181: direct hit, then the loop (tries = 3 gives 4 iterations) *)
Definition find_slot (keys : list Z) (md hash : Z) (inserting : bool) : probe_result :=
  let index := hash mod md in
  if key_at keys index =? hash then PHit index else probe keys md hash inserting index 4.

(* gc_object.cpp:234-258 placing one old key into the proposed table: tries = 3 *)
Fixpoint place (proposed : list Z) (newMod key entry : Z) (tries : nat) : option (list Z) :=
  if key_at proposed entry =? NULL_HASH then Some (upd proposed (Z.to_nat entry) key)
  else match tries with
       | O => None
       | S tr => place proposed newMod key ((entry + 1) mod newMod) tr
       end.

(* gc_object.cpp:232-259 placing all old slots (the empty ones too) *)
Fixpoint place_all (proposed : list Z) (newMod : Z) (olds : list Z) : option (list Z) :=
  match olds with
  | [] => Some proposed
  | k :: t => match place proposed newMod k (k mod newMod) 3 with
              | None => None
              | Some p => place_all p newMod t
              end
  end.

(* gc_object.cpp:199-257 the tryAgain loop over the remaining primes.  None: no prime left
   (assert at :252, or an out-of-bounds read of c_primeTable when asserts are off). *)
Fixpoint try_primes (primes : list Z) (hash : Z) (olds : list Z) : option (Z * list Z) :=
  match primes with
  | [] => None
  | p :: t =>
    let proposed := upd (repeat NULL_HASH (Z.to_nat p)) (Z.to_nat (hash mod p)) hash in
    match place_all proposed p olds with
    | Some pr => Some (p, pr)
    | None => try_primes t hash olds
    end
  end.

(* gc_object.cpp:194-196 the first prime greater than start *)
Fixpoint drop_primes (primes : list Z) (start : Z) : list Z :=
  match primes with
  | [] => []
  | p :: t => if p <=? start then drop_primes t start else primes
  end.

(* gc_object.cpp:275-312 moving the values: each live old slot is looked up in the new key
   array with getIndexOfHit(...,true).  An insertion there bumps m_size; a miss would grow
   recursively: modelled as None and proved unreachable. *)
Fixpoint move_vals (keys : list Z) (md size : Z) (newVals : list V)
                   (olds : list Z) (oldVals : list V) : option (list Z * Z * list V) :=
  match olds, oldVals with
  | k :: ks, v :: vs =>
    if k =? NULL_HASH then move_vals keys md size newVals ks vs
    else match find_slot keys md k true with
         | PHit i => move_vals keys md size (upd newVals (Z.to_nat i) v) ks vs
         | PInsert i => move_vals (upd keys (Z.to_nat i) k) md (u32 (size + 1))
                                  (upd newVals (Z.to_nat i) v) ks vs
         | PMiss => None
         end
  | _, _ => Some (keys, size, newVals)
  end.

(* gc_object.cpp:189-318 growHash (sizeHint already reduced to uint16_t) *)
Definition growHash (t : table) (hash sizeHint : Z) : option (table * Z) :=
  let start := if t_mod t <? sizeHint then sizeHint else t_mod t in
  match try_primes (drop_primes prime_table start) hash (t_keys t) with
  | None => None
  | Some (newMod, proposed) =>
    match move_vals proposed newMod (t_size t) (repeat zero (Z.to_nat newMod))
                    (t_keys t) (t_vals t) with
    | None => None
    | Some (keys, size, vals) =>
      (* :316 return getIndexOfHit( hash, true ) *)
      match find_slot keys newMod hash true with
      | PHit i => Some (mkTable newMod keys vals size, i)
      | PInsert i => Some (mkTable newMod (upd keys (Z.to_nat i) hash) vals (u32 (size + 1)), i)
      | PMiss => None
      end
    end
  end.

(* gc_object.cpp:153-184 getIndexOfHit: new table and index *)
Definition getIndexOfHit_ins (t : table) (hash : Z) : option (table * Z) :=
  match find_slot (t_keys t) (t_mod t) hash true with
  | PHit i => Some (t, i)
  | PInsert i =>
    Some (mkTable (t_mod t) (upd (t_keys t) (Z.to_nat i) hash) (t_vals t) (u32 (t_size t + 1)), i)
  | PMiss => growHash t hash 0
  end.
Definition getIndexOfHit (t : table) (hash : Z) (inserting : bool) : option (table * Z) :=
  if inserting then getIndexOfHit_ins t hash
  else match find_slot (t_keys t) (t_mod t) hash false with
       | PHit i => Some (t, i)
       | _ => getIndexOfHit_ins t hash
       end.

(* gc_object.cpp:27-70 init with a hash type, on the memset-0 object of getSVA
   (gc.cpp:165-171): m_size = size hint, then growHash(NULL_HASH,size) *)
Definition ht_init (sizeHint : Z) : option table :=
  match growHash (mkTable 0 [] [] sizeHint) NULL_HASH (u16 sizeHint) with
  | Some (t, _) => Some t
  | None => None
  end.

(* gc_object.cpp:134-150 get on SV_HASH_TABLE: slot of the key, created if absent *)
Definition ht_get (t : table) (hash : Z) : option (table * Z) := getIndexOfHit t hash false.

(* gc_object.cpp:73-98 getAsRawValueHashTable (non-compact): offsets 0..3 by hand, then insert *)
Definition ht_getRaw (t : table) (hash : Z) : option (table * Z) :=
  let i0 := hash mod t_mod t in
  if key_at (t_keys t) i0 =? hash then Some (t, i0) else
  let i1 := (i0 + 1) mod t_mod t in
  if key_at (t_keys t) i1 =? hash then Some (t, i1) else
  let i2 := (i1 + 1) mod t_mod t in
  if key_at (t_keys t) i2 =? hash then Some (t, i2) else
  let i3 := (i2 + 1) mod t_mod t in
  if key_at (t_keys t) i3 =? hash then Some (t, i3) else
  getIndexOfHit t hash true.

(* gc_object.cpp:101-131 exists: the slot holding the key, if any *)
Fixpoint exists_loop (keys : list Z) (md hash index : Z) (n : nat) : option Z :=
  match n with
  | O => None
  | S n' => let index' := (index + 1) mod md in
            if key_at keys index' =? hash then Some index'
            else exists_loop keys md hash index' n'
  end.
Definition exists_slot (t : table) (hash : Z) : option Z :=
  let index := hash mod t_mod t in
  if key_at (t_keys t) index =? hash then Some index
  else exists_loop (t_keys t) (t_mod t) hash index 4.
(* result: new table and the value the returned pointer designates *)
Definition ht_exists (t : table) (hash : Z) (remove : bool) : table * option V :=
  match exists_slot t hash with
  | None => (t, None)
  | Some i =>
    (if remove
     then mkTable (t_mod t) (upd (t_keys t) (Z.to_nat i) NULL_HASH) (t_vals t) (u32 (t_size t - 1))
     else t,
     Some (val_at (t_vals t) i))
  end.

(* writing through the pointer returned by get: wr_doIndexHash (vm/index.cpp:64-77) followed by
   an assignment, or wr_hashAdd (lib/std_container.cpp:341-356) *)
Definition ht_set (t : table) (hash : Z) (v : V) : option table :=
  match ht_get t hash with
  | None => None
  | Some (t', i) => Some (mkTable (t_mod t') (t_keys t') (upd (t_vals t') (Z.to_nat i) v) (t_size t'))
  end.

(* vm/vm.cpp:37-60 wr_getNextValue on a hash table, utils/utils.cpp:1006-1031 Iterator::operator++:
   repeated until it returns false, it visits the non-empty slots in slot order *)
Fixpoint iter_from (keys : list Z) (vals : list V) : list (Z * V) :=
  match keys, vals with
  | k :: ks, v :: vs => if k =? NULL_HASH then iter_from ks vs else (k, v) :: iter_from ks vs
  | _, _ => []
  end.
Definition ht_iterate (t : table) : list (Z * V) := iter_from (t_keys t) (t_vals t).

(* one script/host operation on a table *)
Inductive op := OpSet (k : Z) (v : V) | OpGet (k : Z) | OpRemove (k : Z).
Definition ht_step (t : table) (o : op) : option table :=
  match o with
  | OpSet k v => ht_set t k v
  | OpGet k => option_map fst (ht_get t k)
  | OpRemove k => Some (fst (ht_exists t k true))
  end.
Fixpoint ht_run (t : table) (ops : list op) : option table :=
  match ops with
  | [] => Some t
  | o :: r => match ht_step t o with None => None | Some t' => ht_run t' r end
  end.
End Table.
Arguments table : clear implicits.
Arguments op : clear implicits.
