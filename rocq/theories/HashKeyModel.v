(* Script values as hash-table keys: vm/index.cpp wr_doIndexHash, vm/operations.cpp getHashEx. *)
From Verif Require Import Base HashModel HashTableModel.

(* the key values modelled: a number, or a string given by its bytes.  Arrays, tables and structs as
   keys are hashed by address or content and are not modelled. *)
Inductive key := KInt (u : Z) | KFlt (u : Z) | KStr (bs : list Z).
(* wrench.h:874 getHash (numbers: the 32 payload bits), operations.cpp:192-197 getHashEx (strings) *)
Definition key_hash (k : key) : Z :=
  match k with KInt u => u | KFlt u => u | KStr bs => wr_hash bs 0 end.
(* h[k] = v (index.cpp:64-78 and the assignment), reading h[k], h._remove( k ) (vm.cpp:1199-1212) *)
Inductive kop (V : Type) := KSet (k : key) (v : V) | KGet (k : key) | KRemove (k : key).
Arguments KSet {V}. Arguments KGet {V}. Arguments KRemove {V}.
Definition lower {V} (o : kop V) : op V :=
  match o with
  | KSet k v => OpSet (key_hash k) v
  | KGet k => OpGet (key_hash k)
  | KRemove k => OpRemove (key_hash k)
  end.
Definition k_run {V} (zero : V) (t : table V) (ops : list (kop V)) : option (table V) := ht_run zero t (map lower ops).
(* the value h[k] designates, without creating it *)
Definition k_find {V} (zero : V) (t : table V) (k : key) : option V := snd (ht_exists zero t (key_hash k) false).
