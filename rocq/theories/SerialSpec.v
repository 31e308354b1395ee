(* What it means for serialisation to be faithful. *)
From Verif Require Import Base HashModel HashTableModel SerialModel.

(* a key whose hash is a function of its contents *)
Definition plain_key (k : sval) : Prop := match k with SInt _ | SFlt _ | SStr _ => True | _ => False end.

(* values scripts build out of numbers, strings, arrays and hash tables: 32-bit payloads, byte
   strings, containers below the 16-bit limit, hash tables with a modulus from the prime table
   whose occupied slots carry the hash of their key *)
Inductive slot_good (G : sval -> Prop) : option (Z * sval * sval) -> Prop :=
| SG_empty : slot_good G None
| SG_entry h x k : G x -> G k -> plain_key k -> h = key_hash (fun _ => 0) k -> h <> NULL_HASH ->
    slot_good G (Some (h, x, k)).
Inductive good : sval -> Prop :=
| G_int u : is_u32 u -> good (SInt u)
| G_flt u : is_u32 u -> good (SFlt u)
| G_str bs : bytes_ok bs -> lenZ bs < 65536 -> good (SStr bs)
| G_arr vs : lenZ vs < 65536 -> Forall good vs -> good (SArr vs)
| G_hash size slots : In (lenZ slots) prime_table -> Forall (slot_good good) slots -> good (SHash size slots).

(* equal up to the element count a hash table reports *)
Inductive slot_same (E : sval -> sval -> Prop) : option (Z * sval * sval) -> option (Z * sval * sval) -> Prop :=
| SS_empty : slot_same E None None
| SS_entry h x k x' k' : E x x' -> E k k' -> slot_same E (Some (h, x, k)) (Some (h, x', k')).
Inductive same : sval -> sval -> Prop :=
| E_int u : same (SInt u) (SInt u)
| E_flt u : same (SFlt u) (SFlt u)
| E_str bs : same (SStr bs) (SStr bs)
| E_arr vs ws : Forall2 same vs ws -> same (SArr vs) (SArr ws)
| E_hash n n' s s' : Forall2 (slot_same same) s s' -> same (SHash n s) (SHash n' s').

(* the input contains a hash table header with a size no prime table entry can serve *)
Definition bad_hash_header (bs : list Z) : Prop :=
  exists pre lo hi post, bs = pre ++ [3; 224; lo; hi] ++ post /\ (lo + 256 * hi = 0 \/ 49157 < lo + 256 * hi).
