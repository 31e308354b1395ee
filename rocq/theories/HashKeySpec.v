(* What a user expects of a table indexed by script values. *)
From Verif Require Import Base HashTableModel HashTableSpec HashKeyModel.

Definition key_eq_dec (a b : key) : {a = b} + {a <> b}.
Proof. decide equality; try apply Z.eq_dec. apply (list_eq_dec Z.eq_dec). Defined.
Definition kop_key {V} (o : kop V) : key := match o with KSet k _ => k | KGet k => k | KRemove k => k end.
Definition key_step {V} (k : key) (s : status V) (o : kop V) : status V :=
  if key_eq_dec (kop_key o) k then
    match o with
    | KSet _ v => Present v
    | KGet _ => match s with Absent => PresentDefault | _ => s end
    | KRemove _ => Absent
    end
  else s.
Definition key_status {V} (ops : list (kop V)) (k : key) : status V := fold_left (key_step k) ops Absent.
Definition is_int (k : key) : Prop := match k with KInt u => is_u32 u | _ => False end.
Definition is_flt (k : key) : Prop := match k with KFlt u => is_u32 u | _ => False end.
