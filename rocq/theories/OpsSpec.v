(* What the value operators are supposed to compute, independent of the dispatch tables. *)
From Verif Require Import Base FloatModel OpsModel.

(* a script number: a 32-bit signed integer or a float bit pattern *)
Inductive number := NI (n : Z) | NF (bits : Z).
Definition of_number (x : number) : value := match x with NI n => VInt (u32 n) | NF b => VFlt b end.
Definition number_ok (x : number) : Prop := match x with NI n => is_s32 n | NF _ => True end.
Definition to_float (x : number) : Z := match x with NI n => f32_of_int n | NF b => b end.
Definition is_NI (x : number) : bool := match x with NI _ => true | NF _ => false end.

(* storage a script or the host can observe, as opposed to the VM's scratch values *)
Definition visible (l : loc) : Prop := match l with LTemp1 | LTemp2 | LAuto _ => False | _ => True end.

(* [denotes m v x]: an operand [v] stands for the number x: a temporary number, a variable
   (through any number of references), an element of an array, a byte of a string or of host
   memory, an entry of a hash table. *)
Inductive denotes (m : mem) : value -> number -> Prop :=
| D_num x : number_ok x -> denotes m (of_number x) x
| D_ref l x : visible l -> denotes m (mv m l) x -> denotes m (VRef l) x
| D_elem r s id n x : visible r -> mv m r = VArr id -> mo m id = Some (OVal n) -> (s < n)%nat ->
    mv m (LElem id s) = of_number x -> number_ok x -> denotes m (VMem r s) x
| D_char r s id bs nc c : visible r -> mv m r = VArr id -> mo m id = Some (OChar bs nc) ->
    nth_error bs s = Some c -> is_byte c -> denotes m (VMem r s) (NI c)
| D_raw r s b n : visible r -> mv m r = VRaw b n -> (s < n)%nat -> is_byte (mraw m b s) ->
    denotes m (VMem r s) (NI (mraw m b s))
| D_hash id s n x : mo m id = Some (OInternal n) -> (s < n)%nat ->
    denotes m (mv m (LElem id s)) x -> denotes m (VHMem id s) x.

(* the machine operation on 32-bit signed integers; None where C++ leaves it undefined *)
Definition spec_int (b : binop) (x y : Z) : option Z :=
  match b with
  | BAdd => Some (s32 (x + y))
  | BSub => Some (s32 (x - y))
  | BMul => Some (s32 (x * y))
  | BDiv => if y =? 0 then Some 0
            else if (x =? -2147483648) && (y =? -1) then None else Some (Z.quot x y)
  | BMod => if y =? 0 then None
            else if (x =? -2147483648) && (y =? -1) then None else Some (Z.rem x y)
  | BAnd => Some (Z.land x y)
  | BOr => Some (Z.lor x y)
  | BXor => Some (Z.lxor x y)
  | BShl => if (0 <=? y) && (y <? 32) then Some (s32 (x * 2 ^ y)) else None
  | BShr => if (0 <=? y) && (y <? 32) then Some (x / 2 ^ y) else None
  end.
Definition spec_float (b : binop) (x y : Z) : option Z :=
  match b with
  | BAdd => Some (f32_add x y)
  | BSub => Some (f32_sub x y)
  | BMul => Some (f32_mul x y)
  | BDiv => if f32_true y then Some (f32_div x y) else Some 0
  | _ => None
  end.
Definition is_arith (b : binop) : bool := match b with BAdd | BSub | BMul | BDiv => true | _ => false end.
Definition is_zero (y : number) : bool := match y with NI n => n =? 0 | NF b => negb (f32_true b) end.

(* mixed operands are computed as floats; division by zero gives 0 of the result type *)
Definition spec_bin (b : binop) (x y : number) : option number :=
  match x, y with
  | NI a, NI c => option_map NI (spec_int b a c)
  | _, _ =>
    match b with
    | BDiv => if is_zero y then Some (NF 0) else Some (NF (f32_div (to_float x) (to_float y)))
    | _ => option_map NF (spec_float b (to_float x) (to_float y))
    end
  end.

Definition spec_cmp (c : cmpop) (x y : number) : bool :=
  match x, y with
  | NI a, NI b =>
    match c with
    | CEq => a =? b | CNe => negb (a =? b) | CLt => a <? b | CLe => a <=? b
    | CGt => b <? a | CGe => b <=? a
    | CAnd => negb (a =? 0) && negb (b =? 0) | COr => negb (a =? 0) || negb (b =? 0)
    end
  | _, _ =>
    let f := to_float x in let g := to_float y in
    match c with
    | CEq => f32_equal f g | CNe => negb (f32_equal f g)
    | CLt => f32_lt f g | CLe => negb (f32_lt g f)
    | CGt => f32_lt g f | CGe => negb (f32_lt f g)
    | CAnd => negb (is_zero x) && negb (is_zero y) | COr => negb (is_zero x) || negb (is_zero y)
    end
  end.

(* [reaches m avoid l j r]: following j references from the value stored at l leads to the storage
   r, without passing through [avoid] *)
Inductive reaches (m : mem) (avoid : loc) : loc -> nat -> loc -> Prop :=
| R_here l : type_of (mv m l) <> TR -> reaches m avoid l 0 l
| R_ref l l' j r : mv m l = VRef l' -> visible l' -> l' <> avoid -> reaches m avoid l' j r ->
    reaches m avoid l (S j) r.
(* the storage [c] a target [v] kept at [r] assigns to: the variable r itself, an element of an
   array of values, or the value of a hash table entry *)
Inductive cell_of (m : mem) (r : loc) : value -> loc -> Prop :=
| C_var x : cell_of m r (of_number x) r
| C_elem l s id n : visible l -> mv m l = VArr id -> mo m id = Some (OVal n) -> (s < n)%nat ->
    cell_of m r (VMem l s) (LElem id s)
| C_hash id s n : mo m id = Some (OInternal n) -> (s < n)%nat -> cell_of m r (VHMem id s) (LElem id s).

(* nothing observable differs, except possibly the storage listed in [ls] *)
Definition unchanged_except (ls : list loc) (m m' : mem) : Prop :=
  (forall l, visible l -> ~ In l ls -> mv m' l = mv m l) /\
  mo m' = mo m /\ mraw m' = mraw m /\ mnext m' = mnext m.

(* the operand reached from [v] after following k references *)
Inductive behind (m : mem) : value -> nat -> value -> Prop :=
| B_here v : type_of v <> TR -> behind m v 0 v
| B_ref l k w : behind m (mv m l) k w -> behind m (VRef l) (S k) w.
(* the one addressing form for which the full build's integer-only operators go wrong: the left
   operand is a container element and the right one is reached through more references *)
Definition element_op_variable (m : mem) (l r : value) : Prop :=
  exists j k wl wr, behind m l j wl /\ behind m r k wr /\ is_member wl = true /\ (j < k)%nat.

(* the storage plain `=` stores to; unlike [cell_of] it may hold anything beforehand *)
Inductive store_cell (m : mem) (r : loc) : value -> loc -> Prop :=
| S_var v : type_of v <> TR -> is_member v = false -> store_cell m r v r
| S_elem l s id n : visible l -> mv m l = VArr id -> mo m id = Some (OVal n) -> (s < n)%nat ->
    store_cell m r (VMem l s) (LElem id s)
| S_hash id s n : mo m id = Some (OInternal n) -> (s < n)%nat ->
    type_of (mv m (LElem id s)) <> TR -> is_member (mv m (LElem id s)) = false ->
    store_cell m r (VHMem id s) (LElem id s).

(* signed overflow: + - * leave the 32-bit range *)
Definition exact_int (b : binop) (x y : Z) : Z :=
  match b with BAdd => x + y | BSub => x - y | _ => x * y end.
Definition overflows (b : binop) (x y : number) : Prop :=
  match x, y with
  | NI a, NI c => match b with BAdd | BSub | BMul => ~ is_s32 (exact_int b a c) | _ => False end
  | _, _ => False
  end.

(* [leads m v k w]: following k references from the value v, all through observable storage, leads
   to w, which is not a reference *)
Inductive leads (m : mem) : value -> nat -> value -> Prop :=
| L_here v : type_of v <> TR -> leads m v 0 v
| L_ref l k w : visible l -> leads m (mv m l) k w -> leads m (VRef l) (S k) w.
(* an operand: after k references a number, or a container element; in both cases it denotes y *)
Definition operand (m : mem) (v : value) (k : nat) (w : value) (y : number) : Prop :=
  leads m v k w /\ denotes m w y /\ (w = of_number y \/ is_member w = true).
