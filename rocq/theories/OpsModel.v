(* Value operators: vm/operations.cpp, vm/operations_non_compact.cpp,
   vm/operations_compact.cpp and the operator opcodes of vm/vm.cpp.

   Every operator is dispatched through a 4x4 (or 4-entry) table on the operands' `type`
   fields.  A table is a function of the two type tags it is indexed with and of the operand
   *addresses*, so that aliasing between operands, target and the two file-static scratch
   values s_temp1, s_temp2 is the code's.  The C++ recursion through the tables is bounded by
   [fuel]; running out is the explicit outcome [OutOfFuel]. *)
From Verif Require Import Base HashModel FloatModel.

(* Addresses of WRValues: a global, a VM stack slot (temporaries and locals), element n of the
   data block of heap object id, the statics s_temp1/s_temp2 (vm/operations.cpp:120,134), and
   automatic variables of the C++ functions.  LAuto 0 stands for the local WRValue of every operator
   that has one: where an operator recurses the inner activation sets its own from what the outer one
   holds, and the outer one is not read again, so one location is enough. *)
Inductive loc :=
| LGlobal (n : nat) | LStack (n : nat) | LElem (id n : nat)
| LTemp1 | LTemp2 | LAuto (n : nat).

Definition loc_eq_dec (a b : loc) : {a = b} + {a <> b}.
Proof. decide equality; apply Nat.eq_dec. Defined.

(* WRValue, wrench.h:717-744,800-940.  Integers and floats carry the 32 payload bits.
   VMem l s: CONTAINER_MEMBER whose [r] is the variable at l, element s (vm/index.cpp:52-56).
   VHMem id s: CONTAINER_MEMBER whose [vb] is the SV_HASH_INTERNAL block id (vm/index.cpp:72-76).
   VRaw buf n: WR_EX_RAW_ARRAY, n bytes of host memory. *)
Inductive value :=
| VInt (u : Z) | VFlt (u : Z) | VRef (l : loc)
| VMem (l : loc) (s : nat) | VHMem (id s : nat)
| VArr (id : nat) | VStruct (id : nat) | VHash (id : nat)
| VRaw (buf : nat) (n : nat) | VIter (id : nat) | VInvalid.

(* WRValueType, wrench.h:717-723 *)
Inductive vtype := TI | TF | TR | TE.
Definition type_of (v : value) : vtype :=
  match v with VInt _ => TI | VFlt _ => TF | VRef _ => TR | _ => TE end.

(* IS_CONTAINER_MEMBER(xtype), utils/utils.h:467 *)
Definition is_member (v : value) : bool :=
  match v with VMem _ _ | VHMem _ _ => true | _ => false end.

(* heap objects (wrench.h:976-1014): OVal n: SV_VALUE array of n elements, element k at LElem id k;
   OChar: SV_CHAR array (string), flag = GCFlag_NoContext; OInternal n: SV_HASH_INTERNAL block
   with n WRValues; OHash: the hash table object itself. *)
Inductive obj :=
| OVal (n : nat) | OChar (bytes : list Z) (nocontext : bool) | OInternal (n : nat) | OHash (internal : nat).

Record mem := mkMem {
  mv : loc -> value;          (* every WRValue *)
  mo : nat -> option obj;     (* heap objects *)
  mraw : nat -> nat -> Z;     (* host buffers *)
  mnext : nat                 (* next object allocated by getSVA *)
}.

Definition wr (m : mem) (l : loc) (v : value) : mem :=
  mkMem (fun x => if loc_eq_dec x l then v else mv m x) (mo m) (mraw m) (mnext m).
Definition wr_obj (m : mem) (id : nat) (o : obj) : mem :=
  mkMem (mv m) (fun x => if Nat.eq_dec x id then Some o else mo m x) (mraw m) (mnext m).
Definition wr_raw (m : mem) (b k : nat) (x : Z) : mem :=
  mkMem (mv m) (mo m) (fun b' k' => if Nat.eq_dec b' b then (if Nat.eq_dec k' k then x else mraw m b' k') else mraw m b' k') (mnext m).

Inductive res (A : Type) := Ok (a : A) | UB | OutOfFuel.
Arguments Ok {A} a. Arguments UB {A}. Arguments OutOfFuel {A}.
Definition bind {A B} (x : res A) (f : A -> res B) : res B :=
  match x with Ok a => f a | UB => UB | OutOfFuel => OutOfFuel end.
Notation "x <- e ;; k" := (bind e (fun x => k)) (at level 100, e at next level, right associativity).
Notation "' p <- e ;; k" := (bind e (fun p => k)) (at level 100, p pattern, e at next level, right associativity).

(* ---- machine operations on int32_t payloads; None = undefined behaviour in C++ ---- *)
Definition int_min : Z := -2147483648.
(* wr_iadd_wrap, wr_isub_wrap, wr_imul_wrap (operations_non_compact.cpp:30-32),
   wr_ineg_wrap (operations.cpp:28) *)
Definition iadd_wrap (a b : Z) : option Z := Some (u32 (a + b)).
Definition isub_wrap (a b : Z) : option Z := Some (u32 (a - b)).
Definition imul_wrap (a b : Z) : option Z := Some (u32 (a * b)).
(* plain `+`,`-`,`*` on int: overflow is undefined *)
Definition checked (x : Z) : option Z :=
  if (int_min <=? x) && (x <=? 2147483647) then Some (u32 x) else None.
Definition iadd_c (a b : Z) : option Z := checked (s32 a + s32 b).
Definition isub_c (a b : Z) : option Z := checked (s32 a - s32 b).
Definition imul_c (a b : Z) : option Z := checked (s32 a * s32 b).
(* a / b, a % b, b <> 0 checked by the caller for / only *)
Definition idiv_c (a b : Z) : option Z :=
  if s32 b =? 0 then None else checked (Z.quot (s32 a) (s32 b)).
Definition imod_c (a b : Z) : option Z :=
  if s32 b =? 0 then None
  else if (s32 a =? int_min) && (s32 b =? -1) then None else Some (u32 (Z.rem (s32 a) (s32 b))).
Definition ior (a b : Z) : option Z := Some (Z.lor a b).
Definition iand (a b : Z) : option Z := Some (Z.land a b).
Definition ixor (a b : Z) : option Z := Some (Z.lxor a b).
(* shift counts outside 0..31 are undefined; << of a negative value is taken as the usual
   two's complement shift (C++20; gcc and clang in every mode) *)
Definition ishl (a b : Z) : option Z :=
  if (0 <=? s32 b) && (s32 b <? 32) then Some (u32 (Z.shiftl a (s32 b))) else None.
Definition ishr (a b : Z) : option Z :=
  if (0 <=? s32 b) && (s32 b <? 32) then Some (u32 (Z.shiftr (s32 a) (s32 b))) else None.

Section Ops.
(* the low 32 payload bits of a value holding a pointer, read through `i`/`ui`: whatever the
   allocator produced *)
Variable pbits : value -> Z.
(* getHashEx of arrays of values, structs and hash tables hashes raw memory, pointers
   included (operations.cpp:196-243): left abstract *)
Variable obj_hash : mem -> value -> Z.
(* WRValue::asString of a value into a 20 character buffer (utils/utils.cpp): left abstract *)
Variable as_string : mem -> value -> list Z.
(* WRENCH_TRAP_DIVISION_BY_ZERO *)
Variable trap : bool.

(* reading ->i / ->f of a WRValue *)
Definition bits (v : value) : Z := match v with VInt u | VFlt u => u | _ => pbits v end.
Definition rdi (m : mem) (l : loc) : Z := bits (mv m l).

(* operations.cpp:137-176 WRValue::deref: address of the value denoted by the one at l.
   A CONTAINER_MEMBER whose variable no longer holds an array is UB. *)
Fixpoint deref (fuel : nat) (l : loc) (m : mem) : res (loc * mem) :=
  match fuel with
  | O => OutOfFuel
  | S n =>
    match mv m l with
    | VRef r => deref n r m
    | VMem r s =>
      let m1 := wr m LTemp2 (VInt (rdi m LTemp2)) in
      match mv m1 r with
      | VRaw b size => Ok (LTemp2, wr m1 LTemp2 (VInt (if (s <? size)%nat then u8 (mraw m b s) else 0)))
      | VArr id =>
        match mo m id with
        | Some (OVal size) => if (s <? size)%nat then Ok (LElem id s, m1) else Ok (LTemp2, m1)
        | Some (OChar bs _) =>
          match nth_error bs s with
          | Some c => Ok (LTemp2, wr m1 LTemp2 (VInt (u8 c)))
          | None => Ok (LTemp2, m1)
          end
        | _ => UB
        end
      | _ => UB
      end
    | VHMem id s =>
      let m1 := wr m LTemp2 (VInt (rdi m LTemp2)) in
      match mo m id with
      | Some (OInternal size) => if (s <? size)%nat then deref n (LElem id s) m1 else UB
      | _ => UB
      end
    | _ => Ok (l, m)
    end
  end.

(* wrench.h:874 getHash, operations.cpp:179-245 getHashEx.  Returns the hash and the memory
   (deref may use s_temp2). *)
Fixpoint get_hash (fuel : nat) (l : loc) (m : mem) : res (Z * mem) :=
  match fuel with
  | O => OutOfFuel
  | S n =>
    match mv m l with
    | VInt u | VFlt u => Ok (u, m)
    | VRef r => get_hash n r m
    | VMem _ _ | VHMem _ _ => ' (d, m1) <- deref n l m ;; get_hash n d m1
    | VArr id =>
      match mo m id with
      | Some (OChar bs _) => Ok (wr_hash bs 0, m)
      | Some _ => Ok (obj_hash m (mv m l), m)
      | None => UB
      end
    | VHash _ | VStruct _ => Ok (obj_hash m (mv m l), m)
    | VRaw _ _ | VIter _ | VInvalid => Ok (0, m)
    end
  end.

(* operations.cpp:123-132 singleValue: s_temp1 = deref(); anything that is not a number
   becomes its hash.  The result is at LTemp1. *)
Definition single_value (fuel : nat) (l : loc) (m : mem) : res mem :=
  ' (d, m1) <- deref fuel l m ;;
  let m2 := wr m1 LTemp1 (mv m1 d) in
  match type_of (mv m2 LTemp1) with
  | TI | TF => Ok m2
  | _ => ' (h, m3) <- get_hash fuel LTemp1 m2 ;; Ok (wr m3 LTemp1 (VInt h))
  end.

(* operations.cpp:92-118 wr_growValueArray: new elements are integer 0 *)
Definition grow_array (m : mem) (id newsize : nat) : mem :=
  match mo m id with
  | Some (OVal old) =>
    wr_obj (mkMem (fun x => match x with
                            | LElem i k => if Nat.eq_dec i id then (if (k <? old)%nat then mv m x else if (k <? newsize)%nat then VInt 0 else mv m x) else mv m x
                            | _ => mv m x end) (mo m) (mraw m) (mnext m)) id (OVal newsize)
  | Some (OChar bs nc) => wr_obj m id (OChar (bs ++ repeat 0 (newsize - length bs)) nc)
  | _ => m
  end.

(* operations.cpp:248-294 wr_valueToEx: store the value at [v] through the value at [ex].
   [assign] is wr_assign, used for the element of an array. *)
Definition value_to_ex (assign : vtype -> vtype -> loc -> loc -> mem -> res mem)
    (fuel : nat) (ex v : loc) (m : mem) : res mem :=
  let through :=
    ' (dv, m1) <- deref fuel v m ;;
    let x := mv m1 dv in
    ' (de, m2) <- deref fuel ex m1 ;;
    Ok (wr m2 de x) in
  match mv m ex with
  | VArr id =>
    match mo m id with
    | Some (OVal n) =>
      let m1 := if (n =? 0)%nat then grow_array m id 1 else m in
      assign (type_of (mv m1 (LElem id 0))) (type_of (mv m1 v)) (LElem id 0) v m1
    | Some (OChar bs nc) =>
      let bs1 := if (length bs =? 0)%nat then [0] else bs in
      Ok (wr_obj m id (OChar (upd bs1 0 (u8 (rdi m v))) nc))
    | _ => UB
    end
  | VMem r s =>
    match mv m r with
    | VRaw b size => if (s <? size)%nat then Ok (wr_raw m b s (u8 (rdi m v))) else UB
    | _ => through
    end
  | _ => through
  end.

(* operations.cpp:431-464 wr_assign *)
Fixpoint wr_assign (fuel : nat) (t f : vtype) (to from : loc) (m : mem) : res mem :=
  match fuel with
  | O => OutOfFuel
  | S n =>
    match t, f with
    | (TI | TF), (TI | TF) => Ok (wr m to (mv m from))
    | (TI | TF), TR =>
      match mv m from with VRef r => wr_assign n t (type_of (mv m r)) to r m | _ => UB end
    | (TI | TF), TE => ' (d, m1) <- deref n from m ;; Ok (wr m1 to (mv m1 d))
    | TR, (TI | TF | TE) =>
      match mv m to with VRef r => wr_assign n (type_of (mv m r)) f r from m | _ => UB end
    | TR, TR =>
      match mv m to, mv m from with
      | VRef r, VRef q => wr_assign n (type_of (mv m r)) (type_of (mv m q)) r q m
      | _, _ => UB
      end
    | TE, TR =>
      match mv m from with VRef r => wr_assign n TE (type_of (mv m r)) to r m | _ => UB end
    | TE, (TI | TF | TE) =>
      ' (d, m1) <- deref n from m ;;
      if is_member (mv m1 to) then value_to_ex (wr_assign n) n to d m1
      else Ok (wr m1 to (mv m1 d))
    end
  end.

Definition wr_valueToEx (fuel : nat) (ex v : loc) (m : mem) : res mem :=
  value_to_ex (wr_assign fuel) fuel ex v m.

(* operations.cpp:31-89 wr_concatStringCheck: Some m = concatenated into target *)
Definition char_array (m : mem) (v : value) : option (list Z * bool) :=
  match v with
  | VArr id => match mo m id with Some (OChar bs nc) => Some (bs, nc) | _ => None end
  | _ => None
  end.
Definition new_string (m : mem) (bs : list Z) (target : loc) : mem :=
  let id := mnext m in
  wr (mkMem (mv m) (mo (wr_obj m id (OChar bs false))) (mraw m) (S id)) target (VArr id).
Definition concat_check (m : mem) (to from target : loc) : option mem :=
  match char_array m (mv m to) with
  | Some (tb, false) =>
    let fb := match char_array m (mv m from) with Some (b, _) => b | None => as_string m (mv m from) end in
    Some (new_string m (tb ++ fb) target)
  | _ =>
    match char_array m (mv m from) with
    | Some (fb, false) => Some (new_string m (as_string m (mv m to) ++ fb) target)
    | _ => None
    end
  end.

Definition of_opt {A} (o : option A) : res A := match o with Some a => Ok a | None => UB end.
(* to->i = ..., to->f = ... : the payload changes, the type tag does not *)
Definition set_payload (v : value) (u : Z) : value :=
  match v with VFlt _ => VFlt u | VInt _ => VInt u | _ => v end.

(* ============ operations_non_compact.cpp ============ *)

(* one operator's leaf functions.  ii: int,int; ff: float,float (None = no float rows) *)
Record arith := mkArith { a_ii : Z -> Z -> option Z; a_ff : Z -> Z -> Z; a_div : bool }.

(* result of a leaf entry on scalars, as (payload, type): operations_non_compact.cpp X_BINARY
   leaves :450-453, wr_DivideBinary leaves :512-571.  [None] = UB.  With a_div, a zero divisor
   gives payload 0, or the invalid value when trapping. *)
Definition leaf (o : arith) (t f : vtype) (a b : Z) : option value :=
  match t, f with
  | TI, TI =>
    if a_div o && (b =? 0) then Some (if trap then VInvalid else VInt 0)
    else option_map VInt (a_ii o a b)
  | TI, TF =>
    if a_div o && negb (f32_true b) then Some (if trap then VInvalid else VFlt 0)
    else Some (VFlt (a_ff o (f32_of_int (s32 a)) b))
  | TF, TI =>
    if a_div o && (b =? 0) then Some (if trap then VInvalid else VFlt 0)
    else Some (VFlt (a_ff o a (f32_of_int (s32 b))))
  | _, _ =>
    if a_div o && negb (f32_true b) then Some (if trap then VInvalid else VFlt 0)
    else Some (VFlt (a_ff o a b))
  end.

(* X_BINARY (operations_non_compact.cpp:411-463) and wr_DivideBinary (:470-578).  The fast
   paths of I_R and R_I for an int variable do what the I_I entry does. *)
Fixpoint arith_binary (o : arith) (fuel : nat) (t f : vtype) (to from target : loc) (m : mem) : res mem :=
  match fuel with
  | O => OutOfFuel
  | S n =>
    match t, f with
    | (TI | TF), (TI | TF) =>
      v <- of_opt (leaf o t f (rdi m to) (rdi m from)) ;; Ok (wr m target v)
    | TE, (TI | TF) =>
      m1 <- single_value n to m ;; arith_binary o n (type_of (mv m1 LTemp1)) f LTemp1 from target m1
    | (TI | TF), TE =>
      m1 <- single_value n from m ;; arith_binary o n t (type_of (mv m1 LTemp1)) to LTemp1 target m1
    | TE, TE =>
      m1 <- single_value n to m ;;
      let m1' := wr m1 (LAuto 0) (mv m1 LTemp1) in
      m2 <- single_value n from m1' ;;
      arith_binary o n (type_of (mv m2 (LAuto 0))) (type_of (mv m2 LTemp1)) (LAuto 0) LTemp1 target m2
    | TR, TR =>
      match mv m to, mv m from with
      | VRef r, VRef q => arith_binary o n (type_of (mv m r)) (type_of (mv m q)) r q target m
      | _, _ => UB
      end
    | TR, _ =>
      match mv m to with VRef r => arith_binary o n (type_of (mv m r)) f r from target m | _ => UB end
    | _, TR =>
      match mv m from with VRef q => arith_binary o n t (type_of (mv m q)) to q target m | _ => UB end
    end
  end.

Definition mul_op := mkArith imul_wrap f32_mul false.
Definition sub_op := mkArith isub_wrap f32_sub false.
Definition div_op := mkArith idiv_c f32_div true.
Definition add_op := mkArith iadd_wrap f32_add false.

(* wr_AdditionBinary, operations_non_compact.cpp:580-647.  The leaf entry for I_I etc. is the
   same as X_BINARY's. *)
Fixpoint add_binary (fuel : nat) (t f : vtype) (to from target : loc) (m : mem) : res mem :=
  match fuel with
  | O => OutOfFuel
  | S n =>
    match t, f with
    | (TI | TF), (TI | TF) =>
      v <- of_opt (leaf add_op t f (rdi m to) (rdi m from)) ;; Ok (wr m target v)
    | TE, TI =>
      match concat_check m to from target with
      | Some m' => Ok m'
      | None => m1 <- single_value n to m ;; add_binary n (type_of (mv m1 LTemp1)) TI LTemp1 from target m1
      end
    | TI, TE =>
      match concat_check m to from target with
      | Some m' => Ok m'
      | None => m1 <- single_value n from m ;; add_binary n TI (type_of (mv m1 LTemp1)) to LTemp1 target m1
      end
    | TE, TF =>
      m1 <- single_value n to m ;; add_binary n (type_of (mv m1 LTemp1)) TF LTemp1 from target m1
    | TF, TE =>
      m1 <- single_value n from m ;; add_binary n TF (type_of (mv m1 LTemp1)) to LTemp1 target m1
    | TE, TE =>
      if is_member (mv m to) || is_member (mv m from) then
        ' (d, m1) <- deref n to m ;;
        let m1' := wr m1 (LAuto 0) (mv m1 d) in
        ' (d2, m2) <- deref n from m1' ;;
        add_binary n (type_of (mv m2 (LAuto 0))) (type_of (mv m2 d2)) (LAuto 0) d2 target m2
      else
        match concat_check m to from target with Some m' => Ok m' | None => Ok m end
    | TR, TR =>
      match mv m to, mv m from with
      | VRef r, VRef q => add_binary n (type_of (mv m r)) (type_of (mv m q)) r q target m
      | _, _ => UB
      end
    | TR, _ =>
      match mv m to with VRef r => add_binary n (type_of (mv m r)) f r from target m | _ => UB end
    | _, TR =>
      match mv m from with VRef q => add_binary n t (type_of (mv m q)) to q target m | _ => UB end
    end
  end.

(* X_INT_BINARY, operations_non_compact.cpp:653-689.  doTargetFuncBlank for every float row and
   column.  E_R indexes the table with [(WR_EX)|from->r->type] (no shift), i.e. with entry
   (int, ex), whatever the type of the variable: :674. *)
Fixpoint int_binary (op : Z -> Z -> option Z) (fuel : nat) (t f : vtype) (to from target : loc) (m : mem) : res mem :=
  match fuel with
  | O => OutOfFuel
  | S n =>
    match t, f with
    | TF, _ | _, TF => Ok m
    | TI, TI => r <- of_opt (op (rdi m to) (rdi m from)) ;; Ok (wr m target (VInt r))
    | TE, TI =>
      m1 <- single_value n to m ;; int_binary op n (type_of (mv m1 LTemp1)) TI LTemp1 from target m1
    | TI, TE =>
      m1 <- single_value n from m ;; int_binary op n TI (type_of (mv m1 LTemp1)) to LTemp1 target m1
    | TE, TE =>
      m1 <- single_value n to m ;;
      let m1' := wr m1 (LAuto 0) (mv m1 LTemp1) in
      m2 <- single_value n from m1' ;;
      int_binary op n (type_of (mv m2 (LAuto 0))) (type_of (mv m2 LTemp1)) (LAuto 0) LTemp1 target m2
    | TE, TR =>
      match mv m from with VRef q => int_binary op n TI TE to q target m | _ => UB end
    | TR, TR =>
      match mv m to, mv m from with
      | VRef r, VRef q => int_binary op n (type_of (mv m r)) (type_of (mv m q)) r q target m
      | _, _ => UB
      end
    | TR, _ =>
      match mv m to with VRef r => int_binary op n (type_of (mv m r)) f r from target m | _ => UB end
    | TI, TR =>
      match mv m from with VRef q => int_binary op n TI (type_of (mv m q)) to q target m | _ => UB end
    end
  end.

(* comparison operators *)
Record cmp := mkCmp {
  c_ii : Z -> Z -> bool;         (* on int32_t payloads *)
  c_ff : Z -> Z -> bool;         (* on float payloads *)
  c_if : Z -> Z -> bool;         (* int left, float right *)
  c_fi : Z -> Z -> bool;
  c_retag : bool                 (* the I_F entry sets to->p2 = INIT_AS_FLOAT *)
}.
(* X_COMPARE( wr_CompareGT, > ), operations_non_compact.cpp:693-742; wr_CompareLT :756-804;
   X_COMPARE( wr_LogicalAND, && ), ( wr_LogicalOR, || ) :743-744; wr_CompareEQ :806-842 *)
Definition gt_op := mkCmp (fun a b => s32 b <? s32 a) f32_gt
  (fun a b => f32_gt (f32_of_int (s32 a)) b) (fun a b => f32_gt a (f32_of_int (s32 b))) true.
Definition lt_op := mkCmp (fun a b => s32 a <? s32 b) f32_lt
  (fun a b => f32_lt (f32_of_int (s32 a)) b) (fun a b => f32_lt a (f32_of_int (s32 b))) true.
Definition eq_op := mkCmp (fun a b => s32 a =? s32 b) f32_equal
  (fun a b => f32_equal (f32_of_int (s32 a)) b) (fun a b => f32_equal a (f32_of_int (s32 b))) false.
Definition nz (a : Z) : bool := negb (s32 a =? 0).
Definition and_op := mkCmp (fun a b => nz a && nz b) (fun a b => f32_true a && f32_true b)
  (fun a b => nz a && f32_true b) (fun a b => f32_true a && f32_true (f32_of_int (s32 b))) true.
Definition or_op := mkCmp (fun a b => nz a || nz b) (fun a b => f32_true a || f32_true b)
  (fun a b => nz a || f32_true b) (fun a b => f32_true a || f32_true (f32_of_int (s32 b))) true.

Fixpoint compare (o : cmp) (fuel : nat) (t f : vtype) (to from : loc) (m : mem) : res (bool * mem) :=
  match fuel with
  | O => OutOfFuel
  | S n =>
    match t, f with
    | TI, TI => Ok (c_ii o (rdi m to) (rdi m from), m)
    | TI, TF =>
      let m' := if c_retag o then wr m to (VFlt (rdi m to)) else m in
      Ok (c_if o (rdi m' to) (rdi m' from), m')
    | TF, TI => Ok (c_fi o (rdi m to) (rdi m from), m)
    | TF, TF => Ok (c_ff o (rdi m to) (rdi m from), m)
    | TE, (TI | TF) =>
      m1 <- single_value n to m ;; compare o n (type_of (mv m1 LTemp1)) f LTemp1 from m1
    | (TI | TF), TE =>
      m1 <- single_value n from m ;; compare o n t (type_of (mv m1 LTemp1)) to LTemp1 m1
    | TE, TE =>
      m1 <- single_value n to m ;;
      let m1' := wr m1 (LAuto 0) (mv m1 LTemp1) in
      m2 <- single_value n from m1' ;;
      compare o n (type_of (mv m2 (LAuto 0))) (type_of (mv m2 LTemp1)) (LAuto 0) LTemp1 m2
    | TR, TR =>
      match mv m to, mv m from with
      | VRef r, VRef q => compare o n (type_of (mv m r)) (type_of (mv m q)) r q m
      | _, _ => UB
      end
    | TR, _ =>
      match mv m to with VRef r => compare o n (type_of (mv m r)) f r from m | _ => UB end
    | _, TR =>
      match mv m from with VRef q => compare o n t (type_of (mv m q)) to q m | _ => UB end
    end
  end.

(* X_LOGIC_ASSIGN, operations_non_compact.cpp:36-82 *)
Fixpoint logic_assign (op : Z -> Z -> option Z) (fuel : nat) (t f : vtype) (to from : loc) (m : mem) : res mem :=
  match fuel with
  | O => OutOfFuel
  | S n =>
    match t, f with
    | TF, _ | _, TF => Ok m
    | TI, TI => r <- of_opt (op (rdi m to) (rdi m from)) ;; Ok (wr m to (set_payload (mv m to) r))
    | TE, TI =>
      m1 <- single_value n to m ;;
      m2 <- logic_assign op n (type_of (mv m1 LTemp1)) TI LTemp1 from m1 ;;
      m3 <- wr_valueToEx n to LTemp1 m2 ;;
      Ok (wr m3 from (mv m3 LTemp1))
    | TE, TE =>
      m1 <- single_value n from m ;;
      m2 <- logic_assign op n TE (type_of (mv m1 LTemp1)) to LTemp1 m1 ;;
      ' (d, m3) <- deref n to m2 ;;
      Ok (wr m3 from (mv m3 d))
    | TI, TE =>
      m1 <- single_value n from m ;;
      m2 <- logic_assign op n TI (type_of (mv m1 LTemp1)) to LTemp1 m1 ;;
      Ok (wr m2 from (mv m2 to))
    | TE, TR =>
      match mv m from with VRef q => logic_assign op n TE (type_of (mv m q)) to q m | _ => UB end
    | TR, TE =>
      match mv m to with VRef r => logic_assign op n (type_of (mv m r)) TE r from m | _ => UB end
    | TR, TR =>
      match mv m to, mv m from with
      | VRef r, VRef q =>
        let m1 := wr m (LAuto 0) (mv m q) in
        m2 <- logic_assign op n (type_of (mv m1 r)) (type_of (mv m1 (LAuto 0))) r (LAuto 0) m1 ;;
        Ok (wr m2 from (mv m2 r))
      | _, _ => UB
      end
    | TR, TI =>
      match mv m to with
      | VRef r =>
        m1 <- logic_assign op n (type_of (mv m r)) TI r from m ;;
        Ok (wr m1 from (mv m1 r))
      | _ => UB
      end
    | TI, TR =>
      match mv m from with
      | VRef q =>
        let m1 := wr m (LAuto 0) (mv m q) in
        m2 <- logic_assign op n TI (type_of (mv m1 (LAuto 0))) to (LAuto 0) m1 ;;
        Ok (wr m2 from (mv m2 to))
      | _ => UB
      end
    end
  end.

(* leaf entries of the arithmetic assignments: `x -= y` etc.  I_F makes `to` a float, F_I makes
   *from* a float with its integer payload (:132-135, :199-202, :279-308, :387-390).  Plain `*` on int32_t in
   wr_MultiplyAssign_I_I (:200). *)
Definition assign_leaf (o : arith) (t f : vtype) (to from : loc) (m : mem) : res mem :=
  let m0 := match t, f with TF, TI => wr m from (VFlt (rdi m from)) | _, _ => m end in
  v <- of_opt (leaf o t f (rdi m to) (rdi m from)) ;;
  Ok (wr m0 to v).

(* wr_SubtractAssign :85-142, wr_MultiplyAssign :145-209, wr_DivideAssign :212-316; with
   [cat] also wr_AddAssign :319-397.  R_I of wr_AddAssign on an int variable is the I_I entry. *)
Fixpoint arith_assign (cat : bool) (o : arith) (fuel : nat) (t f : vtype) (to from : loc) (m : mem) : res mem :=
  match fuel with
  | O => OutOfFuel
  | S n =>
    let rec := arith_assign cat o n in
    let cc := if cat then concat_check m to from to else None in
    match t, f with
    | (TI | TF), (TI | TF) => assign_leaf o t f to from m
    | TE, (TI | TF) =>
      match cc with
      | Some m' => Ok m'
      | None =>
        m1 <- single_value n to m ;;
        m2 <- rec (type_of (mv m1 LTemp1)) f LTemp1 from m1 ;;
        m3 <- wr_valueToEx n to LTemp1 m2 ;;
        Ok (wr m3 from (mv m3 LTemp1))
      end
    | TE, TE =>
      if cat then
        if is_member (mv m from) then
          ' (d, m1) <- deref n from m ;;
          m2 <- rec TE (type_of (mv m1 d)) to d m1 ;;
          ' (d2, m3) <- deref n to m2 ;;
          Ok (wr m3 from (mv m3 d2))
        else match cc with Some m' => Ok m' | None => Ok m end
      else
        m1 <- single_value n from m ;;
        m2 <- rec TE (type_of (mv m1 LTemp1)) to LTemp1 m1 ;;
        ' (d2, m3) <- deref n to m2 ;;
        Ok (wr m3 from (mv m3 d2))
    | (TI | TF), TE =>
      match cc with
      | Some m' => Ok m'
      | None =>
        m1 <- single_value n from m ;;
        m2 <- rec t (type_of (mv m1 LTemp1)) to LTemp1 m1 ;;
        Ok (wr m2 from (mv m2 to))
      end
    | TE, TR =>
      match mv m from with VRef q => rec TE (type_of (mv m q)) to q m | _ => UB end
    | TR, TR =>
      match mv m to, mv m from with
      | VRef r, VRef q =>
        let m1 := wr m (LAuto 0) (mv m q) in
        m2 <- rec (type_of (mv m1 r)) (type_of (mv m1 (LAuto 0))) r (LAuto 0) m1 ;;
        Ok (wr m2 from (mv m2 r))
      | _, _ => UB
      end
    | TR, _ =>
      match mv m to with
      | VRef r => m1 <- rec (type_of (mv m r)) f r from m ;; Ok (wr m1 from (mv m1 r))
      | _ => UB
      end
    | _, TR =>
      match mv m from with
      | VRef q => m1 <- rec t (type_of (mv m q)) to q m ;; Ok (wr m1 from (mv m1 to))
      | _ => UB
      end
    end
  end.
Definition mul_assign_op := mkArith imul_c f32_mul false.

(* X_UNARY_PRE, operations_non_compact.cpp:845-862: ++/-- by d (1 or -1) *)
Definition incr (d : Z) (v : value) : option value :=
  match v with
  | VInt u => option_map VInt (checked (s32 u + d))
  | VFlt u => Some (VFlt (if d =? 1 then f32_add u f32_one else f32_sub u f32_one))
  | _ => None
  end.
Fixpoint unary_pre (d : Z) (fuel : nat) (t : vtype) (l : loc) (m : mem) : res mem :=
  match fuel with
  | O => OutOfFuel
  | S n =>
    match t with
    | TI | TF => v <- of_opt (incr d (mv m l)) ;; Ok (wr m l v)
    | TR =>
      match mv m l with
      | VRef r => m1 <- unary_pre d n (type_of (mv m r)) r m ;; Ok (wr m1 l (mv m1 r))
      | _ => UB
      end
    | TE =>
      m1 <- single_value n l m ;;
      m2 <- unary_pre d n (type_of (mv m1 LTemp1)) LTemp1 m1 ;;
      wr_valueToEx n l LTemp1 m2
    end
  end.
(* X_UNARY_POST, operations_non_compact.cpp:865-878 *)
Fixpoint unary_post (d : Z) (fuel : nat) (t : vtype) (l stack : loc) (m : mem) : res mem :=
  match fuel with
  | O => OutOfFuel
  | S n =>
    match t with
    | TI | TF =>
      (* stack->x = value->x++ with value == stack (vm.cpp:2519-2531, a temporary): the
         assignment comes last, the increment is lost, as it must be *)
      v <- of_opt (incr d (mv m l)) ;; Ok (wr (wr m l v) stack (mv m l))
    | TR =>
      match mv m l with VRef r => unary_post d n (type_of (mv m r)) r stack m | _ => UB end
    | TE =>
      m1 <- single_value n l m ;;
      m2 <- unary_post d n (type_of (mv m1 LTemp1)) LTemp1 (LAuto 0) m1 ;;
      m3 <- wr_valueToEx n l LTemp1 m2 ;;
      Ok (wr m3 stack (mv m3 (LAuto 0)))
    end
  end.

(* operations.cpp:372-383 wr_LogicalNot: the raw payload is compared with 0 *)
Fixpoint logical_not (fuel : nat) (t : vtype) (l : loc) (m : mem) : res (bool * mem) :=
  match fuel with
  | O => OutOfFuel
  | S n =>
    match t with
    | TI | TF => Ok (rdi m l =? 0, m)
    | TR => match mv m l with VRef r => logical_not n (type_of (mv m r)) r m | _ => UB end
    | TE => m1 <- single_value n l m ;; logical_not n (type_of (mv m1 LTemp1)) LTemp1 m1
    end
  end.
(* operations.cpp:387-403 wr_negate *)
Fixpoint negate (fuel : nat) (t : vtype) (l target : loc) (m : mem) : res mem :=
  match fuel with
  | O => OutOfFuel
  | S n =>
    match t with
    | TI => Ok (wr m target (VInt (u32 (- rdi m l))))
    | TF => Ok (wr m target (VFlt (f32_neg (rdi m l))))
    | TR => match mv m l with VRef r => negate n (type_of (mv m r)) r target m | _ => UB end
    | TE => m1 <- single_value n l m ;; negate n (type_of (mv m1 LTemp1)) LTemp1 target m1
    end
  end.
(* operations.cpp:406-417 wr_bitwiseNot *)
Fixpoint bitwise_not (fuel : nat) (t : vtype) (l : loc) (m : mem) : res (Z * mem) :=
  match fuel with
  | O => OutOfFuel
  | S n =>
    match t with
    | TI => Ok (4294967295 - rdi m l, m)
    | TF => Ok (0, m)
    | TR => match mv m l with VRef r => bitwise_not n (type_of (mv m r)) r m | _ => UB end
    | TE => m1 <- single_value n l m ;; bitwise_not n (type_of (mv m1 LTemp1)) LTemp1 m1
    end
  end.

(* ============ operations_compact.cpp (WRENCH_COMPACT) ============ *)

(* an operator's intCall/floatCall pair, vm/vm.cpp:238-275.  k_add: intCall == wr_addI. *)
Record callpair := mkCall { k_i : Z -> Z -> option Z; k_f : Z -> Z -> Z; k_add : bool }.
Definition idiv0 (a b : Z) : option Z := if b =? 0 then Some 0 else idiv_c a b.
Definition fdiv0 (a b : Z) : Z := if f32_true b then f32_div a b else 0.
Definition blankF (a b : Z) : Z := 0.
Definition k_addition := mkCall iadd_c f32_add true.
Definition k_subtraction := mkCall isub_c f32_sub false.
Definition k_multiplication := mkCall imul_c f32_mul false.
Definition k_division := mkCall idiv0 fdiv0 false.
Definition k_int (op : Z -> Z -> option Z) := mkCall op blankF false.

Definition c_leaf (k : callpair) (t f : vtype) (a b : Z) : option value :=
  match t, f with
  | TI, TI => option_map VInt (k_i k a b)
  | TI, TF => Some (VFlt (k_f k (f32_of_int (s32 a)) b))
  | TF, TI => Some (VFlt (k_f k a (f32_of_int (s32 b))))
  | _, _ => Some (VFlt (k_f k a b))
  end.

(* operations_compact.cpp:145-226 wr_funcBinary *)
Fixpoint c_binary (k : callpair) (fuel : nat) (t f : vtype) (to from target : loc) (m : mem) : res mem :=
  match fuel with
  | O => OutOfFuel
  | S n =>
    let cc := if k_add k then concat_check m to from target else None in
    match t, f with
    | (TI | TF), (TI | TF) =>
      v <- of_opt (c_leaf k t f (rdi m to) (rdi m from)) ;; Ok (wr m target v)
    | TE, (TI | TF) =>
      match cc with
      | Some m' => Ok m'
      | None =>
        m1 <- single_value n to m ;;
        c_binary k n (type_of (mv m1 LTemp1)) (type_of (mv m1 from)) LTemp1 from target m1
      end
    | (TI | TF), TE =>
      match cc with
      | Some m' => Ok m'
      | None =>
        m1 <- single_value n from m ;;
        c_binary k n (type_of (mv m1 to)) (type_of (mv m1 LTemp1)) to LTemp1 target m1
      end
    | TE, TE =>
      if is_member (mv m to) || is_member (mv m from) then
        ' (d, m1) <- deref n to m ;;
        let m1' := wr m1 (LAuto 0) (mv m1 d) in
        ' (d2, m2) <- deref n from m1' ;;
        c_binary k n (type_of (mv m2 (LAuto 0))) (type_of (mv m2 d2)) (LAuto 0) d2 target m2
      else match cc with Some m' => Ok m' | None => Ok m end
    | TR, TR =>
      match mv m to, mv m from with
      | VRef r, VRef q => c_binary k n (type_of (mv m r)) (type_of (mv m q)) r q target m
      | _, _ => UB
      end
    | TR, _ =>
      match mv m to with VRef r => c_binary k n (type_of (mv m r)) f r from target m | _ => UB end
    | _, TR =>
      match mv m from with VRef q => c_binary k n t (type_of (mv m q)) to q target m | _ => UB end
    end
  end.

(* operations_compact.cpp:50-142 wr_FuncAssign.  The concatenation check is made for every
   operator, not only +=. *)
Fixpoint c_assign (k : callpair) (fuel : nat) (t f : vtype) (to from : loc) (m : mem) : res mem :=
  match fuel with
  | O => OutOfFuel
  | S n =>
    let rec := c_assign k n in
    let cc := concat_check m to from to in
    match t, f with
    | (TI | TF), (TI | TF) =>
      v <- of_opt (c_leaf k t f (rdi m to) (rdi m from)) ;; Ok (wr m to v)
    | TE, (TI | TF) =>
      match cc with
      | Some m' => Ok (wr m' from (mv m' to))
      | None =>
        m1 <- single_value n to m ;;
        m2 <- rec (type_of (mv m1 LTemp1)) (type_of (mv m1 from)) LTemp1 from m1 ;;
        m3 <- wr_valueToEx n to LTemp1 m2 ;;
        Ok (wr m3 from (mv m3 LTemp1))
      end
    | TE, TE =>
      if is_member (mv m from) then
        ' (d, m1) <- deref n from m ;;
        m2 <- rec TE (type_of (mv m1 d)) to d m1 ;;
        ' (d2, m3) <- deref n to m2 ;;
        Ok (wr m3 from (mv m3 d2))
      else match cc with Some m' => Ok (wr m' from (mv m' to)) | None => Ok m end
    | (TI | TF), TE =>
      match cc with
      | Some m' => Ok (wr m' from (mv m' to))
      | None =>
        m1 <- single_value n from m ;;
        m2 <- rec (type_of (mv m1 to)) (type_of (mv m1 LTemp1)) to LTemp1 m1 ;;
        Ok (wr m2 from (mv m2 to))
      end
    | TE, TR =>
      match mv m from with VRef q => rec TE (type_of (mv m q)) to q m | _ => UB end
    | TR, TE =>
      match mv m to with VRef r => rec (type_of (mv m r)) TE r from m | _ => UB end
    | TR, TR =>
      match mv m to, mv m from with
      | VRef r, VRef q =>
        let m1 := wr m (LAuto 0) (mv m q) in
        m2 <- rec (type_of (mv m1 r)) (type_of (mv m1 (LAuto 0))) r (LAuto 0) m1 ;;
        Ok (wr m2 from (mv m2 r))
      | _, _ => UB
      end
    | TR, (TI | TF) =>
      match mv m to with
      | VRef r => m1 <- rec (type_of (mv m r)) f r from m ;; Ok (wr m1 from (mv m1 r))
      | _ => UB
      end
    | (TI | TF), TR =>
      match mv m from with
      | VRef q => m1 <- rec t (type_of (mv m q)) to q m ;; Ok (wr m1 from (mv m1 to))
      | _ => UB
      end
    end
  end.

(* operations_compact.cpp:229-258 wr_Compare, with intCall/floatCall from vm.cpp:262-275.
   c_compare of a record ignores c_if/c_fi: mixed operands are converted and given to floatCall *)
Fixpoint c_compare (ic fc : Z -> Z -> bool) (fuel : nat) (t f : vtype) (to from : loc) (m : mem) : res (bool * mem) :=
  match fuel with
  | O => OutOfFuel
  | S n =>
    match t, f with
    | TI, TI => Ok (ic (rdi m to) (rdi m from), m)
    | TI, TF => Ok (fc (f32_of_int (s32 (rdi m to))) (rdi m from), m)
    | TF, TI => Ok (fc (rdi m to) (f32_of_int (s32 (rdi m from))), m)
    | TF, TF => Ok (fc (rdi m to) (rdi m from), m)
    | TE, (TI | TF) =>
      m1 <- single_value n to m ;; c_compare ic fc n (type_of (mv m1 LTemp1)) f LTemp1 from m1
    | (TI | TF), TE =>
      m1 <- single_value n from m ;; c_compare ic fc n t (type_of (mv m1 LTemp1)) to LTemp1 m1
    | TE, TE =>
      m1 <- single_value n to m ;;
      let m1' := wr m1 (LAuto 0) (mv m1 LTemp1) in
      m2 <- single_value n from m1' ;;
      c_compare ic fc n (type_of (mv m2 (LAuto 0))) (type_of (mv m2 LTemp1)) (LAuto 0) LTemp1 m2
    | TR, TR =>
      match mv m to, mv m from with
      | VRef r, VRef q => c_compare ic fc n (type_of (mv m r)) (type_of (mv m q)) r q m
      | _, _ => UB
      end
    | TR, _ =>
      match mv m to with VRef r => c_compare ic fc n (type_of (mv m r)) f r from m | _ => UB end
    | _, TR =>
      match mv m from with VRef q => c_compare ic fc n t (type_of (mv m q)) to q m | _ => UB end
    end
  end.

(* ============ the operator opcodes ============ *)
Inductive binop := BAdd | BSub | BMul | BDiv | BMod | BAnd | BOr | BXor | BShl | BShr.
Inductive cmpop := CEq | CNe | CLt | CLe | CGt | CGe | CAnd | COr.

Definition int_fn (b : binop) : Z -> Z -> option Z :=
  match b with BMod => imod_c | BAnd => iand | BOr => ior | BXor => ixor | BShl => ishl | _ => ishr end.

(* full build: vm.cpp:3117-3148 targetFuncOp: [l] is the left operand (top of stack), [r] the
   right one; fused opcodes (GG/GL/LL..., StoreGlobal/StoreLocal, SkipLoad) call the same tables
   with other addresses *)
Definition eval_bin (b : binop) (fuel : nat) (l r target : loc) (m : mem) : res mem :=
  let t := type_of (mv m l) in let f := type_of (mv m r) in
  match b with
  | BAdd => add_binary fuel t f l r target m
  | BSub => arith_binary sub_op fuel t f l r target m
  | BMul => arith_binary mul_op fuel t f l r target m
  | BDiv => arith_binary div_op fuel t f l r target m
  | _ => int_binary (int_fn b) fuel t f l r target m
  end.
(* vm.cpp:1821-1838 compact *)
Definition call_of (b : binop) : callpair :=
  match b with
  | BAdd => k_addition | BSub => k_subtraction | BMul => k_multiplication | BDiv => k_division
  | _ => k_int (int_fn b)
  end.
Definition eval_bin_c (b : binop) (fuel : nat) (l r target : loc) (m : mem) : res mem :=
  c_binary (call_of b) fuel (type_of (mv m l)) (type_of (mv m r)) l r target m.

(* x op= e, vm.cpp:3150-3200 binaryTableOp / binaryTableOpAndPop *)
Definition eval_assign (b : binop) (fuel : nat) (to from : loc) (m : mem) : res mem :=
  let t := type_of (mv m to) in let f := type_of (mv m from) in
  match b with
  | BAdd => arith_assign true add_op fuel t f to from m
  | BSub => arith_assign false sub_op fuel t f to from m
  | BMul => arith_assign false mul_assign_op fuel t f to from m
  | BDiv => arith_assign false div_op fuel t f to from m
  | _ => logic_assign (int_fn b) fuel t f to from m
  end.
Definition eval_assign_c (b : binop) (fuel : nat) (to from : loc) (m : mem) : res mem :=
  c_assign (call_of b) fuel (type_of (mv m to)) (type_of (mv m from)) to from m.

(* vm.cpp:2745-2775 returnFuncNormal / returnFuncInverted: <=, >=, != are the inverted >, <, == *)
Definition cmp_table (c : cmpop) : cmp * bool :=
  match c with
  | CEq => (eq_op, false) | CNe => (eq_op, true)
  | CLt => (lt_op, false) | CGe => (lt_op, true)
  | CGt => (gt_op, false) | CLe => (gt_op, true)
  | CAnd => (and_op, false) | COr => (or_op, false)
  end.
Definition eval_cmp (c : cmpop) (fuel : nat) (l r : loc) (m : mem) : res (bool * mem) :=
  let '(o, inv) := cmp_table c in
  ' (b, m') <- compare o fuel (type_of (mv m l)) (type_of (mv m r)) l r m ;;
  Ok (xorb inv b, m').
(* compact, vm.cpp:2144-2176.  LogicalAnd/LogicalOr do not set boolFloatCall (:2144-2145): it is
   whatever function the previous operator left in the union, [stale] *)
Definition eval_cmp_c (stale : Z -> Z -> bool) (c : cmpop) (fuel : nat) (l r : loc) (m : mem) : res (bool * mem) :=
  let '(o, inv) := cmp_table c in
  let fc := match c with CAnd | COr => stale | _ => c_ff o end in
  ' (b, m') <- c_compare (c_ii o) fc fuel (type_of (mv m l)) (type_of (mv m r)) l r m ;;
  Ok (xorb inv b, m').
(* ++x, x++ (and --) on the value at l: vm.cpp:2519-2540 *)
Definition eval_pre (d : Z) (fuel : nat) (l : loc) (m : mem) : res mem := unary_pre d fuel (type_of (mv m l)) l m.
Definition eval_post (d : Z) (fuel : nat) (l : loc) (m : mem) : res mem := unary_post d fuel (type_of (mv m l)) l l m.
End Ops.
