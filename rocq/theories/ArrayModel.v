(* Arrays: vm/index.cpp (the [] operator), wr_growValueArray of vm/operations.cpp and the
   list, array, queue and stack functions of lib/std_container.cpp, on the memory of OpsModel.
   Allocation failure is not modelled.  A call of the garbage collector is the identity here
   (GCModel shows that it frees only what is unreachable). *)
From Coq Require SpecFloat.
From Verif Require Import Base OpsModel.
From Verif Require FloatModel.

Section Arr.
Variable pbits : value -> Z.
(* wr_doIndexHash, vm/index.cpp:64-95: hash tables and structs, modelled in HashTableModel *)
Variable hash_index : loc -> loc -> loc -> mem -> res mem.
(* getSVA( 0, SV_HASH_TABLE ): a value becomes an empty hash table *)
Variable new_table : loc -> mem -> mem.

(* sizeof(WRValue) on a 64-bit host *)
Definition VALUE_SIZE : Z := 16.

(* the m_size elements of an array object *)
Definition size_of (m : mem) (id : nat) : option nat :=
  match mo m id with Some (OVal n) => Some n | _ => None end.

(* operations.cpp:92-118 wr_growValueArray( va, newMinIndex ).  newMinIndex is an int; the byte
   count is an int product; a negative new size or one below the current size makes the memcpy of
   the old contents overrun the new block. *)
Definition grow (m : mem) (id : nat) (newMin : Z) : res mem :=
  let n := s32 newMin in
  match mo m id with
  | Some (OVal old) =>
    if (0 <=? n + 1) && ((n + 1) * VALUE_SIZE <=? 2147483647) && (Z.of_nat old <=? n + 1)
    then Ok (grow_array m id (Z.to_nat (n + 1))) else UB
  | Some (OChar bs _) =>
    if (0 <=? n + 1) && (lenZ bs <=? n + 1) && (n + 1 <=? 2147483647)
    then Ok (grow_array m id (Z.to_nat (n + 1))) else UB
  | _ => UB
  end.

(* utils.h:457-458 INIT_AS_CONTAINER_MEMBER | ENCODE_ARRAY_ELEMENT_TO_P2( index ): the element number
   sits in bits 8..28 of p2.  Bit 21 or 22 of the index would change the type tag (the result is
   then not a container member at all: UB when used, and UB here); bits 23 and above are lost. *)
Definition member (r : loc) (index : Z) : res value :=
  let e := u32 (index * 256) in
  if (e / 536870912) mod 4 =? 0 then Ok (VMem r (Z.to_nat ((e / 256) mod 2097152))) else UB.

(* getSVA( n, SV_VALUE, true ) stored in the value at l: n zeroes *)
Definition new_array (m : mem) (l : loc) (n : nat) : mem :=
  let id := mnext m in
  let m1 := mkMem (fun x => match x with LElem i _ => if Nat.eq_dec i id then VInt 0 else mv m x | _ => mv m x end)
                  (mo m) (mraw m) (S id) in
  wr (wr_obj m1 id (OVal n)) l (VArr id).

(* index.cpp:27-56 arrayElementToTarget.  Reading an element past the block cannot happen: every
   caller has grown the array. *)
Definition elementToTarget (index : Z) (target value : loc) (m : mem) : res mem :=
  if loc_eq_dec target value then
    match mv m value with
    | VArr id =>
      match mo m id with
      | Some (OVal n) =>
        if (0 <=? index) && (index <? Z.of_nat n) then Ok (wr m target (mv m (LElem id (Z.to_nat index)))) else UB
      | Some (OChar bs _) =>
        match nthZ bs index with Some c => Ok (wr m target (VInt (u8 c))) | None => UB end
      | _ => UB
      end
    | _ => UB   (* raw array on the stack: va is not an object *)
    end
  else v <- member value index ;; Ok (wr m target v).

(* index.cpp:98-112 doIndex_I_X *)
Definition index_I_X (index value target : loc) (m : mem) : res mem :=
  let i := rdi pbits m index in
  let n := s32 (i + 1) in
  if n <? 0 then UB
  else elementToTarget i target value (new_array m value (Z.to_nat n)).

(* index.cpp:115-195 doIndex_I_E *)
Definition index_I_E (fuel : nat) (index value target : loc) (m : mem) : res mem :=
  let go :=
    ' (v, m1) <- deref pbits fuel value m ;;
    let i := rdi pbits m1 index in
    match mv m1 v with
    | VHash _ | VStruct _ => hash_index index v target m1
    | VRaw _ n => if Z.of_nat n <=? i then Ok (wr m1 target (VInt 0)) else elementToTarget i target v m1
    | VArr id =>
      match mo m1 id with
      | Some (OVal n) =>
        if Z.of_nat n <=? i then m2 <- grow m1 id i ;; elementToTarget i target v m2 else elementToTarget i target v m1
      | Some (OChar bs nocontext) =>
        if lenZ bs <=? i then
          if nocontext then Ok (wr m1 target (VInt 0))
          else m2 <- grow m1 id i ;; elementToTarget i target v m2
        else elementToTarget i target v m1
      | _ => UB
      end
    | _ =>
      ' (ix, m2) <- deref pbits fuel index m1 ;;
      match mv m2 ix with
      | VInt _ =>
        let n := s32 (i + 1) in
        if n <? 0 then UB else elementToTarget i target v (new_array m2 v (Z.to_nat n))
      | _ => hash_index ix v target (new_table v m2)
      end
    end in
  match mv m value with
  | VMem r s => match mv m r with VRaw _ _ => Ok (wr m target (VInt 0)) | _ => go end
  | _ => go
  end.

(* index.cpp:198-214 doIndex_E_I *)
Definition index_E_I (fuel : nat) (index value target : loc) (m : mem) : res mem :=
  ' (v, m1) <- deref pbits fuel value m ;;
  let m2 := new_table v m1 in
  hash_index index v target m2.

(* index.cpp:217-240 doIndex_E_E *)
Definition index_E_E (fuel : nat) (index value target : loc) (m : mem) : res mem :=
  ' (ix, m1) <- deref pbits fuel index m ;;
  match mv m1 ix with
  | VInt _ | VFlt _ => index_I_E fuel ix value target m1
  | _ =>
    ' (v, m2) <- deref pbits fuel value m1 ;;
    match mv m2 v with
    | VHash _ | VStruct _ => hash_index ix v target m2
    | _ => Ok (wr m2 target (VInt 0))
    end
  end.

(* index.cpp:243-285 wr_index; [ti],[tv] the types of index and value *)
Fixpoint wr_index (fuel : nat) (ti tv : vtype) (index value target : loc) (m : mem) : res mem :=
  match fuel with
  | O => OutOfFuel
  | S n =>
    match ti, tv with
    | TI, (TI | TF) => index_I_X index value target m
    | TI, TR => match mv m value with VRef r => wr_index n TI (type_of (mv m r)) index r target m | _ => UB end
    | TI, TE => index_I_E n index value target m
    | TF, _ => Ok m
    | TR, (TI | TF | TE) => match mv m index with VRef q => wr_index n (type_of (mv m q)) tv q value target m | _ => UB end
    | TR, TR =>
      match mv m index, mv m value with
      | VRef q, VRef r => wr_index n (type_of (mv m q)) (type_of (mv m r)) q r target m
      | _, _ => UB
      end
    | TE, (TI | TF) => index_E_I n index value target m
    | TE, TR => match mv m value with VRef r => wr_index n TE (type_of (mv m r)) index r target m | _ => UB end
    | TE, TE => index_E_E n index value target m
    end
  end.
(* vm.cpp:1315-1325 O_Index: the index is on top of the stack, below it the value; the result
   replaces the value *)
Definition op_index (fuel : nat) (index value target : loc) (m : mem) : res mem :=
  wr_index fuel (type_of (mv m index)) (type_of (mv m value)) index value target m.

(* ---------------- lib/std_container.cpp ---------------- *)
(* 28-33 wr_ifValueArray: address of the array value and its object *)
Definition ifValueArray (fuel : nat) (l : loc) (m : mem) : res (option (loc * nat) * mem) :=
  ' (d, m1) <- deref pbits fuel l m ;;
  match mv m1 d with
  | VArr id => match mo m1 id with Some (OVal _) => Ok (Some (d, id), m1) | _ => Ok (None, m1) end
  | _ => Ok (None, m1)
  end.
(* memmove( data + to, data + from, n values ) within a block of [cap] values; the block is at
   least m_size long, accesses beyond m_size are counted as errors *)
Definition move (m : mem) (id : nat) (to from n cap : Z) : res mem :=
  if (0 <=? to) && (0 <=? from) && (to + n <=? cap) && (from + n <=? cap) then
    Ok (mkMem (fun x => match x with
                        | LElem i k => if Nat.eq_dec i id then
                                         if (to <=? Z.of_nat k) && (Z.of_nat k <? to + n) then mv m (LElem id (Z.to_nat (Z.of_nat k - to + from))) else mv m x
                                       else mv m x
                        | _ => mv m x end) (mo m) (mraw m) (mnext m))
  else UB.
Definition zero (m : mem) (id : nat) (from n cap : Z) : res mem :=
  if (0 <=? from) && (from + n <=? cap) then
    Ok (mkMem (fun x => match x with
                        | LElem i k => if Nat.eq_dec i id then
                                         if (from <=? Z.of_nat k) && (Z.of_nat k <? from + n) then VInt 0 else mv m x
                                       else mv m x
                        | _ => mv m x end) (mo m) (mraw m) (mnext m))
  else UB.
(* 119-143 wr_arrayRemoveEx; where and count as passed (unsigned, int) *)
Definition arrayRemoveEx (m : mem) (id : nat) (where_ count : Z) : res mem :=
  match mo m id with
  | Some (OVal n) =>
    let size := Z.of_nat n in
    let w := u32 where_ in
    if w <? size then
      let from := u32 (w + count) in
      if size <=? from then Ok (wr_obj m id (OVal (Z.to_nat w)))
      else m1 <- move m id w from (size - from) size ;; Ok (wr_obj m1 id (OVal (Z.to_nat (u32 (size - count)))))
    else Ok m
  | _ => UB
  end.
(* 189-212 wr_arrayInsertEx *)
Definition arrayInsertEx (m : mem) (id : nat) (where_ count : Z) : res mem :=
  match mo m id with
  | Some (OVal n) =>
    let size := Z.of_nat n in
    let w := u32 where_ in
    let c := u32 count in
    m1 <- grow m id (u32 (size + u32 (c - 1))) ;;
    let cap := u32 (size + c) in
    let entries := u32 (size - w) in
    if entries =? 0 then Ok m1
    else m2 <- move m1 id (u32 (w + c)) w entries cap ;; zero m2 id w c cap
  | _ => UB
  end.

(* (int)f: undefined outside the range of int *)
Definition f32_to_int (u : Z) : option Z :=
  match FloatModel.f32_decode u with
  | SpecFloat.S754_zero _ => Some 0
  | SpecFloat.S754_finite s mt e =>
    let a := if 0 <=? e then Zpos mt * 2 ^ e else Zpos mt / 2 ^ (- e) in
    let z := if s then - a else a in
    if (-2147483648 <=? z) && (z <=? 2147483647) then Some z else None
  | _ => None
  end.
(* utils.cpp:598-610 WRValue::asInt; containers used as a number (their hash) are not modelled *)
Definition asInt (fuel : nat) (l : loc) (m : mem) : res (Z * mem) :=
  match mv m l with
  | VInt u => Ok (s32 u, m)
  | VFlt u => match f32_to_int u with Some i => Ok (i, m) | None => UB end
  | _ => ' (d, m1) <- deref pbits fuel l m ;;
         let m2 := wr m1 LTemp1 (mv m1 d) in
         match mv m1 d with
         | VInt u => Ok (s32 u, m2)
         | VFlt u => match f32_to_int u with Some i => Ok (i, m2) | None => UB end
         | _ => UB
         end
  end.

(* The library functions: [a0], [a1], [a2] are the argument slots, [top] is stackTop, which holds
   integer 0 on entry (vm.cpp:1078).  *)
(* 43-52 count *)
Definition lib_count (fuel : nat) (a0 top : loc) (m : mem) : res mem :=
  ' (o, m1) <- ifValueArray fuel a0 m ;;
  match o with
  | Some (_, id) => match mo m1 id with Some (OVal n) => Ok (wr m1 top (VInt (u32 (Z.of_nat n)))) | _ => UB end
  | None => Ok m1
  end.
(* 55-83 clear( a ) *)
Definition lib_clear (fuel : nat) (a0 top : loc) (m : mem) : res mem :=
  ' (d, m1) <- deref pbits fuel a0 m ;;
  let m2 := new_array m1 d 0 in
  Ok (wr m2 top (mv m2 d)).
(* 86-99 peek, 102-115 peek of the back *)
Definition lib_peek (fuel : nat) (a0 top : loc) (m : mem) : res mem :=
  ' (o, m1) <- ifValueArray fuel a0 m ;;
  match o with
  | Some (d, id) =>
    match mo m1 id with Some (OVal O) => Ok m1 | Some (OVal _) => Ok (wr m1 top (VMem d 0)) | _ => UB end
  | None => Ok m1
  end.
Definition lib_peek_back (fuel : nat) (a0 top : loc) (m : mem) : res mem :=
  ' (o, m1) <- ifValueArray fuel a0 m ;;
  match o with
  | Some (d, id) =>
    match mo m1 id with
    | Some (OVal O) => Ok m1
    | Some (OVal (S n)) => v <- member d (Z.of_nat n) ;; Ok (wr m1 top v)
    | _ => UB
    end
  | None => Ok m1
  end.
(* 146-167 remove( a, where, count ) *)
Definition lib_remove (fuel : nat) (a0 a1 : loc) (a2 : option loc) (top : loc) (m : mem) : res mem :=
  ' (o, m1) <- ifValueArray fuel a0 m ;;
  match o with
  | Some (d, id) =>
    ' (w, m2) <- asInt fuel a1 m1 ;;
    ' (c, m3) <- (match a2 with Some l => asInt fuel l m2 | None => Ok (1, m2) end) ;;
    m4 <- arrayRemoveEx m3 id w c ;;
    Ok (wr m4 top (mv m4 d))
  | None => Ok m1
  end.
(* 170-190 truncate( a, size ) *)
Definition lib_truncate (fuel : nat) (a0 a1 top : loc) (m : mem) : res mem :=
  ' (o, m1) <- ifValueArray fuel a0 m ;;
  match o with
  | Some (d, id) =>
    ' (s, m2) <- asInt fuel a1 m1 ;;
    match mo m2 id with
    | Some (OVal n) =>
      let m3 := if u32 s <? Z.of_nat n then wr_obj m2 id (OVal (Z.to_nat (u32 s))) else m2 in
      Ok (wr m3 top (mv m3 d))
    | _ => UB
    end
  | None => Ok m1
  end.
(* 217-238 insert( a, where, count ) *)
Definition lib_insert (fuel : nat) (a0 a1 : loc) (a2 : option loc) (top : loc) (m : mem) : res mem :=
  ' (o, m1) <- ifValueArray fuel a0 m ;;
  match o with
  | Some (d, id) =>
    ' (w, m2) <- asInt fuel a1 m1 ;;
    ' (c, m3) <- (match a2 with Some l => asInt fuel l m2 | None => Ok (1, m2) end) ;;
    m4 <- arrayInsertEx m3 id w c ;;
    Ok (wr m4 top (mv m4 d))
  | None => Ok m1
  end.
(* 241-257 pop (first element), 260-277 pop_back (last element) *)
Definition lib_pop (fuel : nat) (a0 top : loc) (m : mem) : res mem :=
  ' (o, m1) <- ifValueArray fuel a0 m ;;
  match o with
  | Some (_, id) =>
    match mo m1 id with
    | Some (OVal O) => Ok m1
    | Some (OVal _) => arrayRemoveEx (wr m1 top (mv m1 (LElem id 0))) id 0 1
    | _ => UB
    end
  | None => Ok m1
  end.
Definition lib_pop_back (fuel : nat) (a0 top : loc) (m : mem) : res mem :=
  ' (o, m1) <- ifValueArray fuel a0 m ;;
  match o with
  | Some (_, id) =>
    match mo m1 id with
    | Some (OVal O) => Ok m1
    | Some (OVal (S n)) => let m2 := wr_obj m1 id (OVal n) in Ok (wr m2 top (mv m2 (LElem id n)))
    | _ => UB
    end
  | None => Ok m1
  end.
(* 280-295 push_back, 298-311 push (front).  The argument is stored as it is on the stack: a variable
   is on the stack as a reference (vm.cpp:1428-1442), and is not dereferenced. *)
Definition lib_push_back (fuel : nat) (a0 a1 : loc) (m : mem) : res mem :=
  ' (o, m1) <- ifValueArray fuel a0 m ;;
  match o with
  | Some (_, id) =>
    match mo m1 id with
    | Some (OVal n) => m2 <- arrayInsertEx m1 id (Z.of_nat n) 1 ;; Ok (wr m2 (LElem id n) (mv m2 a1))
    | _ => UB
    end
  | None => Ok m1
  end.
Definition lib_push (fuel : nat) (a0 a1 : loc) (m : mem) : res mem :=
  ' (o, m1) <- ifValueArray fuel a0 m ;;
  match o with
  | Some (_, id) => m2 <- arrayInsertEx m1 id 0 1 ;; Ok (wr m2 (LElem id 0) (mv m2 a1))
  | None => Ok m1
  end.
(* vm.cpp:1199-1229 O_Remove on an array: a._remove( i ) with the index's hash in h *)
Fixpoint shift_down (m : mem) (id k : nat) (n : nat) : mem :=
  match n with
  | O => m
  | S n' => shift_down (wr m (LElem id k) (mv m (LElem id (S k)))) id (S k) n'
  end.
Definition op_remove (fuel : nat) (idx arr : loc) (m : mem) : res mem :=
  match mv m idx with
  | VInt h =>
    ' (d, m1) <- deref pbits fuel arr m ;;
    match mv m1 d with
    | VArr id =>
      match mo m1 id with
      | Some (OVal n) =>
        let steps := if u32 (h + 1) <? Z.of_nat n then Z.to_nat (Z.of_nat n - 1 - h) else O in
        Ok (wr_obj (shift_down m1 id (Z.to_nat h) steps) id (OVal (Z.to_nat (u32 (Z.of_nat n - 1)))))
      | _ => UB   (* strings: not modelled *)
      end
    | _ => UB
    end
  | _ => UB       (* other index types: not modelled *)
  end.
End Arr.

(* ---------------- script statements ----------------
   What the virtual machine does for each statement (vm.cpp:1315 O_Index, assignment of vm.cpp:1640-,
   1076-1117 O_CallLibFunction), with the operands in the given stack slots *)
Section Stmts.
Variable pbits : value -> Z.
Variable hash_index : loc -> loc -> loc -> mem -> res mem.
Variable new_table : loc -> mem -> mem.
Variable fuel : nat.
Definition slot (n : nat) : loc := LStack n.
(* x[i] = v *)
Definition st_write (x : loc) (i : value) (v : value) (m : mem) : res mem :=
  m1 <- op_index pbits hash_index new_table fuel (slot 1) (slot 0) (slot 0) (wr (wr m (slot 0) (VRef x)) (slot 1) i) ;;
  let m2 := wr m1 (slot 1) v in
  wr_assign pbits fuel (type_of (mv m2 (slot 0))) (type_of v) (slot 0) (slot 1) m2.
(* x[i] used as a value *)
Definition st_read (x : loc) (i : value) (m : mem) : res (value * mem) :=
  m1 <- op_index pbits hash_index new_table fuel (slot 1) (slot 0) (slot 0) (wr (wr m (slot 0) (VRef x)) (slot 1) i) ;;
  ' (d, m2) <- deref pbits fuel (slot 0) m1 ;;
  Ok (mv m2 d, m2).
(* x._remove( i ) *)
Definition st_remove (x : loc) (i : value) (m : mem) : res mem :=
  op_remove pbits fuel (slot 1) (slot 0) (wr (wr m (slot 0) (VRef x)) (slot 1) i).
(* lib( x ) used as a value: the result slot is the one above the arguments *)
Definition st_call1 (f : nat -> loc -> loc -> mem -> res mem) (x : loc) (m : mem) : res (value * mem) :=
  m1 <- f fuel (slot 0) (slot 1) (wr (wr m (slot 0) (VRef x)) (slot 1) (VInt 0)) ;;
  ' (d, m2) <- deref pbits fuel (slot 1) m1 ;;
  Ok (mv m2 d, m2).
(* lib( x, v ) as a statement *)
Definition st_call2 (f : nat -> loc -> loc -> mem -> res mem) (x : loc) (v : value) (m : mem) : res mem :=
  f fuel (slot 0) (slot 1) (wr (wr m (slot 0) (VRef x)) (slot 1) v).
(* lib( x, a, b ) as a statement *)
Definition st_call3 (f : nat -> loc -> loc -> option loc -> loc -> mem -> res mem) (x : loc) (a b : value) (m : mem) : res mem :=
  f fuel (slot 0) (slot 1) (Some (slot 2)) (slot 3) (wr (wr (wr (wr m (slot 0) (VRef x)) (slot 1) a) (slot 2) b) (slot 3) (VInt 0)).
(* lib( x, a ) of the functions that also take a third argument *)
Definition st_call3d (f : nat -> loc -> loc -> option loc -> loc -> mem -> res mem) (x : loc) (a : value) (m : mem) : res mem :=
  f fuel (slot 0) (slot 1) None (slot 2) (wr (wr (wr m (slot 0) (VRef x)) (slot 1) a) (slot 2) (VInt 0)).
Definition st_truncate (x : loc) (a : value) (m : mem) : res mem :=
  lib_truncate pbits fuel (slot 0) (slot 1) (slot 2) (wr (wr (wr m (slot 0) (VRef x)) (slot 1) a) (slot 2) (VInt 0)).

(* std_container.cpp:398-418: the names scripts use *)
Definition queue_push := lib_push pbits.
Definition queue_pop := lib_pop_back pbits.
Definition queue_peek := lib_peek_back pbits.
Definition stack_push := lib_push pbits.
Definition stack_pop := lib_pop pbits.
Definition stack_peek := lib_peek pbits.
Definition list_push_front := lib_push pbits.
Definition list_push_back := lib_push_back pbits.
Definition list_pop_front := lib_pop pbits.
Definition list_pop_back := lib_pop_back pbits.
Definition container_count := lib_count pbits.
Definition container_clear := lib_clear pbits.
Definition array_insert := lib_insert pbits.
Definition array_remove := lib_remove pbits.

(* list:: calls: push_front, push_back, pop_front, pop_back *)
Inductive lop := PushFront (v : value) | PushBack (v : value) | PopFront | PopBack.
Fixpoint run_l (x : loc) (ops : list lop) (m : mem) : res (list value * mem) :=
  match ops with
  | [] => Ok ([], m)
  | PushFront v :: t => m1 <- st_call2 list_push_front x v m ;; run_l x t m1
  | PushBack v :: t => m1 <- st_call2 list_push_back x v m ;; run_l x t m1
  | PopFront :: t => ' (v, m1) <- st_call1 list_pop_front x m ;; ' (r, m2) <- run_l x t m1 ;; Ok (v :: r, m2)
  | PopBack :: t => ' (v, m1) <- st_call1 list_pop_back x m ;; ' (r, m2) <- run_l x t m1 ;; Ok (v :: r, m2)
  end.
(* ---- scripts: sequences of such statements on one variable ---- *)
(* push and pop calls; the popped values in order *)
Inductive qop := Push (v : value) | Pop.
Fixpoint run_q (push : nat -> loc -> loc -> mem -> res mem) (pop : nat -> loc -> loc -> mem -> res mem) (x : loc) (ops : list qop) (m : mem) : res (list value * mem) :=
  match ops with
  | [] => Ok ([], m)
  | Push v :: t => m1 <- st_call2 push x v m ;; run_q push pop x t m1
  | Pop :: t => ' (v, m1) <- st_call1 pop x m ;; ' (r, m2) <- run_q push pop x t m1 ;; Ok (v :: r, m2)
  end.
(* x[i] = v and reads of x[i]; the values read in order *)
Inductive aop := Write (i : nat) (v : value) | Read (i : nat).
Fixpoint run_a (x : loc) (ops : list aop) (m : mem) : res (list value * mem) :=
  match ops with
  | [] => Ok ([], m)
  | Write i v :: t => m1 <- st_write x (VInt (Z.of_nat i)) v m ;; run_a x t m1
  | Read i :: t => ' (v, m1) <- st_read x (VInt (Z.of_nat i)) m ;; ' (r, m2) <- run_a x t m1 ;; Ok (v :: r, m2)
  end.
End Stmts.
