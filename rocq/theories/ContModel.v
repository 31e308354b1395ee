(* Model of the compiler's utility containers, utils/utils.h:83-455.
   WRarray: m_list is the block of default-constructed and assigned elements (its length is what was
   really allocated), m_elementsNewed and m_elementsAllocated are the two counters.  Sizes are
   unbounded numbers except where a 32-bit sum matters.  None is undefined behaviour: an access
   outside the allocated block, or past the end of c_primeTable. *)
From Verif Require Import Base.

Section Arr.
Variable A : Type.
Variable d : A.                                 (* T() *)

Record warr := mkW { wl : list A; wnew : nat; wcnt : nat }.

(* utils.h:94-105 newArray: null for size 0 *)
Definition new_array (n : nat) : list A := repeat d n.
(* utils.h:108-118 deleteArray runs the destructor of the first [n] elements *)
Definition delete_ok (l : list A) (n : nat) : bool := match l with [] => true | _ => (n <=? length l)%nat end.
(* utils.h:121-127 *)
Definition w_clear (w : warr) : option warr :=
  if delete_ok (wl w) (wnew w) then Some (mkW [] 0 0) else None.
(* utils.h:201-223.  Elements are copied from the old block one by one. *)
Definition w_alloc (n : nat) (w : warr) : option warr :=
  if (wnew w <? n)%nat then
    let ns := (n + n / 2 + 1)%nat in
    match wl w with
    | [] => Some (mkW (new_array ns) ns (wcnt w))
    | _ =>
      if (wcnt w <=? length (wl w))%nat && (wcnt w <=? ns)%nat && delete_ok (wl w) (wnew w)
      then Some (mkW (firstn (wcnt w) (wl w) ++ new_array (ns - wcnt w)) ns (wcnt w)) else None
    end
  else Some w.
(* utils.h:130-137 *)
Definition w_set_count (n : nat) (w : warr) : option warr :=
  match (if (wnew w <=? n)%nat then w_alloc (n + 1) w else Some w) with
  | Some w' => Some (mkW (wl w') (wnew w') n)
  | None => None
  end.
(* utils.h:229-242: a reference to element l, which must be inside the block *)
Definition w_get (l : nat) (w : warr) : option (A * warr) :=
  let r := if (wnew w <=? l)%nat then
             match w_alloc (l + 1) w with Some w' => Some (mkW (wl w') (wnew w') (l + 1)) | None => None end
           else if (wcnt w <=? l)%nat then Some (mkW (wl w) (wnew w) (l + 1))
           else Some w in
  match r with
  | Some w' => match nth_error (wl w') l with Some x => Some (x, w') | None => None end
  | None => None
  end.
(* get(l) = v *)
Definition w_put (l : nat) (v : A) (w : warr) : option warr :=
  match w_get l w with Some (_, w') => Some (mkW (upd (wl w') l v) (wnew w') (wcnt w')) | None => None end.
(* utils.h:224-228 push() / append(), pop(), tail() *)
Definition w_append (v : A) (w : warr) : option warr := w_put (wcnt w) v w.
Definition w_pop (w : warr) : warr := if (0 <? wcnt w)%nat then mkW (wl w) (wnew w) (wcnt w - 1) else w.
Definition w_tail (w : warr) : option (option A) :=
  if (wcnt w =? 0)%nat then Some None
  else match nth_error (wl w) (wcnt w - 1) with Some x => Some (Some x) | None => None end.

(* the elements at positions i.. of l that are before [loc] or from [skip] on, utils.h:178-191 *)
Fixpoint kept (l : list A) (i : nat) (loc : nat) (skip : Z) : list A :=
  match l with
  | [] => []
  | x :: r => if (i <? loc)%nat || (skip <=? Z.of_nat i) then x :: kept r (S i) loc skip else kept r (S i) loc skip
  end.
(* utils.h:140-198 *)
Definition w_remove (loc cnt : nat) (w : warr) : option warr :=
  if (wcnt w <=? loc)%nat then Some w
  else if (wcnt w <? cnt)%nat && (loc =? 0)%nat then w_clear w
  else
    let n := if (wcnt w <? cnt)%nat then (loc + 1)%nat else (wcnt w - cnt)%nat in
    if negb (delete_ok (wl w) (wnew w)) || negb (wcnt w <=? length (wl w))%nat then None
    else
      let src := firstn (wcnt w) (wl w) in
      let na := if (loc =? 0)%nat then firstn n (skipn cnt src)
                else kept src 0 loc (u32 (Z.of_nat (loc + cnt))) in
      if (n <? length na)%nat then None         (* na[j++] past the new block *)
      else Some (mkW (na ++ new_array (n - length na)) n n).

(* utils.h:245-256 copy constructor: the block has room for the elements only, the counter is copied *)
Definition w_copy (a : warr) : option warr :=
  if (wcnt a <=? length (wl a))%nat then Some (mkW (firstn (wcnt a) (wl a)) (wnew a) (wcnt a)) else None.
(* utils.h:259-274 operator=, [w] is the old value *)
Definition w_assign (a w : warr) : option warr :=
  match w_clear w with
  | None => None
  | Some _ => if (wcnt a <=? length (wl a))%nat && (wcnt a <=? wnew a)%nat
              then Some (mkW (firstn (wcnt a) (wl a) ++ new_array (wnew a - wcnt a)) (wnew a) (wcnt a)) else None
  end.
(* utils.h:279 constructor *)
Definition w_init (n : nat) : option warr := w_alloc n (mkW [] 0 0).
End Arr.
Arguments mkW {A}. Arguments wl {A}. Arguments wnew {A}. Arguments wcnt {A}.

(* ---- WRHashTable, utils.h:284-455 ---- *)
(* utils.h:40-59; there is no terminating zero *)
Definition prime_table : list Z :=
  [2; 5; 11; 17; 23; 31; 53; 97; 193; 389; 769; 1543; 3079; 6151; 12289; 24593; 49157].
Definition NULL_HASH : Z := 2880154539.          (* 0xABABABAB, wrench.h:1192 *)

Section Tab.
Variable V : Type.
Variable dv : V.
(* m_mod is the length of the list *)
Record tab := mkT { tmod : Z; tl : list (Z * V) }.
Definition nodes (m : Z) : list (Z * V) := repeat (NULL_HASH, dv) (Z.to_nat m).

(* utils.h:287-298.  Walking past the last prime reads outside the table. *)
Fixpoint first_above (hint : Z) (ps : list Z) : option Z :=
  match ps with [] => None | p :: r => if hint <? p then Some p else first_above hint r end.
Definition t_init (hint : Z) : option tab :=
  match first_above hint prime_table with Some p => Some (mkT p (nodes p)) | None => None end.
(* utils.h:336-341 *)
Definition t_clear (t : tab) : tab := mkT 2 (nodes 2).

(* utils.h:344-356 *)
Definition t_get (h : Z) (t : tab) : option (option V) :=
  match nthZ (tl t) (h mod tmod t) with
  | Some (k, v) => Some (if k =? h then Some v else None)
  | None => None
  end.
(* utils.h:358-365 *)
Definition t_remove (h : Z) (t : tab) : option tab :=
  match nthZ (tl t) (h mod tmod t) with
  | Some (k, v) => Some (if k =? h then mkT (tmod t) (upd (tl t) (Z.to_nat (h mod tmod t)) (NULL_HASH, v)) else t)
  | None => None
  end.
(* utils.h:384-392: the prime after m.  None: past the end of the table *)
Fixpoint next_prime (m : Z) (ps : list Z) : option Z :=
  match ps with
  | [] => None
  | p :: r => if p =? m then match r with q :: _ => Some q | [] => None end else next_prime m r
  end.
(* utils.h:400-415: the old nodes put into a new table; false if two of them meet *)
Fixpoint rehash (old : list (Z * V)) (m : Z) (new : list (Z * V)) : option (list (Z * V)) :=
  match old with
  | [] => Some new
  | (k, v) :: r =>
    if k =? NULL_HASH then rehash r m new
    else match nthZ new (k mod m) with
         | Some (k', _) => if k' =? NULL_HASH then rehash r m (upd new (Z.to_nat (k mod m)) (k, v)) else None
         | None => None
         end
  end.
(* utils.h:380-425, the for(;;) loop: each turn takes a larger prime *)
Fixpoint t_grow (fuel : nat) (m : Z) (t : tab) : option tab :=
  match fuel with
  | O => None
  | S n =>
    match next_prime m prime_table with
    | None => None
    | Some q => match rehash (tl t) q (nodes q) with
                | Some l => Some (mkT q l)
                | None => t_grow n q t
                end
    end
  end.
(* utils.h:368-427.  [fuel] bounds the growing steps: there are at most 17 primes. *)
Fixpoint t_set_n (fuel : nat) (h : Z) (v : V) (t : tab) : option tab :=
  match fuel with
  | O => None
  | S n =>
    let key := h mod tmod t in
    match nthZ (tl t) key with
    | None => None
    | Some (k, _) =>
      if (k =? NULL_HASH) || (k =? h) then Some (mkT (tmod t) (upd (tl t) (Z.to_nat key) (h, v)))
      else match t_grow (length prime_table) (tmod t) t with
           | Some t' => t_set_n n h v t'
           | None => None
           end
    end
  end.
Definition t_set := t_set_n (S (length prime_table)).
End Tab.
Arguments mkT {V}. Arguments tmod {V}. Arguments tl {V}.
Arguments t_get {V}. Arguments t_remove {V}. Arguments t_set {V}. Arguments t_init {V}. Arguments t_clear {V}.
Arguments t_grow {V}. Arguments t_set_n {V}. Arguments rehash {V}. Arguments nodes {V}.
