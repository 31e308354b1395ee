(* The linked list of the debugger, SimpleLL (utils/simple_ll.h), with its nodes in memory: a node is at an
   address, a pointer is an address or null, using a node that does not exist (or was freed) is undefined
   behaviour.  An item is at the start of its node, so that a pointer to the item is a pointer to the node
   (struct Node, 275-280).  Memory is never exhausted, and an address that was freed is not given out again.
   The destructors of the items and the clear function are not modelled. *)
From Verif Require Import Base.
From Verif Require Import GCModel.
Open Scope list_scope. Open Scope Z_scope.

Section List.
Context {A : Type}.
(* simple_ll.h:275-280 *)
Record node := mkNode { n_item : A; n_next : option nat }.
(* simple_ll.h:282-284; [l_mem], [l_fresh]: the memory and the next address that is free *)
Record ll := mkLL { l_mem : nat -> option node; l_fresh : nat; l_head : option nat; l_tail : option nat; l_iter : option nat }.
(* simple_ll.h:39 *)
Definition ll_new : ll := mkLL (fun _ => None) O None None None.
Definition put (m : nat -> option node) (a : nat) (v : option node) : nat -> option node := fun b => if Nat.eqb b a then v else m b.
Definition same (p q : option nat) : bool := match p, q with None, None => true | Some a, Some b => Nat.eqb a b | _, _ => false end.
Definition with_iter (p : option nat) (l : ll) : ll := mkLL (l_mem l) (l_fresh l) (l_head l) (l_tail l) p.
(* what a pointer points to *)
Definition ll_item (l : ll) (p : option nat) : res (option A) :=
  match p with None => Ok None | Some a => match l_mem l a with Some n => Ok (Some (n_item n)) | None => UB end end.
(* simple_ll.h:43 *)
Definition ll_first (l : ll) : ll * option nat := match l_head l with Some a => (with_iter (Some a) l, Some a) | None => (l, None) end.
(* simple_ll.h:44: the address of the item of a node at null is null *)
Definition ll_next (l : ll) : res (ll * option nat) :=
  match l_iter l with
  | None => Ok (l, None)
  | Some a => match l_mem l a with Some n => Ok (with_iter (n_next n) l, n_next n) | None => UB end
  end.
(* simple_ll.h:50-55 *)
Fixpoint ll_count_from (fuel : nat) (c : Z) (l : ll) (p : option nat) : res (ll * Z) :=
  match fuel with
  | O => OutOfFuel
  | S f => match p with None => Ok (l, c) | Some _ => match ll_next l with Ok (l1, q) => ll_count_from f (c + 1) l1 q | UB => UB | OutOfFuel => OutOfFuel end end
  end.
Definition ll_count (l : ll) : res (ll * Z) := let (l1, p) := ll_first l in ll_count_from (S (l_fresh l)) 0 l1 p.
(* simple_ll.h:58-70 *)
Fixpoint ll_get_from (fuel : nat) (cur i : Z) (l : ll) (p : option nat) : res (option nat) :=
  match fuel with
  | O => OutOfFuel
  | S f => match p with
           | None => Ok None
           | Some a => match l_mem l a with None => UB | Some n => if i <=? cur then Ok (Some a) else ll_get_from f (cur + 1) i l (n_next n) end
           end
  end.
Definition ll_get (i : Z) (l : ll) : res (option nat) := ll_get_from (S (l_fresh l)) 0 i l (l_head l).
(* simple_ll.h:73-92, and the assignment of the new item *)
Definition ll_add_head (x : A) (l : ll) : ll :=
  match l_head l with
  | None => mkLL (put (l_mem l) (l_fresh l) (Some (mkNode x None))) (S (l_fresh l)) (Some (l_fresh l)) (Some (l_fresh l)) (l_iter l)
  | Some h => mkLL (put (l_mem l) (l_fresh l) (Some (mkNode x (Some h)))) (S (l_fresh l)) (Some (l_fresh l)) (l_tail l) (l_iter l)
  end.
(* simple_ll.h:95-111 *)
Definition ll_add_tail (x : A) (l : ll) : res ll :=
  match l_tail l with
  | None => Ok (ll_add_head x l)
  | Some t => match l_mem l t with
              | None => UB
              | Some n => Ok (mkLL (put (put (l_mem l) (l_fresh l) (Some (mkNode x None))) t (Some (mkNode (n_item n) (Some (l_fresh l)))))
                                   (S (l_fresh l)) (l_head l) (Some (l_fresh l)) (l_iter l))
              end
  end.
(* simple_ll.h:199-230 *)
Definition ll_pop_head (l : ll) : res (ll * option A) :=
  match l_head l with
  | None => Ok (l, None)
  | Some h => match l_mem l h with
    | None => UB
    | Some n =>
      let it := if same (l_iter l) (Some h) then n_next n else l_iter l in
      let m := put (l_mem l) h None in
      Ok (if same (l_tail l) (Some h) then mkLL m (l_fresh l) None None it else mkLL m (l_fresh l) (n_next n) (l_tail l) it, Some (n_item n))
    end
  end.
(* simple_ll.h:233-269 *)
Fixpoint ll_pop_tail_from (fuel : nat) (l : ll) (p : option nat) : res (ll * option A) :=
  match fuel with
  | O => OutOfFuel
  | S f => match p with
    | None => Ok (l, None)
    | Some a => match l_mem l a with
      | None => UB
      | Some n =>
        if same (n_next n) (l_tail l) then
          match n_next n with
          | None => UB
          | Some b => match l_mem l b with
            | None => UB
            | Some t => Ok (mkLL (put (put (l_mem l) b None) a (Some (mkNode (n_item n) None))) (l_fresh l) (l_head l) (Some a) (l_iter l), Some (n_item t))
            end
          end
        else ll_pop_tail_from f l (n_next n)
      end
    end
  end.
Definition ll_pop_tail (l : ll) : res (ll * option A) :=
  let l := if same (l_iter l) (l_tail l) then with_iter None l else l in
  if same (l_head l) (l_tail l) then ll_pop_head l else ll_pop_tail_from (S (l_fresh l)) l (l_head l).
(* simple_ll.h:132-150, 178-192: the node at a, after the node at q, is taken out *)
Definition ll_unlink (l : ll) (prev : option nat) (a : nat) (n : node) : res (ll * option A) :=
  match prev with
  | None => UB
  | Some q => match l_mem l q with
    | None => UB
    | Some nq => Ok (mkLL (put (put (l_mem l) q (Some (mkNode (n_item nq) (n_next n)))) a None) (l_fresh l) (l_head l) (l_tail l)
                          (if same (l_iter l) (Some a) then n_next n else l_iter l), Some (n_item n))
    end
  end.
(* simple_ll.h:114-155 *)
Fixpoint ll_pop_at_from (fuel : nat) (c index : Z) (l : ll) (prev p : option nat) : res (ll * option A) :=
  match fuel with
  | O => OutOfFuel
  | S f => match p with
    | None => Ok (l, None)
    | Some a => match l_mem l a with
      | None => UB
      | Some n => if c =? index then (if same (Some a) (l_tail l) then ll_pop_tail l else ll_unlink l prev a n)
                  else ll_pop_at_from f (c + 1) index l (Some a) (n_next n)
      end
    end
  end.
Definition ll_pop_at (index : Z) (l : ll) : res (ll * option A) :=
  if index =? 0 then ll_pop_head l else ll_pop_at_from (S (l_fresh l)) 0 index l None (l_head l).
(* simple_ll.h:158-196 *)
Fixpoint ll_pop_item_from (fuel : nat) (item : option nat) (l : ll) (prev p : option nat) : res ll :=
  match fuel with
  | O => OutOfFuel
  | S f => match p with
    | None => Ok l
    | Some a => match l_mem l a with
      | None => UB
      | Some n => if same (Some a) item then match ll_unlink l prev a n with Ok (l1, _) => Ok l1 | UB => UB | OutOfFuel => OutOfFuel end
                  else ll_pop_item_from f item l (Some a) (n_next n)
      end
    end
  end.
Definition ll_pop_item (item : option nat) (l : ll) : res ll :=
  match l_head l with
  | None => Ok l
  | Some h =>
    let scan := fun r : res (ll * option A) =>
      match r with Ok (l1, _) => ll_pop_item_from (S (l_fresh l1)) item l1 None (l_head l1) | UB => UB | OutOfFuel => OutOfFuel end in
    if same (Some h) item then scan (ll_pop_head l)
    else match l_tail l with
         | None => UB
         | Some t => if same (Some t) item then scan (ll_pop_tail l) else scan (Ok (l, None))
         end
  end.
(* simple_ll.h:272 *)
Fixpoint ll_clear_from (fuel : nat) (l : ll) : res ll :=
  match fuel with
  | O => OutOfFuel
  | S f => match l_head l with None => Ok l | Some _ => match ll_pop_head l with Ok (l1, _) => ll_clear_from f l1 | UB => UB | OutOfFuel => OutOfFuel end end
  end.
Definition ll_clear (l : ll) : res ll := ll_clear_from (S (l_fresh l)) l.
End List.
Arguments node A : clear implicits.
Arguments ll A : clear implicits.
