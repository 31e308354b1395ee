(* What "reachable" means, independently of the collector. *)
From Verif Require Import Base GCModel.

Section Reach.
Variable h : heap.
Variable r : roots.

(* Ownership reachability: which objects a value keeps alive by holding them.  *)
Inductive reach_v : value -> nat -> Prop :=
| rv_obj i j : reach_o i j -> reach_v (VObj i) j
| rv_mem l v j : read_loc h r l = Some v -> is_exarray v = true -> reach_v v j -> reach_v (VMember l) j
| rv_hmem i j : reach_o i j -> reach_v (VHashMember i) j
with reach_o : nat -> nat -> Prop :=
| ro_self i : reach_o i i
| ro_elem i o es v j : hget h i = Some o -> o_kind o = KValue es -> In v es -> reach_v v j -> reach_o i j
| ro_int i o n j : hget h i = Some o -> o_kind o = KHash n -> reach_o n j -> reach_o i j
| ro_slot i o n on sl v j : hget h i = Some o -> o_kind o = KHash n ->
    hget h n = Some on -> o_kind on = KInternal sl -> In v (live_slots sl) -> reach_v v j -> reach_o i j.

Definition root_reach (rs : list value) (perms : list nat) (j : nat) : Prop :=
  (exists v, In v rs /\ reach_v v j) \/ (exists i, In i perms /\ reach_o i j).

(* [v] is one of the values an object's data block exposes *)
Inductive access_in : nat -> value -> Prop :=
| ai_elem i o es v : hget h i = Some o -> o_kind o = KValue es -> In v es -> access_in i v
| ai_slot i o sl v : hget h i = Some o -> o_kind o = KInternal sl -> In v (live_slots sl) -> access_in i v.
(* Access reachability: which objects' memory a program can read starting from a value: like
   the above, but also through references to slots and through hash members. *)
Inductive access : value -> nat -> Prop :=
| ac_obj i : access (VObj i) i
| ac_obj_in i v j : access_in i v -> access v j -> access (VObj i) j
| ac_mem l v j : read_loc h r l = Some v -> access v j -> access (VMember l) j
| ac_hmem i : access (VHashMember i) i
| ac_hmem_in i v j : access_in i v -> access v j -> access (VHashMember i) j
| ac_hash i o n : hget h i = Some o -> o_kind o = KHash n -> access (VObj i) n
| ac_hash_in i o n v j : hget h i = Some o -> o_kind o = KHash n -> access_in n v -> access v j -> access (VObj i) j
| ac_ref i n : access (VRef (LObj i n)) i
| ac_ref_in l v j : read_loc h r l = Some v -> access v j -> access (VRef l) j.

(* finite, well formed ownership: every path through arrays, tables and members ends *)
Inductive fin_v : value -> Prop :=
| fv_scalar b : fin_v (VScalar b)
| fv_raw : fin_v VRaw
| fv_ref l : fin_v (VRef l)
| fv_obj i : fin_o i -> fin_v (VObj i)
| fv_mem l v : read_loc h r l = Some v -> is_exarray v = true -> fin_v v -> fin_v (VMember l)
| fv_hmem i : fin_o i -> fin_v (VHashMember i)
with fin_o : nat -> Prop :=
| fo_leaf i o : hget h i = Some o -> (forall es, o_kind o <> KValue es) -> (forall n, o_kind o <> KHash n) -> fin_o i
| fo_value i o es : hget h i = Some o -> o_kind o = KValue es -> (forall v, In v es -> fin_v v) -> fin_o i
| fo_hash i o n on sl : hget h i = Some o -> o_kind o = KHash n -> hget h n = Some on -> o_kind on = KInternal sl ->
    (forall v, In v (live_slots sl) -> fin_v v) -> fin_o i.
End Reach.

Definition marked (h : heap) (i : nat) : Prop := exists o, hget h i = Some o /\ o_marked o = true.
Definition no_marks (h : heap) : Prop := forall i, ~ marked h i.
(* same objects with the same contents, marks aside *)
Definition same_contents (h h' : heap) : Prop :=
  forall i, option_map (fun o => (o_kind o, o_perm o)) (hget h i) =
            option_map (fun o => (o_kind o, o_perm o)) (hget h' i).
(* the permanent objects of a chain *)
Definition perms (h : heap) (chain : list nat) : list nat :=
  filter (fun i => match hget h i with Some o => o_perm o | None => false end) chain.
(* all values the collector starts from *)
Definition root_values (r : roots) (top : option nat) : list value :=
  match top with Some tp => scanned r tp ++ r_globals r | None => r_globals r end.
Definition root_perms (h : heap) (chain : list nat) (top : option nat) : list nat :=
  match top with Some _ => perms h chain | None => [] end.

(* values through which nothing is reachable that the ownership relation does not see:
   anything but hash members, references into heap objects or unscanned stack, and members of
   variables that no longer hold a container *)
Definition tame (h : heap) (r : roots) (top : nat) (v : value) : Prop :=
  match v with
  | VScalar _ | VRaw | VRef (LGlobal _) => True
  | VObj i => forall o sl, hget h i = Some o -> o_kind o <> KInternal sl
  | VRef (LStack n) => (r_offset r <= n < top)%nat
  | VMember l => (exists w, read_loc h r l = Some w /\ is_exarray w = true) /\
                 (forall n, l = LStack n -> (r_offset r <= n < top)%nat)
  | VHashMember _ | VRef (LObj _ _) => False
  end.
Definition all_tame (h : heap) (r : roots) (top : nat) : Prop :=
  (forall v, In v (scanned r top ++ r_globals r) -> tame h r top v) /\
  (forall i o v, hget h i = Some o -> In v (contents (o_kind o)) -> tame h r top v).
(* the chain lists live objects without repetition *)
Definition chain_ok (h : heap) (chain : list nat) : Prop :=
  NoDup chain /\ forall i, In i chain -> exists o, hget h i = Some o.
