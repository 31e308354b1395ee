(* What a linked image is supposed to contain, and which units fit its fields. *)
From Verif Require Import Base HashModel OpsModel VmModel EmitModel CcModel LinkModel.

(* the places in a unit that the linker completes: (name, offset in the unit) *)
Definition sites (l : list (Z * list Z)) : list (Z * Z) := flat_map (fun f => map (fun r => (fst f, r)) (snd f)) l.
Definition call_sites (b : bcode) : list (Z * Z) := sites (b_fns b).
Definition object_sites (b : bcode) : list (Z * Z) := sites (b_objs b).
(* a call takes six bytes, a yield two, an object reference two, a goto three *)
Definition call_len (h : Z) : Z := if h =? yield_hash then 2 else 6.
Definition intervals (b : bcode) : list (Z * Z) :=
  map (fun s => (snd s, call_len (fst s))) (call_sites b) ++
  map (fun s => (snd s, 2)) (object_sites b) ++ map (fun g => (snd g, 3)) (b_gotos b).
Definition inside (x : Z * Z) (i : Z) : Prop := fst x <= i < fst x + snd x.
Definition disjoint (x y : Z * Z) : Prop := fst x + snd x <= fst y \/ fst y + snd y <= fst x.
(* they lie in the unit and do not overlap *)
Definition completable (b : bcode) : Prop :=
  Forall (fun x => 0 <= fst x /\ fst x + snd x <= lenZ (b_all b)) (intervals b) /\ ForallOrdPairs disjoint (intervals b).
(* names are 32 bit hashes *)
Definition names_fit (b : bcode) : Prop := Forall (fun s => 0 <= fst s < 4294967296) (call_sites b).
Definition untouched (b : bcode) (i : Z) : Prop := Forall (fun x => ~ inside x i) (intervals b).

(* the i-th function is the first of that name / there is none *)
Definition named (us : list cunit) (h : Z) (i : nat) : Prop :=
  (exists u, nth_error us i = Some u /\ u_hash u = h) /\
  forall k u, (k < i)%nat -> nth_error us k = Some u -> u_hash u <> h.
Definition unnamed (us : list cunit) (h : Z) : Prop := Forall (fun u => u_hash u <> h) us.

(* a call of [h], in unit [b] at offset [r], whose code starts at [p] of the image *)
Definition call_completed (us : list cunit) (C : list Z) (p : Z) (b : bcode) (h r : Z) : Prop :=
  (forall i, named us h i -> exists args n,
     nthZ (b_all b) (r + 1) = Some args /\ decode C (p + r) = Some (ICall (Z.to_nat args) i, n) /\
     (* the value is dropped: execution goes on behind the site; or it is pushed first *)
     ((n = p + r + 6 /\ (nthZ (b_all b) (r + 5) = Some (byte_of O_PopOne) \/ nthZ (b_all b) (r + 6) = Some (byte_of O_NewObjectTable))) \/
      (n = p + r + 5 /\ nthZ (b_all b) (r + 5) <> Some (byte_of O_PopOne) /\ decode C n = Some (IPushRet, p + r + 6)))) /\
  (unnamed us h -> h <> yield_hash -> exists args pop,
     nthZ (b_all b) (r + 1) = Some args /\ decode C (p + r) = Some (ICallHash pop (Z.to_nat args) h, p + r + 6) /\
     (pop = true <-> nthZ (b_all b) (r + 5) = Some (byte_of O_PopOne))) /\
  (unnamed us h -> h = yield_hash -> exists args,
     nthZ (b_all b) (r + 1) = Some args /\ decode C (p + r) = Some (IYield (Z.to_nat args), p + r + 2)).
(* a goto: the label is the first with that name; its position counts the first byte of its statement *)
Definition goto_completed (C : list Z) (p : Z) (b : bcode) (h g : Z) : Prop :=
  exists j n, find (fun j => j_goto j =? h) (b_jumps b) = Some j /\ decode C (p + g) = Some (IJump (p + j_off j - 1), n).
(* an object reference: where the names of the function's variables are described *)
Definition object_completed (us : list cunit) (fs : list lfn) (C : list Z) (p h r : Z) : Prop :=
  forall i f, named us h i -> nth_error fs i = Some f -> rdu16 C (p + r) = Some (l_ns f).

(* unit [b] is at position [p] of the image [C] *)
Definition linked_at (us : list cunit) (fs : list lfn) (C : list Z) (p : Z) (b : bcode) : Prop :=
  0 <= p /\ p + lenZ (b_all b) <= lenZ C /\
  (forall i, 0 <= i < lenZ (b_all b) -> untouched b i -> nthZ C (p + i) = nthZ (b_all b) i) /\
  (forall h r, In (h, r) (call_sites b) -> call_completed us C p b h r) /\
  (forall h g, In (h, g) (b_gotos b) -> goto_completed C p b h g) /\
  (forall h r, In (h, r) (object_sites b) -> object_completed us fs C p h r).

(* the loader's view of a function *)
Definition describes (u : cunit) (f : lfn) : Prop :=
  l_hash f = u_hash u /\ l_args f = u_args u /\ l_frame f = lenZ (b_locals (u_code u)) - u_args u /\
  l_adjust f = 1 + l_args f + l_frame f.
(* the fields of a function's signature are 32, 8, 8 and 8 bits wide *)
Definition unit_fits (u : cunit) : Prop :=
  0 <= u_hash u < 4294967296 /\ 0 <= u_args u <= lenZ (b_locals (u_code u)) /\ 1 + lenZ (b_locals (u_code u)) < 256.
