(* What expressions mean as parts of statements: by what their code does on the machine.  This makes the
   statements about compiled control flow independent of the expressions. *)
From Verif Require Import Base OpsModel VmModel VmSpec EmitModel CcModel JumpSpec LinkSpec CtlSpec.

(* the host resumes a context whose slice is used up, with a new slice of [ips] instructions *)
Definition resumed (ips : Z) (stp : vm -> res outcome) (s : vm) : res outcome :=
  match stp s with
  | Ok (Yielded O true s0) => Ok (Run (resume ips O true s0))
  | r => r
  end.
Definition reaches (stp : vm -> res outcome) (s s1 : vm) : Prop := exists n, steps stp n s s1.

(* A description of machine states that does not look at the position in the code, the time slice, the
   registers of an instruction, or the value in the free slot above the stack. *)
Definition position_free {M} (R : M -> vm -> Prop) : Prop := forall a s s1,
  R a s -> vsp s1 = vsp s -> vfb s1 = vfb s ->
  (vmem s1 = vmem s \/ vmem s1 = wr (vmem s) (LStack (vsp s)) (VInt 0)) -> R a s1.

Section Meanings.
(* the machine; the hash of the value on top of a stack of that height *)
Variable stp : vm -> res outcome.
Variable top_hash : nat -> mem -> res (Z * mem).
(* the image; the return instruction of the unit *)
Variables (C : image) (ret : opcode).
(* descriptions [M] of machine states; what a return does *)
Variables M V : Type.
Variable R : M -> vm -> Prop.
Variable RO : V -> outcome -> Prop.

Definition run_means (e : bcode) (a a1 : M) : Prop := forall P p s,
  pops e P \/ clause e P -> placed C p P e -> vpc s = p -> R a s ->
  exists s1, reaches stp s s1 /\ vpc s1 = p + lenZ P /\ R a1 s1.
Definition cond_means (c : bcode) (a : M) (v : bool) (a1 : M) : Prop := forall p r f s,
  cond_at C c p r f -> vpc s = p -> R a s ->
  exists s1, reaches stp s s1 /\ vpc s1 = (if v then r else f) /\ R a1 s1.
Definition sel_means (e : bcode) (a : M) (h : Z) (a1 : M) : Prop := 0 <= h < 4294967296 /\ forall P p s,
  pushes e P -> placed C p P e -> vpc s = p -> R a s ->
  exists s1 m1, reaches stp s s1 /\ vpc s1 = p + lenZ P /\ (1 <= vsp s1)%nat /\
    top_hash (vsp s1) (vmem s1) = Ok (h, m1) /\ R a1 (VmModel.upd s1 m1 (vsp s1 - 1)) /\
    (* the hash does not depend on the free slot *)
    exists m2, top_hash (vsp s1) (wr (vmem s1) (LStack (vsp s1)) (VInt 0)) = Ok (h, m2) /\ R a1 (VmModel.upd s1 m2 (vsp s1 - 1)).
Definition ret_means (e : option bcode) (a : M) (v : V) : Prop := forall P p s,
  returns ret e P -> placed C p P (match e with Some e => e | None => empty_bc end) -> vpc s = p -> R a s ->
  exists s1 o, reaches stp s s1 /\ stp s1 = Ok o /\ RO v o.

(* the meaning of a statement *)
Definition means (s : stmt) (a : M) (o : oc V) (a1 : M) : Prop :=
  CtlSpec.exec M V run_means cond_means sel_means ret_means s a o a1.

(* control reaches position [q] / a return is executed *)
Definition arrives (s : vm) (q : Z) (a1 : M) : Prop := exists s1, reaches stp s s1 /\ vpc s1 = q /\ R a1 s1.
Definition delivers (s : vm) (v : V) : Prop := exists s1 o, reaches stp s s1 /\ stp s1 = Ok o /\ RO v o.
End Meanings.

(* ---- programs ---- *)
(* a source file: statements outside functions, and functions (hash of the name, hashes of the
   parameters, body) *)
Inductive item := Global (s : stmt) | Function (h : Z) (params : list Z) (s : stmt).
Definition tk_item (i : item) : list tok :=
  match i with Global s => tk s | Function h ps s => T_function h ps :: T_lbrace :: tk s ++ [T_rbrace] end.
Definition source (l : list item) : list tok := flat_map tk_item l.
Definition global_code (l : list item) : stmt :=
  seq_of (flat_map (fun i => match i with Global s => [s] | _ => [] end) l).
Definition functions (l : list item) : list (Z * list Z * stmt) :=
  flat_map (fun i => match i with Function h ps s => [(h, ps, s)] | _ => [] end) l.
Definition item_ok (i : item) : Prop :=
  match i with
  | Global s => tidy Body s /\ good O_GlobalStop s
  | Function _ _ s => tidy InBlock s /\ good O_Return s
  end.
(* break only inside loops and switches, continue only inside loops *)
Fixpoint enclosed (brk cont : bool) (s : stmt) : bool :=
  match s with
  | Seq a b => enclosed brk cont a && enclosed brk cont b
  | If _ s | Braces s => enclosed brk cont s
  | IfElse _ a b => enclosed brk cont a && enclosed brk cont b
  | While _ s | Do s _ | For _ _ _ s => enclosed true true s
  | Switch _ s => enclosed true cont s
  | Break => brk
  | Continue => cont
  | _ => true
  end.

(* ---- the machine ---- *)
Record config := {
  k_pbits : value -> Z; k_obj_hash : mem -> value -> Z; k_as_string : mem -> value -> list Z; k_trap : bool;
  k_hash_index : loc -> loc -> loc -> mem -> res mem; k_new_table : loc -> mem -> mem;
  k_lib : Z -> option (nat -> nat -> mem -> res (mem * bool)); k_native : Z -> option (nat -> nat -> mem -> res mem);
  k_ext : opcode -> vm -> res outcome; k_funs : list fn; k_base : nat; k_limit : nat; k_protect : bool;
  k_slices : bool; k_fuel : nat; k_ips : Z }.
(* one instruction of the context; when its time slice is used up the host resumes it *)
Definition machine (k : config) (C : list Z) : vm -> res outcome :=
  resumed (k_ips k) (step (k_pbits k) (k_obj_hash k) (k_as_string k) (k_trap k) (k_hash_index k) (k_new_table k) (k_lib k)
    (k_native k) (k_ext k) C (k_funs k) (k_base k) (k_limit k) (k_protect k) (k_slices k) (k_fuel k)).
Definition top_hash (k : config) (sp : nat) (m : mem) : res (Z * mem) :=
  get_hash (k_pbits k) (k_obj_hash k) (k_fuel k) (LStack (sp - 1)) m.

(* [s], started at [B], does what it means.  If it ends normally control arrives at a position [fin]. *)
Definition follows (k : config) (C : image) (ret : opcode) (s : stmt) (B : Z) (fin : Z -> Prop) : Prop :=
  forall (M V : Type) (R : M -> vm -> Prop) (RO : V -> outcome -> Prop) a o a1 st,
  position_free R -> means (machine k C) (top_hash k) C ret M V R RO s a o a1 -> vpc st = B -> R a st ->
  match o with
  | ONormal => exists q, fin q /\ arrives (machine k C) M R st q a1
  | ORet v => delivers (machine k C) V RO st v
  | OBreak | OCont => enclosed false false s = false
  end.
(* behind the code of the body stands [l], and that is the end of the unit at [B] *)
Definition closed_by (C : list Z) (B : Z) (U : bcode) (l : list opcode) (q : Z) : Prop :=
  q + lenZ l = B + lenZ (b_all U) /\ forall i, 0 <= i < lenZ l -> nthZ C (q + i) = nthZ (map byte_of l) i.
