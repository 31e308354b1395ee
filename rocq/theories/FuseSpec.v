(* Vocabulary of the statements about the keyhole optimizer (C33). *)
From Verif Require Import Base OpsModel VmModel VmSpec EmitModel.

(* an instruction as bytes: the opcode and its operand bytes *)
Definition chunk := (opcode * list Z)%type.
Definition chunk_bytes (c : chunk) : list Z := byte_of (fst c) :: snd c.
(* the code without the optimizer: the instructions one after the other *)
Definition plain_bytes (cs : list chunk) : list Z := concat (map chunk_bytes cs).
(* what the machine reads from them *)
Definition instr_at (c : chunk) : option instr :=
  match decode (chunk_bytes c) 0 with
  | Some (i, n) => if n =? lenZ (chunk_bytes c) then Some i else None
  | None => None
  end.

(* the compiler's way of emitting the same instructions: pushOpcode and pushData *)
Fixpoint emit_all (cs : list chunk) (b : bcode) : cres bcode :=
  match cs with
  | [] => COk b
  | c :: r => b1 <~ push_opcode (fst c) b ;; emit_all r (push_data (snd c) b1)
  end.

(* the instructions the compiler emits between two branches, calls of script functions aside *)
Definition straight (i : instr) : bool :=
  match i with
  | ILit _ _ | ILitStr _ | ILoad _ _ | IPop | IBin _ | INeg | INot | IBitNot | ICmp _ | IPost _ | IPre _
  | IAssign | ICompound _ | IDeref | IHashOf | IToInt | IInitVar | IDebug | ILib false _ _ => true
  | ISwap n => (1 <=? n)%nat
  | ISwap2 a b => (1 <=? a)%nat && (1 <=? b)%nat
  | _ => false
  end.
Definition is_byte (x : Z) : Prop := 0 <= x < 256.
Definition source (c : chunk) : Prop :=
  Forall is_byte (snd c) /\ exists i, instr_at c = Some i /\ straight i = true.

(* opcodes below which the optimizer looks *)
Definition looks_below (o : opcode) : bool :=
  match o with
  | O_Assign | O_PreIncrement | O_PostIncrement | O_PreDecrement | O_PostDecrement => true
  | _ => is_literal o || match load_of o with Some _ => true | None => false end
  end.

(* the two literals whose negation does not fit in the literal's width, and code that does not negate them *)
Definition at_edge (c : chunk) : Prop := c = (O_LiteralInt8, [128]) \/ c = (O_LiteralInt16, [0; 128]).
Definition negations_fit (cs : list chunk) : Prop := forall a c d b, cs = a ++ c :: (O_Negate, d) :: b -> ~ at_edge c.

(* a number, possibly behind references *)
Definition is_num (v : value) : bool := match v with VInt _ | VFlt _ => true | _ => false end.
Inductive leads (P : value -> Prop) (m : mem) : loc -> Prop :=
| leads_here : forall l, P (mv m l) -> leads P m l
| leads_ref : forall l r, mv m l = VRef r -> leads P m r -> leads P m l.
Definition numeric (m : mem) (l : loc) : Prop := leads (fun v => is_num v = true) m l.
Definition ints (m : mem) (l : loc) : Prop := leads (fun v => type_of v = TI) m l.
Definition floats (m : mem) (l : loc) : Prop := leads (fun v => type_of v = TF) m l.

(* the operand stack from the top *)
Definition top1 (s : vm) : loc := LStack (vsp s - 1).
Definition top2 (s : vm) : loc := LStack (vsp s - 2).

(* where the optimizer is right: one instruction from s to t, in a function whose parameters,
   locals and return vector take fw stack slots *)
Definition tame (fw : nat) (i : instr) (s t : vm) : Prop :=
  let at1 := mv (vmem s) (top1 s) in
  let at2 := mv (vmem s) (top2 s) in
  match i with
  (* a local is one of them *)
  | ILoad q n => match q with SL => (n < fw)%nat | SG => True end
  (* the operator produces a result, and local + global, local * global are on numbers *)
  | IBin b =>
    (is_num (mv (vmem t) (top2 s)) = true \/ mv (vmem t) (top2 s) <> at2) /\
    match b with
    | BAdd | BMul => forall k n, at1 = VRef (LStack k) -> at2 = VRef (LGlobal n) ->
                     numeric (vmem s) (LStack k) /\ numeric (vmem s) (LGlobal n)
    | _ => True
    end
  (* a float on the left of a variable: the variable holds a float; == and != of a number and a
     variable: both are ints *)
  | ICmp c => forall x, is_num at1 = true -> at2 = VRef x ->
              match c with
              | CEq | CNe => type_of at1 = TI /\ ints (vmem s) x
              | _ => type_of at1 = TF -> floats (vmem s) x
              end
  (* x++ on a number *)
  | IPost _ => is_num at1 = true \/ exists x, at1 = VRef x /\ is_num (mv (vmem s) x) = true
  (* the variable assigned to is no reference, unless what is assigned is a variable that is none *)
  | IAssign => forall x, at1 = VRef x ->
               match mv (vmem s) x with
               | VRef _ | VMem _ _ | VHMem _ _ => exists y, at2 = VRef y /\ type_of (mv (vmem s) y) <> TR
               | _ => True end
  | _ => True
  end.

(* the same machine state up to what lies above the stack top, and the registers *)
Record same (s t : vm) : Prop := mkSame {
  same_sp : vsp t = vsp s; same_fb : vfb t = vfb s; same_pc : vpc t = vpc s; same_slice : vslice t = vslice s;
  same_mem : agree (vsp s) (vmem s) (vmem t)
}.

Section Runs.
Variable pbits : value -> Z.
Variable obj_hash : mem -> value -> Z.
Variable as_string : mem -> value -> list Z.
Variable trap : bool.
Variable hash_index : loc -> loc -> loc -> mem -> res mem.
Variable new_table : loc -> mem -> mem.
Variable lib_fn : Z -> option (nat -> nat -> mem -> res (mem * bool)).
Variable native_fn : Z -> option (nat -> nat -> mem -> res mem).
Variable ext : opcode -> vm -> res outcome.
Variable code : list Z.
Variable funs : list fn.
Variable base limit : nat.
Variable protect slices : bool.
Variable depth : nat.
Variable fw : nat.

(* one instruction ends in [o]; the bound on the recursion of the operators is not part of the
   machine: some bound up to [depth] is enough *)
Definition does (i : instr) (s : vm) (o : outcome) : Prop :=
  exists fuel, (fuel <= depth)%nat /\ exec pbits obj_hash as_string trap hash_index new_table lib_fn native_fn ext code funs base limit protect slices fuel i s = Ok o.

(* no value that is in use refers to the free part of the stack; the operands lie above the frame *)
Definition calm (s : vm) : Prop := closed (vsp s) (vmem s) /\ (vfb s + fw <= vsp s)%nat.

(* the instructions one after the other *)
Inductive runs : list instr -> vm -> vm -> Prop :=
| runs_nil : forall s, calm s -> runs [] s s
| runs_cons : forall i r s t u, calm s -> tame fw i s t -> does i s (Run t) -> runs r t u -> runs (i :: r) s u.

(* the machine, one instruction after the other, until it is about to read the byte at [stop]; every
   instruction on the way satisfies P *)
Inductive goes (P : instr -> vm -> vm -> Prop) (stop : Z) : vm -> vm -> Prop :=
| goes_stop : forall s, vpc s = stop -> goes P stop s s
| goes_step : forall s t u i n fuel, vpc s <> stop -> decode code (vpc s) = Some (i, n) -> (fuel <= depth)%nat ->
    step pbits obj_hash as_string trap hash_index new_table lib_fn native_fn ext code funs base limit protect slices fuel s = Ok (Run t) ->
    P i s t -> goes P stop t u -> goes P stop s u.
End Runs.
(* the state with another program counter *)
Definition at_pc (s : vm) (p : Z) : vm := mkVm (vmem s) p (vsp s) (vfb s) (vr0 s) (vr1 s) (vslice s).

(* a library function looks only at what is in use *)
Definition lib_local (lib_fn : Z -> option (nat -> nat -> mem -> res (mem * bool))) : Prop :=
  forall h f, lib_fn h = Some f -> forall sp args k m m', (sp <= k)%nat -> agree k m m' -> closed k m ->
  res_rel (fun a b => agree k (fst a) (fst b) /\ snd a = snd b) (f sp args m) (f sp args m').
