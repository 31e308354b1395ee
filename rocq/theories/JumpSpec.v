(* What "a jump at pc" means, read off the running machine: the instruction the interpreter decodes
   there carries a target.  The for-each instructions are not decoded by VmModel; their target is read
   here as vm/vm.cpp:1727-1741 reads it. *)
From Verif Require Import Base OpsModel VmModel.

(* the place a branching instruction may transfer control to *)
Definition target_of (i : instr) : option Z :=
  match i with
  | IJump t | IBZ t | IVarBZ _ _ t | ICmpB _ t | ICmp2B _ _ _ _ t | ICmpSB _ _ _ t => Some t
  | _ => None
  end.
(* the same instruction going to [t] *)
Definition retarget (t : Z) (i : instr) : instr :=
  match i with
  | IJump _ => IJump t | IBZ _ => IBZ t | IVarBZ s n _ => IVarBZ s n t | ICmpB c _ => ICmpB c t
  | ICmp2B c s x y _ => ICmp2B c s x y t | ICmpSB c s x _ => ICmpSB c s x t
  | i => i
  end.
(* operand bytes in front of the displacement of a for-each step *)
Definition foreach_operands (o : opcode) : option Z :=
  match o with
  | O_GGNextKeyValueOrJump | O_GLNextKeyValueOrJump | O_LGNextKeyValueOrJump | O_LLNextKeyValueOrJump => Some 3
  | O_GNextValueOrJump | O_LNextValueOrJump => Some 2
  | _ => None
  end.
(* what a jump does, apart from where it goes *)
Inductive jkind :=
| JInstr (i : instr)                              (* a branching instruction, its target replaced by 0 *)
| JNext (o : opcode) (operands : list (option Z)). (* a for-each step and its operand bytes *)
Definition foreach_at (code : list Z) (pc : Z) : option (jkind * Z * Z) :=
  match nthZ code pc with
  | None => None
  | Some b => match opcode_of b with
    | None => None
    | Some o => match foreach_operands o with
      | None => None
      | Some k => match rd16 code (pc + 1 + k) with
        | Some d => Some (JNext o (map (fun x => nthZ code (pc + Z.of_nat x)) (seq 1 (Z.to_nat k))),
                          pc + 1 + k + d, pc + 1 + k + 2)
        | None => None end end end
  end.

(* [jump_at code pc = Some (k, t, n)]: the instruction at [pc] is a jump of kind [k] to [t]; [n] follows it *)
Definition jump_at (code : list Z) (pc : Z) : option (jkind * Z * Z) :=
  match decode code pc with
  | Some (i, n) => match target_of i with Some t => Some (JInstr (retarget 0 i), t, n) | None => foreach_at code pc end
  | None => None
  end.

(* ---- a block of code with labels ---- *)
(* (label position, position of a reference): the reference is the first byte after the opcode *)
Definition site := (Z * Z)%type.
(* [ref] is the reference of a jump instruction occupying [ref-1, n) inside the code *)
Definition site_ok (code : list Z) (s : site) : Prop :=
  exists k t n, jump_at code (snd s - 1) = Some (k, t, n) /\ n <= lenZ code.
(* no two jump instructions overlap *)
Definition sites_disjoint (code : list Z) (ss : list site) : Prop :=
  ForallOrdPairs (fun a b => forall k t n k' t' n',
    jump_at code (snd a - 1) = Some (k, t, n) -> jump_at code (snd b - 1) = Some (k', t', n') ->
    n <= snd b - 1 \/ n' <= snd a - 1) ss.
(* the displacement field, the last two bytes of the instruction, can hold the distance *)
Definition encodable (code : list Z) (s : site) : Prop :=
  exists k t n, jump_at code (snd s - 1) = Some (k, t, n) /\ -32768 <= fst s - (n - 2) <= 32767.
(* position [q] belongs to the instruction of a site *)
Definition in_site (code : list Z) (ss : list site) (q : Z) : Prop :=
  exists s k t n, In s ss /\ jump_at code (snd s - 1) = Some (k, t, n) /\ snd s - 1 <= q < n.
