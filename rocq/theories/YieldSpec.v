(* Vocabulary of the statements about yielding and continuing (C29). *)
From Verif Require Import Base OpsModel VmModel VmSpec FuseSpec.

(* the state with another slice counter *)
Definition with_slice (n : Z) (s : vm) : vm := mkVm (vmem s) (vpc s) (vsp s) (vfb s) (vr0 s) (vr1 s) n.

(* the part of the stack in use: what lies below the top and, right after a return, the returned
   value and the frame it may refer to *)
Definition reach (s : vm) : nat :=
  match vr0 s, vr1 s with Some (LStack k), None => Nat.max (vsp s) (k + 2) | _, _ => vsp s end.

(* the same state up to the free part of the stack and the slice counter *)
Record alike (s t : vm) : Prop := mkAlike {
  al_sp : vsp t = vsp s; al_fb : vfb t = vfb s; al_pc : vpc t = vpc s;
  al_r0 : vr0 t = vr0 s; al_r1 : vr1 t = vr1 s;
  al_mem : agree (reach s) (vmem s) (vmem t)
}.

(* no value in use refers to the free part of the stack *)
Definition tidy (s : vm) : Prop :=
  closed (vsp s) (vmem s) /\ closed (reach s) (vmem s) /\ (vfb s <= vsp s)%nat.

(* the local variables an instruction names *)
Definition local_of (q : space) (n : nat) : list nat := match q with SL => [n] | SG => [] end.
Definition locals_of (i : instr) : list nat :=
  match i with
  | ILoad q n | IVarIndex q n _ _ | IBinStore _ q n | ICmpS _ q n | IVarBZ q n _ | ICmpSB _ q n _
  | IIncVar _ q n | IAssignTo q n | ILitTo q n _ => local_of q n
  | IValues q0 q1 a b | IBin2 _ q0 q1 a b => local_of q0 a ++ local_of q1 b
  | ICmp2 _ q a b | ICmp2B _ q a b _ => local_of q a ++ local_of q b
  | _ => []
  end.

(* what one instruction of the uninterrupted run may end in, against that of the interrupted one *)
Definition same_end (base : nat) (a b : outcome) : Prop :=
  match a, b with
  (* the globals and all objects, and the result, which lies at the base of the stack (the global
     code may leave none there) *)
  | Done s, Done t => agree 0 (vmem s) (vmem t) /\ vsp s = vsp t /\
    ((base < vsp s)%nat -> mv (vmem s) (LStack base) = mv (vmem t) (LStack base))
  | Failed e s, Failed e' t => e = e' /\ agree 0 (vmem s) (vmem t)
  | _, _ => False
  end.

(* what the functions of the host, and the opcodes and helpers that are parameters of the machine,
   may depend on: not on the free part of the stack *)
Definition native_local (native_fn : Z -> option (nat -> nat -> mem -> res mem)) : Prop :=
  forall h f, native_fn h = Some f -> forall sp args k m m', (sp <= k)%nat -> agree k m m' -> closed k m ->
  res_rel (agree k) (f sp args m) (f sp args m').
Definition ext_local (ext : opcode -> vm -> res outcome) (base : nat) : Prop :=
  forall o s s', alike s s' -> tidy s ->
  res_rel (fun a b => match a, b with Run t, Run t' => alike t t' /\ vr0 t = None /\ vr1 t = None | _, _ => same_end base a b end) (ext o s) (ext o s').
(* an operation that writes its target: on memories that agree on what is in use it does the same
   to them, and leaves the free part alone but for the target *)
Record wrote (sp : nat) (target : loc) (m m' a b : mem) : Prop := mkWrote {
  wt_agree : agree sp a b; wt_closed : closed sp a;
  wt_free : forall x, ~ live sp x -> x <> target -> mv a x = mv m x /\ mv b x = mv m' x;
  wt_target : mv a target = mv b target /\ val_ok sp (mv a target)
}.
Definition index_local (hash_index : loc -> loc -> loc -> mem -> res mem) : Prop :=
  forall sp ix v target m m', agree sp m m' -> closed sp m -> live sp v ->
  live sp ix \/ (ix <> target /\ mv m ix = mv m' ix /\ is_num (mv m ix) = true) ->
  res_rel (wrote sp target m m') (hash_index ix v target m) (hash_index ix v target m').
Definition table_local (new_table : loc -> mem -> mem) : Prop :=
  forall sp v m m', agree sp m m' -> closed sp m -> live sp v ->
  agree sp (new_table v m) (new_table v m') /\ closed sp (new_table v m) /\
  forall x, ~ live sp x -> mv (new_table v m) x = mv m x /\ mv (new_table v m') x = mv m' x.

Section Hosted.
Variable pbits : value -> Z.
Variable obj_hash : mem -> value -> Z.
Variable as_string : mem -> value -> list Z.
Variable trap : bool.
Variable hash_index : loc -> loc -> loc -> mem -> res mem.
Variable new_table : loc -> mem -> mem.
Variable lib_fn : Z -> option (nat -> nat -> mem -> res (mem * bool)).
Variable native_fn : Z -> option (nat -> nat -> mem -> res mem).
Variable ext : opcode -> vm -> res outcome.
Variable code : list Z.
Variable funs : list fn.
Variable base limit : nat.
Variable protect : bool.
Variable fuel : nat.
Let exec := exec pbits obj_hash as_string trap hash_index new_table lib_fn native_fn ext code funs base limit protect.
Let step := step pbits obj_hash as_string trap hash_index new_table lib_fn native_fn ext code funs base limit protect.

(* the state with another value in the free slot on top of the stack *)
Definition fill (s : vm) (v : value) : vm :=
  mkVm (wr (vmem s) (LStack (vsp s)) v) (vpc s) (vsp s) (vfb s) (vr0 s) (vr1 s) (vslice s).
(* whatever that slot holds, the instruction leaves the same value in it *)
Definition produces (i : instr) (s : vm) : Prop :=
  exists w, forall v, exists t,
  (exec false fuel i (fill s v) = Ok (Run t) \/ exists e, exec false fuel i (fill s v) = Ok (Failed e t)) /\
  mv (vmem t) (LStack (vsp s)) = w.

Definition apt (i : instr) (s : vm) : Prop :=
  (* the local variables named by the instruction are in use *)
  (forall n, In n (locals_of i) -> (vfb s + n < vsp s)%nat) /\
  match i with
  (* an operator on two variables produces a result *)
  | IBin2 _ _ _ _ _ | IBinSkip _ | IIndexSkip => produces i s
  (* a called function that has variables besides its arguments starts by giving the first of them a
     literal *)
  | ICall _ idx => forall f, nth_error funs idx = Some f ->
      fn_frame f = O \/ (frame_ok f /\ exists v q, decode code (fn_off f) = Some (ILitTo SL (fn_args f) v, q))
  (* the returned value is used right after the return *)
  | IPushRet | IStop => vr1 s = None
  (* a swap names positions below the top *)
  | ISwap n => (1 <= n)%nat
  | ISwap2 a b => (1 <= a)%nat /\ (1 <= b)%nat
  | _ => True
  end.

(* a yield seen as a call that takes its arguments from the stack and returns [v] *)
Definition answered (args : nat) (v : value) (s : vm) : vm :=
  mkVm (wr (vmem s) (LStack (vsp s - args)) v) (vpc s) (S (vsp s - args)) (vfb s) None None (vslice s).

(* a run of n instructions without time slices, in which the yields are calls that return the
   replies, ends in o *)
Inductive plain : nat -> list value -> vm -> outcome -> Prop :=
| plain_run : forall n l s t o i q, decode code (vpc s) = Some (i, q) -> tidy s -> apt i (at_pc s q) ->
    step false fuel s = Ok (Run t) -> plain n l t o -> plain (S n) l s o
| plain_yield : forall n v l s args t o i q, decode code (vpc s) = Some (i, q) -> tidy s -> apt i (at_pc s q) ->
    step false fuel s = Ok (Yielded args false t) -> plain n l (answered args v t) o -> plain (S n) (v :: l) s o
| plain_end : forall s o i q, decode code (vpc s) = Some (i, q) -> tidy s -> apt i (at_pc s q) ->
    step false fuel s = Ok o -> match o with Done _ | Failed _ _ => True | _ => False end -> plain 1 [] s o.

(* the host writes its reply where wr_getYieldInfo (utils.cpp:239-262) says: the free slot on top *)
Definition reply (v : value) (s : vm) : vm :=
  mkVm (wr (vmem s) (LStack (vsp s)) v) (vpc s) (vsp s) (vfb s) (vr0 s) (vr1 s) (vslice s).

(* a hosted run: before each instruction the host may have switched time slices on or off and set
   the slice counter (wr_setInstructionsPerSlice, wr_forceYield); whenever the context yields it is
   continued, after the reply if it asked for one *)
Fixpoint hosted (turns : list (bool * Z)) (l : list value) (s : vm) : res outcome :=
  match turns with
  | [] => OutOfFuel
  | (on, n) :: r =>
    o <- step on fuel (with_slice n s) ;;
    match o with
    | Run t => hosted r l t
    | Yielded args true t => hosted r l (resume n args true t)
    | Yielded args false t => match l with v :: l' => hosted r l' (resume n args false (reply v t)) | [] => Ok o end
    | _ => Ok o
    end
  end.

(* wr_callFunction and then wr_continue as long as the context is yielded: each call runs the
   interpreter loop with its own number of instructions per slice.  [n] bounds the instructions of
   one call. *)
Fixpoint continued (n : nat) (slices : list Z) (l : list value) (s : vm) : res outcome :=
  o <- run pbits obj_hash as_string trap hash_index new_table lib_fn native_fn ext code funs base limit protect true fuel n s ;;
  match slices, o with
  | ips :: r, Yielded args true t => continued n r l (resume ips args true t)
  | ips :: r, Yielded args false t =>
    match l with v :: l' => continued n r l' (resume ips args false (reply v t)) | [] => Ok o end
  | _, _ => Ok o
  end.
End Hosted.
