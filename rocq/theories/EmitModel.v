(* Emitting byte code: WRBytecode, pushOpcode with its keyhole optimizer (cc/optimizer.cpp), jump
   targets and sources and their resolution (cc/cc.cpp:346-752), appendBytecode.

   Simplifications: a buffer is the list of its bytes; an access outside it, and a write through a
   buffer that clear() has freed, is the outcome UB.  The name spaces of a bytecode block keep the
   hashes and reference positions, not the label strings.  The int arithmetic on positions does not
   overflow. *)
From Verif Require Import Base HashModel FloatModel OpsModel VmModel.

Definition op_eqb (a b : opcode) : bool := byte_of a =? byte_of b.

(* cc.h:161-168 BytecodeJumpOffset *)
Record jtarget := mkJ { j_off : Z; j_refs : list Z; j_goto : Z }.
(* cc.h:178-209 WRBytecode.  [b_ops] is the opcode cache, most recent first. *)
Record bcode := mkB {
  b_all : list Z; b_ops : list opcode;
  b_locals : list Z;                 (* localSpace: hashes *)
  b_fns : list (Z * list Z);         (* functionSpace: hash, references *)
  b_objs : list (Z * list Z);        (* unitObjectSpace *)
  b_jumps : list jtarget;            (* jumpOffsetTargets *)
  b_gotos : list (Z * Z)             (* gotoSource: hash, offset *)
}.
Definition empty_bc : bcode := mkB [] [] [] [] [] [] [].
Definition set_code (b : bcode) (l : list Z) (ops : list opcode) : bcode :=
  mkB l ops (b_locals b) (b_fns b) (b_objs b) (b_jumps b) (b_gotos b).
Definition set_jumps (b : bcode) (js : list jtarget) : bcode :=
  mkB (b_all b) (b_ops b) (b_locals b) (b_fns b) (b_objs b) js (b_gotos b).
Definition size (b : bcode) : Z := lenZ (b_all b).

(* result of a compiler function: a value, an error code (m_err), or undefined behaviour *)
Inductive cerr := E_compiler_panic | E_bad_goto_location | E_goto_target_not_found | E_bad_expression
 | E_duplicate_case | E_case_or_default_expected | E_switch_construction | E_break_outside | E_continue_outside | E_unexpected_token | E_fuel.
Inductive cres (A : Type) := COk (a : A) | CErr (e : cerr) | CUB.
Arguments COk {A}. Arguments CErr {A}. Arguments CUB {A}.
Definition cbind {A B} (r : cres A) (f : A -> cres B) : cres B :=
  match r with COk a => f a | CErr e => CErr e | CUB => CUB end.
Notation "x <~ e ;; f" := (cbind e (fun x => f)) (at level 100, e at next level, right associativity).
Notation "' p <~ e ;; f" := (cbind e (fun p => f)) (at level 100, p pattern, e at next level, right associativity).

(* ---- the keyhole optimizer ---- *)
(* The bytes are taken in reverse: the head is all[a], the next all[a-1], ...  *)
Inductive fres := Fuse (ops : list opcode) (rall : list Z) | NoFuse | FuseUB.

(* optimizer.cpp:100-107 IsLiteralLoadOpcode *)
Definition is_literal (o : opcode) : bool :=
  match o with O_LiteralInt32 | O_LiteralZero | O_LiteralFloat | O_LiteralInt8 | O_LiteralInt16 => true | _ => false end.
(* which variable space a load reads *)
Definition load_of (o : opcode) : option space :=
  match o with O_LoadFromLocal => Some SL | O_LoadFromGlobal => Some SG | _ => None end.

(* optimizer.cpp:265-321: negation of a literal *)
Definition fuse_negate (o0 : opcode) (rest : list opcode) (rl : list Z) : fres :=
  match o0 with
  | O_LiteralInt8 =>
    match rl with p0 :: r => Fuse (o0 :: rest) (u8 (- p0) :: r) | _ => FuseUB end
  | O_LiteralInt16 =>
    if 2 <? lenZ rl then
      match rl with
      | p0 :: p1 :: r => let be := Base.s16 (- Base.s16 (p1 + 256 * p0)) in
                         Fuse (o0 :: rest) (u8 (be / 256) :: u8 be :: r)
      | _ => FuseUB
      end
    else NoFuse
  | O_LiteralInt32 =>
    match rl with
    | p0 :: p1 :: p2 :: p3 :: r =>
      let be := u32 (0 - (p3 + 256 * p2 + 65536 * p1 + 16777216 * p0)) in
      Fuse (o0 :: rest) (u8 (be / 16777216) :: u8 (be / 65536) :: u8 (be / 256) :: u8 be :: r)
    | _ => FuseUB
    end
  | O_LiteralFloat =>
    match rl with
    | p0 :: p1 :: p2 :: p3 :: r =>
      let be := f32_neg (p3 + 256 * p2 + 65536 * p1 + 16777216 * p0) in
      Fuse (o0 :: rest) (u8 (be / 16777216) :: u8 (be / 65536) :: u8 (be / 256) :: u8 be :: r)
    | _ => FuseUB
    end
  | _ => NoFuse
  end.

(* CompareXX after two loads of the same kind: (all locals, all globals); after a literal and a
   load: LS, GS; after a load and a literal: ILS, IGS.  optimizer.cpp:331-467 *)
Record cmp_forms := mkCF { cf_ll : opcode; cf_gg : opcode; cf_ls : opcode; cf_gs : opcode; cf_ils : opcode; cf_igs : opcode }.
Definition compare_forms (o : opcode) : option cmp_forms :=
  match o with
  | O_CompareEQ => Some (mkCF O_LLCompareEQ O_GGCompareEQ O_LSCompareEQ O_GSCompareEQ O_LSCompareEQ O_GSCompareEQ)
  | O_CompareNE => Some (mkCF O_LLCompareNE O_GGCompareNE O_LSCompareNE O_GSCompareNE O_LSCompareNE O_GSCompareNE)
  | O_CompareGE => Some (mkCF O_LLCompareGE O_GGCompareGE O_LSCompareGE O_GSCompareGE O_LSCompareLE O_GSCompareLE)
  | O_CompareLE => Some (mkCF O_LLCompareLE O_GGCompareLE O_LSCompareLE O_GSCompareLE O_LSCompareGE O_GSCompareGE)
  | O_CompareGT => Some (mkCF O_LLCompareGT O_GGCompareGT O_LSCompareGT O_GSCompareGT O_LSCompareLT O_GSCompareLT)
  | O_CompareLT => Some (mkCF O_LLCompareLT O_GGCompareLT O_LSCompareLT O_GSCompareLT O_LSCompareGT O_GSCompareGT)
  | _ => None
  end.

(* optimizer.cpp:110-252 CheckCompareReplace *)
Definition fuse_compare_s (f : cmp_forms) (o0 o1 : opcode) (rest : list opcode) (rl : list Z) : fres :=
  if is_literal o1 then
    match load_of o0 with
    | Some sp =>
      let op := match sp with SG => cf_gs f | SL => cf_ls f end in
      match rl with p0 :: _ :: r => Fuse (op :: o1 :: rest) (p0 :: byte_of op :: r) | _ => FuseUB end
    | None => NoFuse
    end
  else if is_literal o0 then
    match load_of o1 with
    | Some sp =>
      let op := match sp with SG => cf_igs f | SL => cf_ils f end in
      match o0, rl with
      | (O_LiteralInt32 | O_LiteralFloat), p0 :: p1 :: p2 :: p3 :: _ :: p5 :: _ :: r =>
        Fuse (op :: o1 :: rest) (p5 :: byte_of op :: p0 :: p1 :: p2 :: p3 :: byte_of o0 :: r)
      | O_LiteralZero, _ :: p1 :: _ :: r =>
        Fuse (op :: o1 :: rest) (p1 :: byte_of op :: byte_of O_LiteralZero :: r)
      | O_LiteralInt8, p0 :: _ :: p2 :: _ :: r =>
        Fuse (op :: o1 :: rest) (p2 :: byte_of op :: p0 :: byte_of O_LiteralInt8 :: r)
      | O_LiteralInt16, p0 :: p1 :: _ :: p3 :: _ :: r =>
        Fuse (op :: o1 :: rest) (p3 :: byte_of op :: p0 :: p1 :: byte_of O_LiteralInt16 :: r)
      | _, _ => FuseUB
      end
    | None => NoFuse
    end
  else NoFuse.
Definition fuse_compare (f : cmp_forms) (o0 : opcode) (rest : list opcode) (rl : list Z) : fres :=
  match rest with
  | [] => NoFuse
  | o1 :: rest' =>
    match load_of o0, load_of o1 with
    | Some SL, Some SL =>
      match rl with p0 :: _ :: p2 :: _ :: r => Fuse [cf_ll f] (p0 :: p2 :: byte_of (cf_ll f) :: r) | _ => FuseUB end
    | Some SG, Some SG =>
      match rl with p0 :: _ :: p2 :: _ :: r => Fuse [cf_gg f] (p0 :: p2 :: byte_of (cf_gg f) :: r) | _ => FuseUB end
    | _, _ => fuse_compare_s f o0 o1 rest' rl
    end
  end.

(* optimizer.cpp:78-97 CheckFastLoad: the SkipLoad form *)
Definition skip_form (o : opcode) : option opcode :=
  match o with
  | O_Index => Some O_IndexSkipLoad | O_BinaryMod => Some O_BinaryModSkipLoad
  | O_BinaryRightShift => Some O_BinaryRightShiftSkipLoad | O_BinaryLeftShift => Some O_BinaryLeftShiftSkipLoad
  | O_BinaryAnd => Some O_BinaryAndSkipLoad | O_BinaryOr => Some O_BinaryOrSkipLoad
  | O_BinaryXOR => Some O_BinaryXORSkipLoad
  | _ => None
  end.
(* the two loads as one instruction: lower, upper *)
Definition values_op (lower upper : space) : opcode :=
  match lower, upper with SL, SL => O_LLValues | SL, SG => O_LGValues | SG, SL => O_GLValues | SG, SG => O_GGValues end.
(* optimizer.cpp:31-74 CheckSkipLoad *)
Definition fuse_skip (op : opcode) (o0 : opcode) (rest : list opcode) (rl : list Z) : fres :=
  if lenZ rl <=? 3 then NoFuse else
  match rest with
  | [] => NoFuse
  | o1 :: rest' =>
    match load_of o0, load_of o1 with
    | Some s0, Some s1 =>
      match rl with
      | p0 :: _ :: p2 :: _ :: r => Fuse (op :: rest') (byte_of op :: p0 :: p2 :: byte_of (values_op s1 s0) :: r)
      | _ => FuseUB
      end
    | _, _ => NoFuse
    end
  end.

(* optimizer.cpp:472-657: * + - / of two variables.  (lower, upper) are the kinds of opcodes[o-1]
   and opcodes[o]; the result is the fused opcode and whether the operand bytes are swapped. *)
Definition var2_form (o : opcode) (lower upper : space) : option (opcode * bool) :=
  match o with
  | O_BinaryMultiplication =>
    Some (match lower, upper with SG, SG => (O_GGBinaryMultiplication, false) | SG, SL => (O_GLBinaryMultiplication, true)
          | SL, SG => (O_GLBinaryMultiplication, false) | SL, SL => (O_LLBinaryMultiplication, false) end)
  | O_BinaryAddition =>
    Some (match lower, upper with SG, SG => (O_GGBinaryAddition, false) | SG, SL => (O_GLBinaryAddition, true)
          | SL, SG => (O_GLBinaryAddition, false) | SL, SL => (O_LLBinaryAddition, false) end)
  | O_BinarySubtraction =>
    Some (match lower, upper with SG, SG => (O_GGBinarySubtraction, false) | SG, SL => (O_LGBinarySubtraction, false)
          | SL, SG => (O_GLBinarySubtraction, false) | SL, SL => (O_LLBinarySubtraction, false) end)
  | O_BinaryDivision =>
    Some (match lower, upper with SG, SG => (O_GGBinaryDivision, false) | SG, SL => (O_LGBinaryDivision, false)
          | SL, SG => (O_GLBinaryDivision, false) | SL, SL => (O_LLBinaryDivision, false) end)
  | _ => None
  end.
Definition fuse_var2 (o o0 : opcode) (rest : list opcode) (rl : list Z) : fres :=
  if lenZ rl <=? 3 then NoFuse else
  (* multiplication tests o > 1, the others read opcodes[o-1] whatever o is *)
  if op_eqb o O_BinaryMultiplication && (lenZ rest <=? 1) then NoFuse else
  match load_of o0 with
  | None => NoFuse
  | Some s0 =>
    match rest with
    | [] => FuseUB
    | o1 :: _ =>
      match load_of o1 with
      | None => NoFuse
      | Some s1 =>
        match var2_form o s1 s0, rl with
        | Some (op, swap), p0 :: _ :: p2 :: _ :: r =>
          Fuse [] (if swap then p2 :: p0 :: byte_of op :: r else p0 :: p2 :: byte_of op :: r)
        | _, _ => FuseUB
        end
      end
    end
  end.

(* optimizer.cpp:658-668: an index that is a literal *)
Definition fuse_index (o0 : opcode) (rest : list opcode) (rl : list Z) : fres :=
  match o0 with
  | O_LiteralInt16 =>
    match rl with p0 :: p1 :: _ :: r => Fuse (O_IndexLiteral16 :: rest) (p0 :: p1 :: byte_of O_IndexLiteral16 :: r) | _ => FuseUB end
  | O_LiteralInt8 =>
    match rl with p0 :: _ :: r => Fuse (O_IndexLiteral8 :: rest) (p0 :: byte_of O_IndexLiteral8 :: r) | _ => FuseUB end
  | _ => NoFuse
  end.

(* BZ after a comparison of two variables, of a variable, after any other comparison or logical
   operator: the branching opcode and how far from the end the opcode byte is; optimizer.cpp:669-993 *)
Definition bz_form (o : opcode) : option (opcode * Z) :=
  match o with
  | O_LLCompareEQ => Some (O_LLCompareEQBZ, 2) | O_LLCompareNE => Some (O_LLCompareNEBZ, 2)
  | O_LLCompareGE => Some (O_LLCompareGEBZ, 2) | O_LLCompareLE => Some (O_LLCompareLEBZ, 2)
  | O_LLCompareGT => Some (O_LLCompareGTBZ, 2) | O_LLCompareLT => Some (O_LLCompareLTBZ, 2)
  | O_GGCompareEQ => Some (O_GGCompareEQBZ, 2) | O_GGCompareNE => Some (O_GGCompareNEBZ, 2)
  | O_GGCompareGE => Some (O_GGCompareGEBZ, 2) | O_GGCompareLE => Some (O_GGCompareLEBZ, 2)
  | O_GGCompareGT => Some (O_GGCompareGTBZ, 2) | O_GGCompareLT => Some (O_GGCompareLTBZ, 2)
  | O_GSCompareEQ => Some (O_GSCompareEQBZ, 1) | O_GSCompareNE => Some (O_GSCompareNEBZ, 1)
  | O_GSCompareGE => Some (O_GSCompareGEBZ, 1) | O_GSCompareLE => Some (O_GSCompareLEBZ, 1)
  | O_GSCompareGT => Some (O_GSCompareGTBZ, 1) | O_GSCompareLT => Some (O_GSCompareLTBZ, 1)
  | O_LSCompareEQ => Some (O_LSCompareEQBZ, 1) | O_LSCompareNE => Some (O_LSCompareNEBZ, 1)
  | O_LSCompareGE => Some (O_LSCompareGEBZ, 1) | O_LSCompareLE => Some (O_LSCompareLEBZ, 1)
  | O_LSCompareGT => Some (O_LSCompareGTBZ, 1) | O_LSCompareLT => Some (O_LSCompareLTBZ, 1)
  | O_CompareEQ => Some (O_CompareBEQ, 0) | O_CompareNE => Some (O_CompareBNE, 0)
  | O_CompareGE => Some (O_CompareBGE, 0) | O_CompareLE => Some (O_CompareBLE, 0)
  | O_CompareGT => Some (O_CompareBGT, 0) | O_CompareLT => Some (O_CompareBLT, 0)
  | O_LogicalOr => Some (O_BLO, 0) | O_LogicalAnd => Some (O_BLA, 0) | O_LoadFromLocal => Some (O_LocalBZ, 1)
  | O_LoadFromGlobal => Some (O_GlobalBZ, 1)
  | _ => None
  end.


Definition is_compare (o : opcode) : bool := match compare_forms o with Some _ => true | None => false end.
Definition fuse_bz (o0 : opcode) (rest : list opcode) (rl : list Z) : fres :=
  (* CompareXX after two loads of the same kind clears the cache and then writes into it *)
  if is_compare o0 &&
     match rest with o1 :: o2 :: _ => match load_of o1, load_of o2 with
                                      | Some SL, Some SL | Some SG, Some SG => true | _, _ => false end
     | _ => false end
  then FuseUB
  else
  match bz_form o0 with
  | Some (op, k) =>
    if k <? lenZ rl then Fuse (op :: rest) (Base.upd rl (Z.to_nat k) (byte_of op)) else FuseUB
  | None => NoFuse
  end.

(* optimizer.cpp:1055-1247: [literal or result] [load] Assign PopOne *)
Definition lit_to (s : space) (g l : opcode) : opcode := match s with SG => g | SL => l end.
Definition fuse_assign_pop (s : space) (rest : list opcode) (o0 o1 : opcode) (rl : list Z) : fres :=
  (* rest: the entries below the load *)
  let default :=
    match rl with
    | _ :: p1 :: _ :: r => Fuse [] (p1 :: byte_of (lit_to s O_AssignToGlobalAndPop O_AssignToLocalAndPop) :: r)
    | _ => FuseUB end in
  let store g l :=
    match rl with _ :: p1 :: _ :: _ :: r => Fuse [] (p1 :: byte_of (lit_to s g l) :: r) | _ => FuseUB end in
  match rest with
  | O_LiteralInt8 :: _ =>
    match rl with
    | _ :: p1 :: _ :: p3 :: _ :: r => Fuse [] (p3 :: p1 :: byte_of (lit_to s O_LiteralInt8ToGlobal O_LiteralInt8ToLocal) :: r)
    | _ => FuseUB end
  | O_LiteralInt16 :: _ =>
    match rl with
    | _ :: p1 :: _ :: p3 :: p4 :: _ :: r =>
      Fuse [] (p3 :: p4 :: p1 :: byte_of (lit_to s O_LiteralInt16ToGlobal O_LiteralInt16ToLocal) :: r)
    | _ => FuseUB end
  | O_LiteralInt32 :: _ =>
    match rl with
    | _ :: p1 :: _ :: p3 :: p4 :: p5 :: p6 :: _ :: r =>
      Fuse [] (p3 :: p4 :: p5 :: p6 :: p1 :: byte_of (lit_to s O_LiteralInt32ToGlobal O_LiteralInt32ToLocal) :: r)
    | _ => FuseUB end
  | O_LiteralFloat :: _ =>
    match rl with
    | _ :: p1 :: _ :: p3 :: p4 :: p5 :: p6 :: _ :: r =>
      Fuse [] (p3 :: p4 :: p5 :: p6 :: p1 :: byte_of (lit_to s O_LiteralFloatToGlobal O_LiteralFloatToLocal) :: r)
    | _ => FuseUB end
  | O_LiteralZero :: _ =>
    match rl with
    | _ :: p1 :: _ :: _ :: r => Fuse [] (0 :: p1 :: byte_of (lit_to s O_LiteralInt8ToGlobal O_LiteralInt8ToLocal) :: r)
    | _ => FuseUB end
  | O_BinaryDivision :: _ => store O_BinaryDivisionAndStoreGlobal O_BinaryDivisionAndStoreLocal
  | O_BinaryAddition :: _ => store O_BinaryAdditionAndStoreGlobal O_BinaryAdditionAndStoreLocal
  | O_BinaryMultiplication :: _ => store O_BinaryMultiplicationAndStoreGlobal O_BinaryMultiplicationAndStoreLocal
  | O_BinarySubtraction :: _ => store O_BinarySubtractionAndStoreGlobal O_BinarySubtractionAndStoreLocal
  | O_FUNCTION_CALL_PLACEHOLDER :: _ =>
    match s with
    | SG => match rl with
            | _ :: p1 :: _ :: r => Fuse (O_AssignToGlobalAndPop :: o1 :: rest) (p1 :: byte_of O_AssignToGlobalAndPop :: r)
            | _ => FuseUB end
    | SL => default
    end
  | _ => default
  end.

(* PopOne after a compound assignment; optimizer.cpp:1258-1317 *)
Definition pop_form (o : opcode) : option opcode :=
  match o with
  | O_SubtractAssign => Some O_SubtractAssignAndPop | O_AddAssign => Some O_AddAssignAndPop
  | O_ModAssign => Some O_ModAssignAndPop | O_MultiplyAssign => Some O_MultiplyAssignAndPop
  | O_DivideAssign => Some O_DivideAssignAndPop | O_ORAssign => Some O_ORAssignAndPop
  | O_ANDAssign => Some O_ANDAssignAndPop | O_XORAssign => Some O_XORAssignAndPop
  | O_RightShiftAssign => Some O_RightShiftAssignAndPop | O_LeftShiftAssign => Some O_LeftShiftAssignAndPop
  | _ => None
  end.

(* optimizer.cpp:995-1317 *)
Definition fuse_incdec_pop (var_g var_l plain : opcode) (rest : list opcode) (rl : list Z) : fres :=
  match match rest with o1 :: _ => load_of o1 | [] => None end with
  | Some s => match rl with _ :: p1 :: _ :: r => Fuse [] (p1 :: byte_of (lit_to s var_g var_l) :: r) | _ => FuseUB end
  | None => match rl with _ :: r => Fuse (plain :: rest) (byte_of plain :: r) | _ => FuseUB end
  end.
Definition fuse_pop (o0 : opcode) (rest : list opcode) (rl : list Z) : fres :=
  match o0 with
  | O_LoadFromLocal | O_LoadFromGlobal => match rl with _ :: _ :: r => Fuse [] r | _ => FuseUB end
  | O_CallLibFunction =>
    if 5 <? lenZ rl then Fuse (O_CallLibFunctionAndPop :: rest) (Base.upd rl 5 (byte_of O_CallLibFunctionAndPop)) else NoFuse
  | O_FUNCTION_CALL_PLACEHOLDER => match rl with _ :: r => Fuse (o0 :: rest) (byte_of O_PopOne :: r) | _ => FuseUB end
  | O_PreIncrement | O_PostIncrement => fuse_incdec_pop O_IncGlobal O_IncLocal O_PreIncrementAndPop rest rl
  | O_PreDecrement | O_PostDecrement => fuse_incdec_pop O_DecGlobal O_DecLocal O_PreDecrementAndPop rest rl
  | O_Assign =>
    match rest with
    | o1 :: rest' =>
      match load_of o1 with
      | Some s => fuse_assign_pop s rest' o0 o1 rl
      | None => match rl with _ :: r => Fuse (O_AssignAndPop :: rest) (byte_of O_AssignAndPop :: r) | _ => FuseUB end
      end
    | [] => match rl with _ :: r => Fuse (O_AssignAndPop :: rest) (byte_of O_AssignAndPop :: r) | _ => FuseUB end
    end
  | O_LiteralZero => match rl with _ :: r => Fuse [] r | _ => FuseUB end
  | _ =>
    match pop_form o0 with
    | Some op => match rl with _ :: r => Fuse (op :: rest) (byte_of op :: r) | _ => FuseUB end
    | None => NoFuse
    end
  end.

(* the chain of rules, optimizer.cpp:257-1317.  The rules are exclusive in the opcode pushed, except
   that Index tries the two variables first and then the literal. *)
Definition fuse (o : opcode) (ops : list opcode) (rl : list Z) : fres :=
  match ops with
  | [] => NoFuse
  | o0 :: rest =>
    match o with
    | O_Negate => fuse_negate o0 rest rl
    | O_Return => match o0, rl with
                  | O_LiteralZero, _ :: r => Fuse (O_ReturnZero :: rest) (byte_of O_ReturnZero :: r)
                  | O_LiteralZero, _ => FuseUB
                  | _, _ => NoFuse end
    | O_BinaryMultiplication | O_BinaryAddition | O_BinarySubtraction | O_BinaryDivision => fuse_var2 o o0 rest rl
    | O_Index => match fuse_skip O_IndexSkipLoad o0 rest rl with NoFuse => fuse_index o0 rest rl | x => x end
    | O_BZ => fuse_bz o0 rest rl
    | O_PopOne => fuse_pop o0 rest rl
    | _ =>
      match compare_forms o with
      | Some f => fuse_compare f o0 rest rl
      | None => match skip_form o with Some op => fuse_skip op o0 rest rl | None => NoFuse end
      end
    end
  end.

(* optimizer.cpp:257-1322 pushOpcode *)
Definition push_opcode (o : opcode) (b : bcode) : cres bcode :=
  match fuse o (b_ops b) (rev (b_all b)) with
  | Fuse ops rl => COk (set_code b (rev rl) ops)
  | NoFuse => COk (set_code b (b_all b ++ [byte_of o]) (o :: b_ops b))
  | FuseUB => CUB
  end.
(* cc.h: pushData *)
Definition push_data (d : list Z) (b : bcode) : bcode := set_code b (b_all b ++ d) (b_ops b).

(* ---- relative jumps ---- *)
(* cc.cpp:346-350 addRelativeJumpTarget *)
Definition add_target (b : bcode) : bcode * nat :=
  (set_jumps b (b_jumps b ++ [mkJ 0 [] 0]), length (b_jumps b)).
(* cc.cpp:353-356 setRelativeJumpTarget *)
Definition set_target (t : nat) (b : bcode) : cres bcode :=
  match nth_error (b_jumps b) t with
  | Some j => COk (set_jumps b (Base.upd (b_jumps b) t (mkJ (size b) (j_refs j) (j_goto j))))
  | None => CUB
  end.
Definition add_ref (t : nat) (off : Z) (b : bcode) : cres bcode :=
  match nth_error (b_jumps b) t with
  | Some j => COk (set_jumps b (Base.upd (b_jumps b) t (mkJ (j_off j) (j_refs j ++ [off]) (j_goto j))))
  | None => CUB
  end.
(* how far behind the opcode the displacement sits, and whether there is no short form;
   cc.cpp:441-525 *)
Definition diff_adjust (o : opcode) : Z * bool :=
  match o with
  | O_GSCompareEQBZ8 | O_LSCompareEQBZ8 | O_GSCompareNEBZ8 | O_LSCompareNEBZ8 | O_GSCompareGEBZ8
  | O_LSCompareGEBZ8 | O_GSCompareLEBZ8 | O_LSCompareLEBZ8 | O_GSCompareGTBZ8 | O_LSCompareGTBZ8
  | O_GSCompareLTBZ8 | O_LSCompareLTBZ8 | O_GSCompareEQBZ | O_LSCompareEQBZ | O_GSCompareNEBZ
  | O_LSCompareNEBZ | O_GSCompareGEBZ | O_LSCompareGEBZ | O_GSCompareLEBZ | O_LSCompareLEBZ | O_GSCompareGTBZ
  | O_LSCompareGTBZ | O_GSCompareLTBZ | O_LSCompareLTBZ | O_LocalBZ | O_LocalBZ8 | O_GlobalBZ | O_GlobalBZ8 => (1, false)
  | O_LLCompareLTBZ8 | O_LLCompareGTBZ8 | O_LLCompareLEBZ8 | O_LLCompareGEBZ8 | O_LLCompareEQBZ8
  | O_LLCompareNEBZ8 | O_GGCompareLTBZ8 | O_GGCompareGTBZ8 | O_GGCompareLEBZ8 | O_GGCompareGEBZ8
  | O_GGCompareEQBZ8 | O_GGCompareNEBZ8 | O_LLCompareLTBZ | O_LLCompareGTBZ | O_LLCompareLEBZ
  | O_LLCompareGEBZ | O_LLCompareEQBZ | O_LLCompareNEBZ | O_GGCompareLTBZ | O_GGCompareGTBZ | O_GGCompareLEBZ
  | O_GGCompareGEBZ | O_GGCompareEQBZ | O_GGCompareNEBZ => (2, false)
  | O_GGNextKeyValueOrJump | O_GLNextKeyValueOrJump | O_LGNextKeyValueOrJump | O_LLNextKeyValueOrJump => (3, true)
  | O_GNextValueOrJump | O_LNextValueOrJump => (2, true)
  | _ => (0, false)
  end.
(* the opcode of the 8 bit form, and how far behind the opcode it is patched; cc.cpp:528-624 *)
Definition short_form (o : opcode) : option (opcode * Z) :=
  match o with
  | O_RelativeJump => Some (O_RelativeJump8, 0) | O_BZ => Some (O_BZ8, 0)
  | O_CompareBEQ => Some (O_CompareBEQ8, 0) | O_CompareBNE => Some (O_CompareBNE8, 0)
  | O_CompareBGE => Some (O_CompareBGE8, 0) | O_CompareBLE => Some (O_CompareBLE8, 0)
  | O_CompareBGT => Some (O_CompareBGT8, 0) | O_CompareBLT => Some (O_CompareBLT8, 0)
  | O_BLA => Some (O_BLA8, 0) | O_BLO => Some (O_BLO8, 0) | O_GSCompareEQBZ => Some (O_GSCompareEQBZ8, 1)
  | O_LSCompareEQBZ => Some (O_LSCompareEQBZ8, 1) | O_GSCompareNEBZ => Some (O_GSCompareNEBZ8, 1)
  | O_LSCompareNEBZ => Some (O_LSCompareNEBZ8, 1) | O_GSCompareGEBZ => Some (O_GSCompareGEBZ8, 1)
  | O_LSCompareGEBZ => Some (O_LSCompareGEBZ8, 1) | O_GSCompareLEBZ => Some (O_GSCompareLEBZ8, 1)
  | O_LSCompareLEBZ => Some (O_LSCompareLEBZ8, 1) | O_GSCompareGTBZ => Some (O_GSCompareGTBZ8, 1)
  | O_LSCompareGTBZ => Some (O_LSCompareGTBZ8, 1) | O_GSCompareLTBZ => Some (O_GSCompareLTBZ8, 1)
  | O_LSCompareLTBZ => Some (O_LSCompareLTBZ8, 1) | O_LocalBZ => Some (O_LocalBZ8, 1)
  | O_GlobalBZ => Some (O_GlobalBZ8, 1) | O_LLCompareLTBZ => Some (O_LLCompareLTBZ8, 2)
  | O_LLCompareGTBZ => Some (O_LLCompareGTBZ8, 2) | O_LLCompareLEBZ => Some (O_LLCompareLEBZ8, 2)
  | O_LLCompareGEBZ => Some (O_LLCompareGEBZ8, 2) | O_LLCompareEQBZ => Some (O_LLCompareEQBZ8, 2)
  | O_LLCompareNEBZ => Some (O_LLCompareNEBZ8, 2) | O_GGCompareLTBZ => Some (O_GGCompareLTBZ8, 2)
  | O_GGCompareGTBZ => Some (O_GGCompareGTBZ8, 2) | O_GGCompareLEBZ => Some (O_GGCompareLEBZ8, 2)
  | O_GGCompareGEBZ => Some (O_GGCompareGEBZ8, 2) | O_GGCompareEQBZ => Some (O_GGCompareEQBZ8, 2)
  | O_GGCompareNEBZ => Some (O_GGCompareNEBZ8, 2) | O_RelativeJump8 => Some (O_RelativeJump8, 0)
  | O_BZ8 => Some (O_BZ8, 0) | O_CompareBEQ8 => Some (O_CompareBEQ8, 0)
  | O_CompareBNE8 => Some (O_CompareBNE8, 0) | O_CompareBGE8 => Some (O_CompareBGE8, 0)
  | O_CompareBLE8 => Some (O_CompareBLE8, 0) | O_CompareBGT8 => Some (O_CompareBGT8, 0)
  | O_CompareBLT8 => Some (O_CompareBLT8, 0) | O_BLA8 => Some (O_BLA8, 0) | O_BLO8 => Some (O_BLO8, 0)
  | O_GSCompareEQBZ8 => Some (O_GSCompareEQBZ8, 1) | O_LSCompareEQBZ8 => Some (O_LSCompareEQBZ8, 1)
  | O_GSCompareNEBZ8 => Some (O_GSCompareNEBZ8, 1) | O_LSCompareNEBZ8 => Some (O_LSCompareNEBZ8, 1)
  | O_GSCompareGEBZ8 => Some (O_GSCompareGEBZ8, 1) | O_LSCompareGEBZ8 => Some (O_LSCompareGEBZ8, 1)
  | O_GSCompareLEBZ8 => Some (O_GSCompareLEBZ8, 1) | O_LSCompareLEBZ8 => Some (O_LSCompareLEBZ8, 1)
  | O_GSCompareGTBZ8 => Some (O_GSCompareGTBZ8, 1) | O_LSCompareGTBZ8 => Some (O_LSCompareGTBZ8, 1)
  | O_GSCompareLTBZ8 => Some (O_GSCompareLTBZ8, 1) | O_LSCompareLTBZ8 => Some (O_LSCompareLTBZ8, 1)
  | O_LocalBZ8 => Some (O_LocalBZ8, 1) | O_GlobalBZ8 => Some (O_GlobalBZ8, 1)
  | O_LLCompareLTBZ8 => Some (O_LLCompareLTBZ8, 2) | O_LLCompareGTBZ8 => Some (O_LLCompareGTBZ8, 2)
  | O_LLCompareLEBZ8 => Some (O_LLCompareLEBZ8, 2) | O_LLCompareGEBZ8 => Some (O_LLCompareGEBZ8, 2)
  | O_LLCompareEQBZ8 => Some (O_LLCompareEQBZ8, 2) | O_LLCompareNEBZ8 => Some (O_LLCompareNEBZ8, 2)
  | O_GGCompareLTBZ8 => Some (O_GGCompareLTBZ8, 2) | O_GGCompareGTBZ8 => Some (O_GGCompareGTBZ8, 2)
  | O_GGCompareLEBZ8 => Some (O_GGCompareLEBZ8, 2) | O_GGCompareGEBZ8 => Some (O_GGCompareGEBZ8, 2)
  | O_GGCompareEQBZ8 => Some (O_GGCompareEQBZ8, 2) | O_GGCompareNEBZ8 => Some (O_GGCompareNEBZ8, 2)
  | _ => None
  end.
(* likewise for the 16 bit form; cc.cpp:633-746 *)
Definition long_form (o : opcode) : option (opcode * Z) :=
  match o with
  | O_RelativeJump8 => Some (O_RelativeJump, 0) | O_BZ8 => Some (O_BZ, 0)
  | O_CompareBEQ8 => Some (O_CompareBEQ, 0) | O_CompareBNE8 => Some (O_CompareBNE, 0)
  | O_CompareBGE8 => Some (O_CompareBGE, 0) | O_CompareBLE8 => Some (O_CompareBLE, 0)
  | O_CompareBGT8 => Some (O_CompareBGT, 0) | O_CompareBLT8 => Some (O_CompareBLT, 0)
  | O_BLA8 => Some (O_BLA, 0) | O_BLO8 => Some (O_BLO, 0) | O_GSCompareEQBZ8 => Some (O_GSCompareEQBZ, 1)
  | O_LSCompareEQBZ8 => Some (O_LSCompareEQBZ, 1) | O_GSCompareNEBZ8 => Some (O_GSCompareNEBZ, 1)
  | O_LSCompareNEBZ8 => Some (O_LSCompareNEBZ, 1) | O_GSCompareGEBZ8 => Some (O_GSCompareGEBZ, 1)
  | O_LSCompareGEBZ8 => Some (O_LSCompareGEBZ, 1) | O_GSCompareLEBZ8 => Some (O_GSCompareLEBZ, 1)
  | O_LSCompareLEBZ8 => Some (O_LSCompareLEBZ, 1) | O_GSCompareGTBZ8 => Some (O_GSCompareGTBZ, 1)
  | O_LSCompareGTBZ8 => Some (O_LSCompareGTBZ, 1) | O_GSCompareLTBZ8 => Some (O_GSCompareLTBZ, 1)
  | O_LSCompareLTBZ8 => Some (O_LSCompareLTBZ, 1) | O_LocalBZ8 => Some (O_LocalBZ, 1)
  | O_GlobalBZ8 => Some (O_GlobalBZ, 1) | O_LLCompareLTBZ8 => Some (O_LLCompareLTBZ, 2)
  | O_LLCompareGTBZ8 => Some (O_LLCompareGTBZ, 2) | O_LLCompareLEBZ8 => Some (O_LLCompareLEBZ, 2)
  | O_LLCompareGEBZ8 => Some (O_LLCompareGEBZ, 2) | O_LLCompareEQBZ8 => Some (O_LLCompareEQBZ, 2)
  | O_LLCompareNEBZ8 => Some (O_LLCompareNEBZ, 2) | O_GGCompareLTBZ8 => Some (O_GGCompareLTBZ, 2)
  | O_GGCompareGTBZ8 => Some (O_GGCompareGTBZ, 2) | O_GGCompareLEBZ8 => Some (O_GGCompareLEBZ, 2)
  | O_GGCompareGEBZ8 => Some (O_GGCompareGEBZ, 2) | O_GGCompareEQBZ8 => Some (O_GGCompareEQBZ, 2)
  | O_GGCompareNEBZ8 => Some (O_GGCompareNEBZ, 2) | O_GGNextKeyValueOrJump => Some (O_GGNextKeyValueOrJump, 3)
  | O_GLNextKeyValueOrJump => Some (O_GLNextKeyValueOrJump, 3)
  | O_LGNextKeyValueOrJump => Some (O_LGNextKeyValueOrJump, 3)
  | O_LLNextKeyValueOrJump => Some (O_LLNextKeyValueOrJump, 3)
  | O_GNextValueOrJump => Some (O_GNextValueOrJump, 2) | O_LNextValueOrJump => Some (O_LNextValueOrJump, 2)
  | O_RelativeJump => Some (O_RelativeJump, 0) | O_BZ => Some (O_BZ, 0)
  | O_CompareBEQ => Some (O_CompareBEQ, 0) | O_CompareBNE => Some (O_CompareBNE, 0)
  | O_CompareBGE => Some (O_CompareBGE, 0) | O_CompareBLE => Some (O_CompareBLE, 0)
  | O_CompareBGT => Some (O_CompareBGT, 0) | O_CompareBLT => Some (O_CompareBLT, 0) | O_BLA => Some (O_BLA, 0)
  | O_BLO => Some (O_BLO, 0) | O_GSCompareEQBZ => Some (O_GSCompareEQBZ, 1)
  | O_LSCompareEQBZ => Some (O_LSCompareEQBZ, 1) | O_GSCompareNEBZ => Some (O_GSCompareNEBZ, 1)
  | O_LSCompareNEBZ => Some (O_LSCompareNEBZ, 1) | O_GSCompareGEBZ => Some (O_GSCompareGEBZ, 1)
  | O_LSCompareGEBZ => Some (O_LSCompareGEBZ, 1) | O_GSCompareLEBZ => Some (O_GSCompareLEBZ, 1)
  | O_LSCompareLEBZ => Some (O_LSCompareLEBZ, 1) | O_GSCompareGTBZ => Some (O_GSCompareGTBZ, 1)
  | O_LSCompareGTBZ => Some (O_LSCompareGTBZ, 1) | O_GSCompareLTBZ => Some (O_GSCompareLTBZ, 1)
  | O_LSCompareLTBZ => Some (O_LSCompareLTBZ, 1) | O_LocalBZ => Some (O_LocalBZ, 1)
  | O_GlobalBZ => Some (O_GlobalBZ, 1) | O_LLCompareLTBZ => Some (O_LLCompareLTBZ, 2)
  | O_LLCompareGTBZ => Some (O_LLCompareGTBZ, 2) | O_LLCompareLEBZ => Some (O_LLCompareLEBZ, 2)
  | O_LLCompareGEBZ => Some (O_LLCompareGEBZ, 2) | O_LLCompareEQBZ => Some (O_LLCompareEQBZ, 2)
  | O_LLCompareNEBZ => Some (O_LLCompareNEBZ, 2) | O_GGCompareLTBZ => Some (O_GGCompareLTBZ, 2)
  | O_GGCompareGTBZ => Some (O_GGCompareGTBZ, 2) | O_GGCompareLEBZ => Some (O_GGCompareLEBZ, 2)
  | O_GGCompareGEBZ => Some (O_GGCompareGEBZ, 2) | O_GGCompareEQBZ => Some (O_GGCompareEQBZ, 2)
  | O_GGCompareNEBZ => Some (O_GGCompareNEBZ, 2)
  | _ => None
  end.
(* where the first operand byte of the last instruction is, counted from the end; cc.cpp:382-422 *)
Definition source_back (o : opcode) : Z :=
  match o with
  | O_GSCompareEQBZ | O_LSCompareEQBZ | O_GSCompareNEBZ | O_LSCompareNEBZ | O_GSCompareGEBZ | O_LSCompareGEBZ
  | O_GSCompareLEBZ | O_LSCompareLEBZ | O_GSCompareGTBZ | O_LSCompareGTBZ | O_GSCompareLTBZ | O_LSCompareLTBZ
  | O_LocalBZ | O_GlobalBZ => 1
  | O_LLCompareLTBZ | O_LLCompareGTBZ | O_LLCompareLEBZ | O_LLCompareGEBZ | O_LLCompareEQBZ | O_LLCompareNEBZ
  | O_GGCompareLTBZ | O_GGCompareGTBZ | O_GGCompareLEBZ | O_GGCompareGEBZ | O_GGCompareEQBZ | O_GGCompareNEBZ => 2
  | _ => 0
  end.

(* cc.cpp:359-373 addRelativeJumpSourceEx *)
Definition add_source_ex (o : opcode) (t : nat) (d : list Z) (b : bcode) : cres bcode :=
  b1 <~ push_opcode o b ;;
  b2 <~ add_ref t (size b1) (push_data d b1) ;;
  COk (push_data [9; 9] b2).
(* cc.cpp:378-426 addRelativeJumpSource *)
Definition add_source (o : opcode) (t : nat) (b : bcode) : cres bcode :=
  b1 <~ push_opcode o b ;;
  match b_ops b1 with
  | [] => CUB
  | o0 :: _ => b2 <~ add_ref t (size b1 - source_back o0) b1 ;; COk (push_data [9; 9] b2)
  end.

(* all[i] = v *)
Definition put (l : list Z) (i v : Z) : cres (list Z) :=
  if (0 <=? i) && (i <? lenZ l) then COk (Base.upd l (Z.to_nat i) v) else CUB.
(* cc.cpp:429-752, one reference [ref] of a target at [off] *)
Definition resolve_one (off ref : Z) (l : list Z) : cres (list Z) :=
  match nthZ l (ref - 1) with
  | None => CUB
  | Some ob =>
    let o := opcode_of ob in
    let '(adj, no8) := match o with Some o => diff_adjust o | None => (0, false) end in
    let diff := off - ref - adj in
    if (diff <? 128) && (-129 <? diff) && negb no8 then
      match match o with Some o => short_form o | None => None end with
      | Some (o', k) => l1 <~ put l (ref - 1) (byte_of o') ;; put l1 (ref + k) (u8 diff)
      | None => CErr E_compiler_panic
      end
    else if (diff <? -32768) || (32767 <? diff) then CErr E_bad_goto_location
    else
      match match o with Some o => long_form o | None => None end with
      | Some (o', k) => l1 <~ put l (ref - 1) (byte_of o') ;;
                        l2 <~ put l1 (ref + k) (u8 diff) ;; put l2 (ref + k + 1) (u8 (diff / 256))
      | None => CErr E_compiler_panic
      end
  end.
Fixpoint resolve_refs (off : Z) (refs : list Z) (l : list Z) : cres (list Z) :=
  match refs with [] => COk l | r :: rs => l1 <~ resolve_one off r l ;; resolve_refs off rs l1 end.
Fixpoint resolve_targets (js : list jtarget) (l : list Z) : cres (list Z) :=
  match js with [] => COk l | j :: rs => l1 <~ resolve_refs (j_off j) (j_refs j) l ;; resolve_targets rs l1 end.
Definition resolve_jumps (b : bcode) : cres bcode :=
  l <~ resolve_targets (b_jumps b) (b_all b) ;; COk (set_code b l (b_ops b)).

(* ---- appendBytecode, optimizer.cpp:1326-1591 ---- *)
Definition shift_refs (n : Z) (x : Z * list Z) : Z * list Z := (fst x, map (fun r => r + n) (snd x)).
Definition merge_locals (a b : list Z) : list Z :=
  fold_left (fun acc h => if existsb (Z.eqb h) acc then acc else acc ++ [h]) b a.
(* the name spaces and goto labels of [add], moved to the end of [b]; 1327-1392 *)
Definition merge_spaces (b add : bcode) : bcode :=
  let n := size b in
  mkB (b_all b) (b_ops b)
      (merge_locals (b_locals b) (b_locals add))
      (b_fns b ++ map (shift_refs n) (b_fns add))
      (b_objs b ++ map (shift_refs n) (b_objs add))
      (b_jumps b ++ map (fun j => mkJ (j_off j + n) [] (j_goto j)) (filter (fun j => negb (j_goto j =? 0)) (b_jumps add)))
      (b_gotos b ++ map (fun g => (fst g, snd g + n)) (b_gotos add)).
Definition append_plain (b add : bcode) : cres bcode :=
  a <~ resolve_jumps add ;;
  COk (set_code b (b_all b ++ b_all a) (b_ops a ++ b_ops b)).
Definition append_bytecode (b0 add : bcode) : cres bcode :=
  let b := merge_spaces b0 add in
  let no_goto := match b_gotos add with [] => true | _ => false end in
  let top := match b_ops b with o :: _ => load_of o | [] => None end in
  match top, b_ops add, b_all add, rev (b_all b), no_goto with
  (* [load] and [IndexLiteral16/8 k] *)
  | Some s, [O_IndexLiteral16], _ :: x :: y :: more, p0 :: _ :: r, true =>
    let op := lit_to s O_IndexGlobalLiteral16 O_IndexLocalLiteral16 in
    COk (set_code b (rev r ++ byte_of op :: p0 :: x :: y :: more) [op])
  | Some s, [O_IndexLiteral8], _ :: x :: more, p0 :: _ :: r, true =>
    let op := lit_to s O_IndexGlobalLiteral8 O_IndexLocalLiteral8 in
    COk (set_code b (rev r ++ byte_of op :: p0 :: x :: more) [op])
  (* [load] and [load, Index] *)
  | Some s, [O_Index; o0], [_; x; _], p0 :: _ :: r, true =>
    match load_of o0 with
    | Some s' =>
      COk (set_code b (rev r ++ [byte_of (values_op s' s); x; p0; byte_of O_IndexSkipLoad])
                      (O_IndexSkipLoad :: o0 :: b_ops b))
    | None => append_plain b add
    end
  | _, _, _, _, _ =>
    match b_ops add, b_all add with
    | o :: _, [_] =>
      if op_eqb (last (b_ops add) o) O_HASH_PLACEHOLDER then
        match b_ops b, rev (b_all b) with
        | O_LoadFromLocal :: O_LiteralInt32 :: _, p0 :: _ :: p2 :: p3 :: p4 :: p5 :: _ :: r =>
          COk (set_code b (rev r ++ [byte_of O_LocalIndexHash; p0; p5; p4; p3; p2]) [])
        | O_LoadFromGlobal :: O_LiteralInt32 :: _, p0 :: _ :: p2 :: p3 :: p4 :: p5 :: _ :: r =>
          COk (set_code b (rev r ++ [byte_of O_GlobalIndexHash; p0; p5; p4; p3; p2]) [])
        | O_StackSwap :: O_LiteralInt32 :: _, _ :: _ :: p2 :: p3 :: p4 :: p5 :: _ :: r =>
          COk (set_code b (rev r ++ [byte_of O_StackIndexHash; p5; p4; p3; p2]) [])
        | _, _ => CErr E_compiler_panic
        end
      else push_opcode (last (b_ops add) o) b
    | [], [_] => CUB
    | _, _ => append_plain b add
    end
  end.
