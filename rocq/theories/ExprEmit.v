(* The byte code of an expression: what each action of ExprModel appends (cc/cc.cpp:755-800, 968-1082,
   1143-1390).  Simplifications: labels are already looked up (the search of the name spaces is
   addLocalSpaceLoad, cc/cc.cpp:830-966); literals are integers. *)
From Coq Require Import String.
From Verif Require Import Base HashModel OpsModel VmModel EmitModel ExprModel.
Open Scope string_scope. Open Scope list_scope. Open Scope Z_scope.

Inductive operand :=
| OInt (z : Z)                 (* EXTYPE_LITERAL *)
| OVar (s : space) (n : Z)     (* EXTYPE_LABEL *)
| OCode (b : bcode).           (* EXTYPE_BYTECODE_RESULT: a call, a parenthesis, ... *)
(* an operand and the hash of its token *)
Record term := mkTerm { t_hash : Z; t_operand : operand }.

(* cc.cpp:755-800 pushLiteral *)
Definition push_literal (z : Z) (b : bcode) : cres bcode :=
  if z =? 0 then push_opcode O_LiteralZero b
  else if (z <=? 127) && (-128 <=? z) then b1 <~ push_opcode O_LiteralInt8 b ;; COk (push_data [u8 z] b1)
  else if (z <=? 32767) && (-32768 <=? z) then b1 <~ push_opcode O_LiteralInt16 b ;; COk (push_data (wr_pack16 z) b1)
  else b1 <~ push_opcode O_LiteralInt32 b ;; COk (push_data (wr_pack32 z) b1).
(* cc.cpp:984-1033 *)
Definition emit_term (t : term) (b : bcode) : cres bcode :=
  match t_operand t with
  | OInt z => push_literal z b
  | OVar s n => b1 <~ push_opcode (match s with SL => O_LoadFromLocal | SG => O_LoadFromGlobal end) b ;; COk (push_data [u8 n] b1)
  | OCode c => append_bytecode b c
  end.
Definition emit_action (a : action term) (b : bcode) : cres bcode :=
  match a with
  | ALoad t => emit_term t b
  | AHash (KLeaf t) => b1 <~ push_opcode O_LiteralInt32 b ;; COk (push_data (wr_pack32 (t_hash t)) b1)   (* cc.cpp:975-980 *)
  | AHash _ => CErr E_bad_expression
  | ASwap n => b1 <~ push_opcode O_StackSwap b ;; COk (push_data [n] b1)                  (* cc.cpp:1074-1079 *)
  | ASwap2 n m => b1 <~ push_opcode O_SwapTwoToTop b ;; COk (push_data [n; m] b1)         (* cc.cpp:1225-1229, 1322-1326, 1336-1340 *)
  | AAlt c => push_opcode c b                                                             (* cc.cpp:1349 *)
  | AOp q _ =>                                                                            (* cc.cpp:1411, 1353 *)
    c <~ push_opcode (o_code q) empty_bc ;; append_bytecode b c
  end.
Fixpoint emit (l : list (action term)) (b : bcode) : cres bcode :=
  match l with [] => COk b | a :: r => b1 <~ emit_action a b ;; emit r b1 end.
Definition expression_code (l : list (item term)) : cres bcode :=
  a <~ parse_expression l ;; emit a empty_bc.
