(* The interpreter: wr_callFunction of vm/vm.cpp (full, non-compact build), on the memory and the
   operators of OpsModel and the [] operator of ArrayModel.

   Modelled: byte code decoding, the operand stack, loads, literals, operators, comparisons,
   branches, assignments, calls between script functions, return, calls of library and native
   functions (whose bodies are parameters), switch, yield and resume, forced yields
   (WRENCH_TIME_SLICES), the stack check (WRENCH_PROTECT_STACK_FROM_OVERFLOW).
   Not modelled (parameter [ext]): structs, hash literals and hash members, iterators, library constants,
   _remove/_exists/_count, imported contexts, the debugger.  Garbage collection is the identity here
   (GCModel).  Allocation failure is not modelled. *)
From Verif Require Import Base HashModel FloatModel OpsModel ArrayModel.

(* utils/opcode.h:29-340, in this order *)
Inductive opcode :=
| O_Yield | O_LiteralInt32 | O_LiteralZero | O_LiteralFloat
| O_LiteralString | O_CallFunctionByHash | O_CallFunctionByHashAndPop | O_CallFunctionByIndex
| O_PushIndexFunctionReturnValue | O_CallLibFunction | O_CallLibFunctionAndPop | O_NewObjectTable
| O_AssignToObjectTableByOffset | O_AssignToObjectTableByHash | O_AssignToHashTableAndPop | O_Remove
| O_HashEntryExists | O_PopOne | O_ReturnZero | O_Return
| O_Stop | O_Dereference | O_Index | O_IndexSkipLoad
| O_CountOf | O_HashOf | O_StackIndexHash | O_GlobalIndexHash
| O_LocalIndexHash | O_StackSwap | O_SwapTwoToTop | O_LoadFromLocal
| O_LoadFromGlobal | O_LLValues | O_LGValues | O_GLValues
| O_GGValues | O_BinaryRightShiftSkipLoad | O_BinaryLeftShiftSkipLoad | O_BinaryAndSkipLoad
| O_BinaryOrSkipLoad | O_BinaryXORSkipLoad | O_BinaryModSkipLoad | O_BinaryMultiplication
| O_BinarySubtraction | O_BinaryDivision | O_BinaryRightShift | O_BinaryLeftShift
| O_BinaryMod | O_BinaryOr | O_BinaryXOR | O_BinaryAnd
| O_BinaryAddition | O_BitwiseNOT | O_RelativeJump | O_RelativeJump8
| O_BZ | O_BZ8 | O_LogicalAnd | O_LogicalOr
| O_CompareLE | O_CompareGE | O_CompareGT | O_CompareLT
| O_CompareEQ | O_CompareNE | O_GGCompareGT | O_GGCompareGE
| O_GGCompareLT | O_GGCompareLE | O_GGCompareEQ | O_GGCompareNE
| O_LLCompareGT | O_LLCompareGE | O_LLCompareLT | O_LLCompareLE
| O_LLCompareEQ | O_LLCompareNE | O_GSCompareEQ | O_LSCompareEQ
| O_GSCompareNE | O_LSCompareNE | O_GSCompareGE | O_LSCompareGE
| O_GSCompareLE | O_LSCompareLE | O_GSCompareGT | O_LSCompareGT
| O_GSCompareLT | O_LSCompareLT | O_GSCompareEQBZ | O_LSCompareEQBZ
| O_GSCompareNEBZ | O_LSCompareNEBZ | O_GSCompareGEBZ | O_LSCompareGEBZ
| O_GSCompareLEBZ | O_LSCompareLEBZ | O_GSCompareGTBZ | O_LSCompareGTBZ
| O_GSCompareLTBZ | O_LSCompareLTBZ | O_GSCompareEQBZ8 | O_LSCompareEQBZ8
| O_GSCompareNEBZ8 | O_LSCompareNEBZ8 | O_GSCompareGEBZ8 | O_LSCompareGEBZ8
| O_GSCompareLEBZ8 | O_LSCompareLEBZ8 | O_GSCompareGTBZ8 | O_LSCompareGTBZ8
| O_GSCompareLTBZ8 | O_LSCompareLTBZ8 | O_LLCompareLTBZ | O_LLCompareLEBZ
| O_LLCompareGTBZ | O_LLCompareGEBZ | O_LLCompareEQBZ | O_LLCompareNEBZ
| O_GGCompareLTBZ | O_GGCompareLEBZ | O_GGCompareGTBZ | O_GGCompareGEBZ
| O_GGCompareEQBZ | O_GGCompareNEBZ | O_LLCompareLTBZ8 | O_LLCompareLEBZ8
| O_LLCompareGTBZ8 | O_LLCompareGEBZ8 | O_LLCompareEQBZ8 | O_LLCompareNEBZ8
| O_GGCompareLTBZ8 | O_GGCompareLEBZ8 | O_GGCompareGTBZ8 | O_GGCompareGEBZ8
| O_GGCompareEQBZ8 | O_GGCompareNEBZ8 | O_PostIncrement | O_PostDecrement
| O_PreIncrement | O_PreDecrement | O_PreIncrementAndPop | O_PreDecrementAndPop
| O_IncGlobal | O_DecGlobal | O_IncLocal | O_DecLocal
| O_Assign | O_AssignAndPop | O_AssignToGlobalAndPop | O_AssignToLocalAndPop
| O_AssignToArrayAndPop | O_SubtractAssign | O_AddAssign | O_ModAssign
| O_MultiplyAssign | O_DivideAssign | O_ORAssign | O_ANDAssign
| O_XORAssign | O_RightShiftAssign | O_LeftShiftAssign | O_SubtractAssignAndPop
| O_AddAssignAndPop | O_ModAssignAndPop | O_MultiplyAssignAndPop | O_DivideAssignAndPop
| O_ORAssignAndPop | O_ANDAssignAndPop | O_XORAssignAndPop | O_RightShiftAssignAndPop
| O_LeftShiftAssignAndPop | O_LogicalNot | O_Negate | O_LiteralInt8
| O_LiteralInt16 | O_IndexLiteral8 | O_IndexLiteral16 | O_IndexLocalLiteral8
| O_IndexGlobalLiteral8 | O_IndexLocalLiteral16 | O_IndexGlobalLiteral16 | O_BinaryAdditionAndStoreGlobal
| O_BinarySubtractionAndStoreGlobal | O_BinaryMultiplicationAndStoreGlobal | O_BinaryDivisionAndStoreGlobal | O_BinaryAdditionAndStoreLocal
| O_BinarySubtractionAndStoreLocal | O_BinaryMultiplicationAndStoreLocal | O_BinaryDivisionAndStoreLocal | O_CompareBEQ
| O_CompareBNE | O_CompareBGE | O_CompareBLE | O_CompareBGT
| O_CompareBLT | O_CompareBEQ8 | O_CompareBNE8 | O_CompareBGE8
| O_CompareBLE8 | O_CompareBGT8 | O_CompareBLT8 | O_BLA
| O_BLA8 | O_BLO | O_BLO8 | O_LiteralInt8ToGlobal
| O_LiteralInt16ToGlobal | O_LiteralInt32ToLocal | O_LiteralInt8ToLocal | O_LiteralInt16ToLocal
| O_LiteralFloatToGlobal | O_LiteralFloatToLocal | O_LiteralInt32ToGlobal | O_GGBinaryMultiplication
| O_GLBinaryMultiplication | O_LLBinaryMultiplication | O_GGBinaryAddition | O_GLBinaryAddition
| O_LLBinaryAddition | O_GGBinarySubtraction | O_GLBinarySubtraction | O_LGBinarySubtraction
| O_LLBinarySubtraction | O_GGBinaryDivision | O_GLBinaryDivision | O_LGBinaryDivision
| O_LLBinaryDivision | O_GPushIterator | O_LPushIterator | O_GGNextKeyValueOrJump
| O_GLNextKeyValueOrJump | O_LGNextKeyValueOrJump | O_LLNextKeyValueOrJump | O_GNextValueOrJump
| O_LNextValueOrJump | O_Switch | O_SwitchLinear | O_GlobalStop
| O_ToInt | O_ToFloat | O_LoadLibConstant | O_InitArray
| O_InitVar | O_DebugInfo | O_LocalBZ | O_LocalBZ8
| O_GlobalBZ | O_GlobalBZ8 | O_HASH_PLACEHOLDER | O_FUNCTION_CALL_PLACEHOLDER
| O_LAST.

(* the 250 opcodes the interpreter dispatches on, vm/vm.cpp:302-612 (same order as the enum) *)
Definition all_opcodes : list opcode :=
  [O_Yield; O_LiteralInt32; O_LiteralZero; O_LiteralFloat;
   O_LiteralString; O_CallFunctionByHash; O_CallFunctionByHashAndPop; O_CallFunctionByIndex;
   O_PushIndexFunctionReturnValue; O_CallLibFunction; O_CallLibFunctionAndPop; O_NewObjectTable;
   O_AssignToObjectTableByOffset; O_AssignToObjectTableByHash; O_AssignToHashTableAndPop; O_Remove;
   O_HashEntryExists; O_PopOne; O_ReturnZero; O_Return;
   O_Stop; O_Dereference; O_Index; O_IndexSkipLoad;
   O_CountOf; O_HashOf; O_StackIndexHash; O_GlobalIndexHash;
   O_LocalIndexHash; O_StackSwap; O_SwapTwoToTop; O_LoadFromLocal;
   O_LoadFromGlobal; O_LLValues; O_LGValues; O_GLValues;
   O_GGValues; O_BinaryRightShiftSkipLoad; O_BinaryLeftShiftSkipLoad; O_BinaryAndSkipLoad;
   O_BinaryOrSkipLoad; O_BinaryXORSkipLoad; O_BinaryModSkipLoad; O_BinaryMultiplication;
   O_BinarySubtraction; O_BinaryDivision; O_BinaryRightShift; O_BinaryLeftShift;
   O_BinaryMod; O_BinaryOr; O_BinaryXOR; O_BinaryAnd;
   O_BinaryAddition; O_BitwiseNOT; O_RelativeJump; O_RelativeJump8;
   O_BZ; O_BZ8; O_LogicalAnd; O_LogicalOr;
   O_CompareLE; O_CompareGE; O_CompareGT; O_CompareLT;
   O_CompareEQ; O_CompareNE; O_GGCompareGT; O_GGCompareGE;
   O_GGCompareLT; O_GGCompareLE; O_GGCompareEQ; O_GGCompareNE;
   O_LLCompareGT; O_LLCompareGE; O_LLCompareLT; O_LLCompareLE;
   O_LLCompareEQ; O_LLCompareNE; O_GSCompareEQ; O_LSCompareEQ;
   O_GSCompareNE; O_LSCompareNE; O_GSCompareGE; O_LSCompareGE;
   O_GSCompareLE; O_LSCompareLE; O_GSCompareGT; O_LSCompareGT;
   O_GSCompareLT; O_LSCompareLT; O_GSCompareEQBZ; O_LSCompareEQBZ;
   O_GSCompareNEBZ; O_LSCompareNEBZ; O_GSCompareGEBZ; O_LSCompareGEBZ;
   O_GSCompareLEBZ; O_LSCompareLEBZ; O_GSCompareGTBZ; O_LSCompareGTBZ;
   O_GSCompareLTBZ; O_LSCompareLTBZ; O_GSCompareEQBZ8; O_LSCompareEQBZ8;
   O_GSCompareNEBZ8; O_LSCompareNEBZ8; O_GSCompareGEBZ8; O_LSCompareGEBZ8;
   O_GSCompareLEBZ8; O_LSCompareLEBZ8; O_GSCompareGTBZ8; O_LSCompareGTBZ8;
   O_GSCompareLTBZ8; O_LSCompareLTBZ8; O_LLCompareLTBZ; O_LLCompareLEBZ;
   O_LLCompareGTBZ; O_LLCompareGEBZ; O_LLCompareEQBZ; O_LLCompareNEBZ;
   O_GGCompareLTBZ; O_GGCompareLEBZ; O_GGCompareGTBZ; O_GGCompareGEBZ;
   O_GGCompareEQBZ; O_GGCompareNEBZ; O_LLCompareLTBZ8; O_LLCompareLEBZ8;
   O_LLCompareGTBZ8; O_LLCompareGEBZ8; O_LLCompareEQBZ8; O_LLCompareNEBZ8;
   O_GGCompareLTBZ8; O_GGCompareLEBZ8; O_GGCompareGTBZ8; O_GGCompareGEBZ8;
   O_GGCompareEQBZ8; O_GGCompareNEBZ8; O_PostIncrement; O_PostDecrement;
   O_PreIncrement; O_PreDecrement; O_PreIncrementAndPop; O_PreDecrementAndPop;
   O_IncGlobal; O_DecGlobal; O_IncLocal; O_DecLocal;
   O_Assign; O_AssignAndPop; O_AssignToGlobalAndPop; O_AssignToLocalAndPop;
   O_AssignToArrayAndPop; O_SubtractAssign; O_AddAssign; O_ModAssign;
   O_MultiplyAssign; O_DivideAssign; O_ORAssign; O_ANDAssign;
   O_XORAssign; O_RightShiftAssign; O_LeftShiftAssign; O_SubtractAssignAndPop;
   O_AddAssignAndPop; O_ModAssignAndPop; O_MultiplyAssignAndPop; O_DivideAssignAndPop;
   O_ORAssignAndPop; O_ANDAssignAndPop; O_XORAssignAndPop; O_RightShiftAssignAndPop;
   O_LeftShiftAssignAndPop; O_LogicalNot; O_Negate; O_LiteralInt8;
   O_LiteralInt16; O_IndexLiteral8; O_IndexLiteral16; O_IndexLocalLiteral8;
   O_IndexGlobalLiteral8; O_IndexLocalLiteral16; O_IndexGlobalLiteral16; O_BinaryAdditionAndStoreGlobal;
   O_BinarySubtractionAndStoreGlobal; O_BinaryMultiplicationAndStoreGlobal; O_BinaryDivisionAndStoreGlobal; O_BinaryAdditionAndStoreLocal;
   O_BinarySubtractionAndStoreLocal; O_BinaryMultiplicationAndStoreLocal; O_BinaryDivisionAndStoreLocal; O_CompareBEQ;
   O_CompareBNE; O_CompareBGE; O_CompareBLE; O_CompareBGT;
   O_CompareBLT; O_CompareBEQ8; O_CompareBNE8; O_CompareBGE8;
   O_CompareBLE8; O_CompareBGT8; O_CompareBLT8; O_BLA;
   O_BLA8; O_BLO; O_BLO8; O_LiteralInt8ToGlobal;
   O_LiteralInt16ToGlobal; O_LiteralInt32ToLocal; O_LiteralInt8ToLocal; O_LiteralInt16ToLocal;
   O_LiteralFloatToGlobal; O_LiteralFloatToLocal; O_LiteralInt32ToGlobal; O_GGBinaryMultiplication;
   O_GLBinaryMultiplication; O_LLBinaryMultiplication; O_GGBinaryAddition; O_GLBinaryAddition;
   O_LLBinaryAddition; O_GGBinarySubtraction; O_GLBinarySubtraction; O_LGBinarySubtraction;
   O_LLBinarySubtraction; O_GGBinaryDivision; O_GLBinaryDivision; O_LGBinaryDivision;
   O_LLBinaryDivision; O_GPushIterator; O_LPushIterator; O_GGNextKeyValueOrJump;
   O_GLNextKeyValueOrJump; O_LGNextKeyValueOrJump; O_LLNextKeyValueOrJump; O_GNextValueOrJump;
   O_LNextValueOrJump; O_Switch; O_SwitchLinear; O_GlobalStop;
   O_ToInt; O_ToFloat; O_LoadLibConstant; O_InitArray;
   O_InitVar; O_DebugInfo; O_LocalBZ; O_LocalBZ8;
   O_GlobalBZ; O_GlobalBZ8].

(* the value of an enumerator *)
Definition byte_of (o : opcode) : Z :=
  match o with
  | O_Yield => 0 | O_LiteralInt32 => 1 | O_LiteralZero => 2 | O_LiteralFloat => 3
  | O_LiteralString => 4 | O_CallFunctionByHash => 5 | O_CallFunctionByHashAndPop => 6 | O_CallFunctionByIndex => 7
  | O_PushIndexFunctionReturnValue => 8 | O_CallLibFunction => 9 | O_CallLibFunctionAndPop => 10 | O_NewObjectTable => 11
  | O_AssignToObjectTableByOffset => 12 | O_AssignToObjectTableByHash => 13 | O_AssignToHashTableAndPop => 14 | O_Remove => 15
  | O_HashEntryExists => 16 | O_PopOne => 17 | O_ReturnZero => 18 | O_Return => 19
  | O_Stop => 20 | O_Dereference => 21 | O_Index => 22 | O_IndexSkipLoad => 23
  | O_CountOf => 24 | O_HashOf => 25 | O_StackIndexHash => 26 | O_GlobalIndexHash => 27
  | O_LocalIndexHash => 28 | O_StackSwap => 29 | O_SwapTwoToTop => 30 | O_LoadFromLocal => 31
  | O_LoadFromGlobal => 32 | O_LLValues => 33 | O_LGValues => 34 | O_GLValues => 35
  | O_GGValues => 36 | O_BinaryRightShiftSkipLoad => 37 | O_BinaryLeftShiftSkipLoad => 38 | O_BinaryAndSkipLoad => 39
  | O_BinaryOrSkipLoad => 40 | O_BinaryXORSkipLoad => 41 | O_BinaryModSkipLoad => 42 | O_BinaryMultiplication => 43
  | O_BinarySubtraction => 44 | O_BinaryDivision => 45 | O_BinaryRightShift => 46 | O_BinaryLeftShift => 47
  | O_BinaryMod => 48 | O_BinaryOr => 49 | O_BinaryXOR => 50 | O_BinaryAnd => 51
  | O_BinaryAddition => 52 | O_BitwiseNOT => 53 | O_RelativeJump => 54 | O_RelativeJump8 => 55
  | O_BZ => 56 | O_BZ8 => 57 | O_LogicalAnd => 58 | O_LogicalOr => 59
  | O_CompareLE => 60 | O_CompareGE => 61 | O_CompareGT => 62 | O_CompareLT => 63
  | O_CompareEQ => 64 | O_CompareNE => 65 | O_GGCompareGT => 66 | O_GGCompareGE => 67
  | O_GGCompareLT => 68 | O_GGCompareLE => 69 | O_GGCompareEQ => 70 | O_GGCompareNE => 71
  | O_LLCompareGT => 72 | O_LLCompareGE => 73 | O_LLCompareLT => 74 | O_LLCompareLE => 75
  | O_LLCompareEQ => 76 | O_LLCompareNE => 77 | O_GSCompareEQ => 78 | O_LSCompareEQ => 79
  | O_GSCompareNE => 80 | O_LSCompareNE => 81 | O_GSCompareGE => 82 | O_LSCompareGE => 83
  | O_GSCompareLE => 84 | O_LSCompareLE => 85 | O_GSCompareGT => 86 | O_LSCompareGT => 87
  | O_GSCompareLT => 88 | O_LSCompareLT => 89 | O_GSCompareEQBZ => 90 | O_LSCompareEQBZ => 91
  | O_GSCompareNEBZ => 92 | O_LSCompareNEBZ => 93 | O_GSCompareGEBZ => 94 | O_LSCompareGEBZ => 95
  | O_GSCompareLEBZ => 96 | O_LSCompareLEBZ => 97 | O_GSCompareGTBZ => 98 | O_LSCompareGTBZ => 99
  | O_GSCompareLTBZ => 100 | O_LSCompareLTBZ => 101 | O_GSCompareEQBZ8 => 102 | O_LSCompareEQBZ8 => 103
  | O_GSCompareNEBZ8 => 104 | O_LSCompareNEBZ8 => 105 | O_GSCompareGEBZ8 => 106 | O_LSCompareGEBZ8 => 107
  | O_GSCompareLEBZ8 => 108 | O_LSCompareLEBZ8 => 109 | O_GSCompareGTBZ8 => 110 | O_LSCompareGTBZ8 => 111
  | O_GSCompareLTBZ8 => 112 | O_LSCompareLTBZ8 => 113 | O_LLCompareLTBZ => 114 | O_LLCompareLEBZ => 115
  | O_LLCompareGTBZ => 116 | O_LLCompareGEBZ => 117 | O_LLCompareEQBZ => 118 | O_LLCompareNEBZ => 119
  | O_GGCompareLTBZ => 120 | O_GGCompareLEBZ => 121 | O_GGCompareGTBZ => 122 | O_GGCompareGEBZ => 123
  | O_GGCompareEQBZ => 124 | O_GGCompareNEBZ => 125 | O_LLCompareLTBZ8 => 126 | O_LLCompareLEBZ8 => 127
  | O_LLCompareGTBZ8 => 128 | O_LLCompareGEBZ8 => 129 | O_LLCompareEQBZ8 => 130 | O_LLCompareNEBZ8 => 131
  | O_GGCompareLTBZ8 => 132 | O_GGCompareLEBZ8 => 133 | O_GGCompareGTBZ8 => 134 | O_GGCompareGEBZ8 => 135
  | O_GGCompareEQBZ8 => 136 | O_GGCompareNEBZ8 => 137 | O_PostIncrement => 138 | O_PostDecrement => 139
  | O_PreIncrement => 140 | O_PreDecrement => 141 | O_PreIncrementAndPop => 142 | O_PreDecrementAndPop => 143
  | O_IncGlobal => 144 | O_DecGlobal => 145 | O_IncLocal => 146 | O_DecLocal => 147
  | O_Assign => 148 | O_AssignAndPop => 149 | O_AssignToGlobalAndPop => 150 | O_AssignToLocalAndPop => 151
  | O_AssignToArrayAndPop => 152 | O_SubtractAssign => 153 | O_AddAssign => 154 | O_ModAssign => 155
  | O_MultiplyAssign => 156 | O_DivideAssign => 157 | O_ORAssign => 158 | O_ANDAssign => 159
  | O_XORAssign => 160 | O_RightShiftAssign => 161 | O_LeftShiftAssign => 162 | O_SubtractAssignAndPop => 163
  | O_AddAssignAndPop => 164 | O_ModAssignAndPop => 165 | O_MultiplyAssignAndPop => 166 | O_DivideAssignAndPop => 167
  | O_ORAssignAndPop => 168 | O_ANDAssignAndPop => 169 | O_XORAssignAndPop => 170 | O_RightShiftAssignAndPop => 171
  | O_LeftShiftAssignAndPop => 172 | O_LogicalNot => 173 | O_Negate => 174 | O_LiteralInt8 => 175
  | O_LiteralInt16 => 176 | O_IndexLiteral8 => 177 | O_IndexLiteral16 => 178 | O_IndexLocalLiteral8 => 179
  | O_IndexGlobalLiteral8 => 180 | O_IndexLocalLiteral16 => 181 | O_IndexGlobalLiteral16 => 182 | O_BinaryAdditionAndStoreGlobal => 183
  | O_BinarySubtractionAndStoreGlobal => 184 | O_BinaryMultiplicationAndStoreGlobal => 185 | O_BinaryDivisionAndStoreGlobal => 186 | O_BinaryAdditionAndStoreLocal => 187
  | O_BinarySubtractionAndStoreLocal => 188 | O_BinaryMultiplicationAndStoreLocal => 189 | O_BinaryDivisionAndStoreLocal => 190 | O_CompareBEQ => 191
  | O_CompareBNE => 192 | O_CompareBGE => 193 | O_CompareBLE => 194 | O_CompareBGT => 195
  | O_CompareBLT => 196 | O_CompareBEQ8 => 197 | O_CompareBNE8 => 198 | O_CompareBGE8 => 199
  | O_CompareBLE8 => 200 | O_CompareBGT8 => 201 | O_CompareBLT8 => 202 | O_BLA => 203
  | O_BLA8 => 204 | O_BLO => 205 | O_BLO8 => 206 | O_LiteralInt8ToGlobal => 207
  | O_LiteralInt16ToGlobal => 208 | O_LiteralInt32ToLocal => 209 | O_LiteralInt8ToLocal => 210 | O_LiteralInt16ToLocal => 211
  | O_LiteralFloatToGlobal => 212 | O_LiteralFloatToLocal => 213 | O_LiteralInt32ToGlobal => 214 | O_GGBinaryMultiplication => 215
  | O_GLBinaryMultiplication => 216 | O_LLBinaryMultiplication => 217 | O_GGBinaryAddition => 218 | O_GLBinaryAddition => 219
  | O_LLBinaryAddition => 220 | O_GGBinarySubtraction => 221 | O_GLBinarySubtraction => 222 | O_LGBinarySubtraction => 223
  | O_LLBinarySubtraction => 224 | O_GGBinaryDivision => 225 | O_GLBinaryDivision => 226 | O_LGBinaryDivision => 227
  | O_LLBinaryDivision => 228 | O_GPushIterator => 229 | O_LPushIterator => 230 | O_GGNextKeyValueOrJump => 231
  | O_GLNextKeyValueOrJump => 232 | O_LGNextKeyValueOrJump => 233 | O_LLNextKeyValueOrJump => 234 | O_GNextValueOrJump => 235
  | O_LNextValueOrJump => 236 | O_Switch => 237 | O_SwitchLinear => 238 | O_GlobalStop => 239
  | O_ToInt => 240 | O_ToFloat => 241 | O_LoadLibConstant => 242 | O_InitArray => 243
  | O_InitVar => 244 | O_DebugInfo => 245 | O_LocalBZ => 246 | O_LocalBZ8 => 247
  | O_GlobalBZ => 248 | O_GlobalBZ8 => 249 | O_HASH_PLACEHOLDER => 250 | O_FUNCTION_CALL_PLACEHOLDER => 251
  | O_LAST => 252
  end.

Definition opcode_of (b : Z) : option opcode :=
  if b <? 0 then None else nth_error all_opcodes (Z.to_nat b).

(* which table of variables an operand byte indexes: globalSpace or frameBase *)
Inductive space := SG | SL.

(* decoded instructions.  Branches carry the absolute position they go to. *)
Inductive instr :=
| IYield (args : nat)
| ILit (v : value) (check : bool)        (* LiteralInt32 and LiteralFloat do not check the stack *)
| ILitStr (s : list Z)
| ICall (args idx : nat)
| IPushRet
| ILib (pop : bool) (args : nat) (hash : Z)
| ICallHash (pop : bool) (args : nat) (hash : Z)
| IPop | IReturnZero | IReturn | IStop | IGlobalStop
| IDeref | IHashOf
| IIndex | IIndexSkip | ILitIndex (k : Z) | IVarIndex (s : space) (n : nat) (k : Z) (check : bool)
| ISwap (n : nat) | ISwap2 (a b : nat)
| ILoad (s : space) (n : nat)
| IValues (s0 s1 : space) (a b : nat)
| IBin (b : binop) | IBinSkip (b : binop)
| IBin2 (b : binop) (s1 s2 : space) (x y : nat)
| IBinStore (b : binop) (s : space) (n : nat)
| INot | INeg | IBitNot | IToInt | IToFloat
| ICmp (c : cmpop) | ICmp2 (c : cmpop) (s : space) (x y : nat) | ICmpS (c : cmpop) (s : space) (x : nat)
| IJump (target : Z) | IBZ (target : Z) | IVarBZ (s : space) (n : nat) (target : Z)
| ICmpB (c : cmpop) (target : Z)
| ICmp2B (c : cmpop) (s : space) (x y : nat) (target : Z)
| ICmpSB (c : cmpop) (s : space) (x : nat) (target : Z)
| IPost (d : Z) | IPre (d : Z) | IPrePop (d : Z) | IIncVar (d : Z) (s : space) (n : nat)
| IAssign | IAssignPop | IAssignTo (s : space) (n : nat)
| ICompound (b : binop) | ICompoundPop (b : binop)
| ILitTo (s : space) (n : nat) (v : value)
| IInitVar | IInitArray | IAssignArr (k : Z)
| ISwitch | ISwitchLinear
| IDebug
| IExt (o : opcode).

(* ---- reading operands: READ_8/16/32_FROM_PC (wrench.h:620-690), little endian.  A read outside
   the code is an error (None). ---- *)
Definition s8 (b : Z) : Z := if b <? 128 then b else b - 256.
Definition s16 (b : Z) : Z := if b <? 32768 then b else b - 65536.
Definition rd8 (code : list Z) (p : Z) : option Z := nthZ code p.
Definition rdu16 (code : list Z) (p : Z) : option Z :=
  match rd8 code p, rd8 code (p + 1) with
  | Some a, Some b => Some (a + 256 * b) | _, _ => None end.
Definition rd16 (code : list Z) (p : Z) : option Z := option_map s16 (rdu16 code p).
Definition rd32 (code : list Z) (p : Z) : option Z :=
  match rdu16 code p, rdu16 code (p + 2) with
  | Some a, Some b => Some (a + 65536 * b) | _, _ => None end.

Definition n0 (i : instr) (p : Z) : option (instr * Z) := Some (i, p).
Definition v1 (f : nat -> instr) (code : list Z) (p : Z) : option (instr * Z) :=
  match rd8 code p with Some x => Some (f (Z.to_nat x), p + 1) | None => None end.
Definition v1q (f : nat -> instr) (code : list Z) (p q : Z) : option (instr * Z) :=
  match rd8 code p with Some x => Some (f (Z.to_nat x), q) | None => None end.
Definition v2 (f : nat -> nat -> instr) (code : list Z) (p : Z) : option (instr * Z) :=
  match rd8 code p, rd8 code (p + 1) with
  | Some x, Some y => Some (f (Z.to_nat x) (Z.to_nat y), p + 2) | _, _ => None end.
(* a branch displacement is relative to its own position; the branch not taken continues two bytes
   further in the short form as well (`: 2`) *)
Definition b0 (short : bool) (f : Z -> instr) (code : list Z) (p : Z) : option (instr * Z) :=
  if short then match rd8 code p with Some d => Some (f (p + s8 d), p + 2) | None => None end
  else match rd16 code p with Some d => Some (f (p + d), p + 2) | None => None end.
Definition vb1 (short : bool) (f : nat -> Z -> instr) (code : list Z) (p : Z) : option (instr * Z) :=
  match rd8 code p with Some x => b0 short (f (Z.to_nat x)) code (p + 1) | None => None end.
Definition vb2 (short : bool) (f : nat -> nat -> Z -> instr) (code : list Z) (p : Z) : option (instr * Z) :=
  match rd8 code p, rd8 code (p + 1) with
  | Some x, Some y => b0 short (f (Z.to_nat x) (Z.to_nat y)) code (p + 2) | _, _ => None end.
Definition lInt8 (k : Z -> value -> option (instr * Z)) (code : list Z) (p : Z) : option (instr * Z) :=
  match rd8 code p with Some x => k (p + 1) (VInt (u32 (s8 x))) | None => None end.
Definition lInt16 (k : Z -> value -> option (instr * Z)) (code : list Z) (p : Z) : option (instr * Z) :=
  match rd16 code p with Some x => k (p + 2) (VInt (u32 x)) | None => None end.
Definition lInt32 (k : Z -> value -> option (instr * Z)) (code : list Z) (p : Z) : option (instr * Z) :=
  match rd32 code p with Some x => k (p + 4) (VInt x) | None => None end.
Definition lFloat (k : Z -> value -> option (instr * Z)) (code : list Z) (p : Z) : option (instr * Z) :=
  match rd32 code p with Some x => k (p + 4) (VFlt x) | None => None end.
(* IndexLiteral8 is not sign extended, IndexLiteral16 is (vm.cpp:1477-1495) *)
Definition lU8 (k : Z -> Z -> option (instr * Z)) (code : list Z) (p : Z) : option (instr * Z) :=
  match rd8 code p with Some x => k (p + 1) x | None => None end.
Definition lS16 (k : Z -> Z -> option (instr * Z)) (code : list Z) (p : Z) : option (instr * Z) :=
  match rd16 code p with Some x => k (p + 2) (u32 x) | None => None end.
(* LiteralString, vm.cpp:770-795 *)
Fixpoint rd_bytes (code : list Z) (p : Z) (n : nat) : option (list Z) :=
  match n with
  | O => Some []
  | S k => match rd8 code p, rd_bytes code (p + 1) k with Some b, Some r => Some (b :: r) | _, _ => None end
  end.
Definition lString (code : list Z) (p : Z) : option (instr * Z) :=
  match rdu16 code p with
  | Some n => match rd_bytes code (p + 2) (Z.to_nat n) with
              | Some bs => Some (ILitStr bs, p + 2 + n) | None => None end
  | None => None
  end.
(* CallFunctionByIndex, vm.cpp:1006-1013: argument count, function number, distance to the
   instruction after the call, counted from its own byte *)
Definition call (code : list Z) (p : Z) : option (instr * Z) :=
  match rd8 code p, rd8 code (p + 1), rd8 code (p + 2) with
  | Some a, Some i, Some d => Some (ICall (Z.to_nat a) (Z.to_nat i), p + 2 + d)
  | _, _, _ => None
  end.
Definition lib (f : nat -> Z -> instr) (code : list Z) (p : Z) : option (instr * Z) :=
  match rd8 code p, rd32 code (p + 1) with
  | Some a, Some h => Some (f (Z.to_nat a) h, p + 5) | _, _ => None end.

(* the operands of each opcode; [p] is the position after the opcode byte *)
Definition decode_op (o : opcode) (code : list Z) (p : Z) : option (instr * Z) :=
  match o with
  | O_Yield => v1 IYield code p
  | O_LiteralInt32 => lInt32 (fun q v => Some (ILit v false, q)) code p
  | O_LiteralZero => n0 (ILit (VInt 0) true) p
  | O_LiteralFloat => lFloat (fun q v => Some (ILit v false, q)) code p
  | O_LiteralString => lString code p
  | O_CallFunctionByHash => lib (ICallHash false) code p
  | O_CallFunctionByHashAndPop => lib (ICallHash true) code p
  | O_CallFunctionByIndex => call code p
  | O_PushIndexFunctionReturnValue => n0 IPushRet p
  | O_CallLibFunction => lib (ILib false) code p
  | O_CallLibFunctionAndPop => lib (ILib true) code p
  | O_NewObjectTable => n0 (IExt O_NewObjectTable) p
  | O_AssignToObjectTableByOffset => n0 (IExt O_AssignToObjectTableByOffset) p
  | O_AssignToObjectTableByHash => n0 (IExt O_AssignToObjectTableByHash) p
  | O_AssignToHashTableAndPop => n0 (IExt O_AssignToHashTableAndPop) p
  | O_Remove => n0 (IExt O_Remove) p
  | O_HashEntryExists => n0 (IExt O_HashEntryExists) p
  | O_PopOne => n0 IPop p
  | O_ReturnZero => n0 IReturnZero p
  | O_Return => n0 IReturn p
  | O_Stop => n0 IStop p
  | O_Dereference => n0 IDeref p
  | O_Index => n0 IIndex p
  | O_IndexSkipLoad => n0 IIndexSkip p
  | O_CountOf => n0 (IExt O_CountOf) p
  | O_HashOf => n0 IHashOf p
  | O_StackIndexHash => n0 (IExt O_StackIndexHash) p
  | O_GlobalIndexHash => n0 (IExt O_GlobalIndexHash) p
  | O_LocalIndexHash => n0 (IExt O_LocalIndexHash) p
  | O_StackSwap => v1 ISwap code p
  | O_SwapTwoToTop => v2 ISwap2 code p
  | O_LoadFromLocal => v1 (ILoad SL) code p
  | O_LoadFromGlobal => v1 (ILoad SG) code p
  | O_LLValues => v2 (IValues SL SL) code p
  | O_LGValues => v2 (IValues SL SG) code p
  | O_GLValues => v2 (IValues SG SL) code p
  | O_GGValues => v2 (IValues SG SG) code p
  | O_BinaryRightShiftSkipLoad => n0 (IBinSkip BShr) p
  | O_BinaryLeftShiftSkipLoad => n0 (IBinSkip BShl) p
  | O_BinaryAndSkipLoad => n0 (IBinSkip BAnd) p
  | O_BinaryOrSkipLoad => n0 (IBinSkip BOr) p
  | O_BinaryXORSkipLoad => n0 (IBinSkip BXor) p
  | O_BinaryModSkipLoad => n0 (IBinSkip BMod) p
  | O_BinaryMultiplication => n0 (IBin BMul) p
  | O_BinarySubtraction => n0 (IBin BSub) p
  | O_BinaryDivision => n0 (IBin BDiv) p
  | O_BinaryRightShift => n0 (IBin BShr) p
  | O_BinaryLeftShift => n0 (IBin BShl) p
  | O_BinaryMod => n0 (IBin BMod) p
  | O_BinaryOr => n0 (IBin BOr) p
  | O_BinaryXOR => n0 (IBin BXor) p
  | O_BinaryAnd => n0 (IBin BAnd) p
  | O_BinaryAddition => n0 (IBin BAdd) p
  | O_BitwiseNOT => n0 IBitNot p
  | O_RelativeJump => b0 false IJump code p
  | O_RelativeJump8 => b0 true IJump code p
  | O_BZ => b0 false IBZ code p
  | O_BZ8 => b0 true IBZ code p
  | O_LogicalAnd => n0 (ICmp CAnd) p
  | O_LogicalOr => n0 (ICmp COr) p
  | O_CompareLE => n0 (ICmp CLe) p
  | O_CompareGE => n0 (ICmp CGe) p
  | O_CompareGT => n0 (ICmp CGt) p
  | O_CompareLT => n0 (ICmp CLt) p
  | O_CompareEQ => n0 (ICmp CEq) p
  | O_CompareNE => n0 (ICmp CNe) p
  | O_GGCompareGT => v2 (ICmp2 CGt SG) code p
  | O_GGCompareGE => v2 (ICmp2 CGe SG) code p
  | O_GGCompareLT => v2 (ICmp2 CLt SG) code p
  | O_GGCompareLE => v2 (ICmp2 CLe SG) code p
  | O_GGCompareEQ => v2 (ICmp2 CEq SG) code p
  | O_GGCompareNE => v2 (ICmp2 CNe SG) code p
  | O_LLCompareGT => v2 (ICmp2 CGt SL) code p
  | O_LLCompareGE => v2 (ICmp2 CGe SL) code p
  | O_LLCompareLT => v2 (ICmp2 CLt SL) code p
  | O_LLCompareLE => v2 (ICmp2 CLe SL) code p
  | O_LLCompareEQ => v2 (ICmp2 CEq SL) code p
  | O_LLCompareNE => v2 (ICmp2 CNe SL) code p
  | O_GSCompareEQ => v1 (ICmpS CEq SG) code p
  | O_LSCompareEQ => v1 (ICmpS CEq SL) code p
  | O_GSCompareNE => v1 (ICmpS CNe SG) code p
  | O_LSCompareNE => v1 (ICmpS CNe SL) code p
  | O_GSCompareGE => v1 (ICmpS CGe SG) code p
  | O_LSCompareGE => v1 (ICmpS CGe SL) code p
  | O_GSCompareLE => v1 (ICmpS CLe SG) code p
  | O_LSCompareLE => v1 (ICmpS CLe SL) code p
  | O_GSCompareGT => v1 (ICmpS CGt SG) code p
  | O_LSCompareGT => v1 (ICmpS CGt SL) code p
  | O_GSCompareLT => v1 (ICmpS CLt SG) code p
  | O_LSCompareLT => v1 (ICmpS CLt SL) code p
  | O_GSCompareEQBZ => vb1 false (ICmpSB CEq SG) code p
  | O_LSCompareEQBZ => vb1 false (ICmpSB CEq SL) code p
  | O_GSCompareNEBZ => vb1 false (ICmpSB CNe SG) code p
  | O_LSCompareNEBZ => vb1 false (ICmpSB CNe SL) code p
  | O_GSCompareGEBZ => vb1 false (ICmpSB CGe SG) code p
  | O_LSCompareGEBZ => vb1 false (ICmpSB CGe SL) code p
  | O_GSCompareLEBZ => vb1 false (ICmpSB CLe SG) code p
  | O_LSCompareLEBZ => vb1 false (ICmpSB CLe SL) code p
  | O_GSCompareGTBZ => vb1 false (ICmpSB CGt SG) code p
  | O_LSCompareGTBZ => vb1 false (ICmpSB CGt SL) code p
  | O_GSCompareLTBZ => vb1 false (ICmpSB CLt SG) code p
  | O_LSCompareLTBZ => vb1 false (ICmpSB CLt SL) code p
  | O_GSCompareEQBZ8 => vb1 true (ICmpSB CEq SG) code p
  | O_LSCompareEQBZ8 => vb1 true (ICmpSB CEq SL) code p
  | O_GSCompareNEBZ8 => vb1 true (ICmpSB CNe SG) code p
  | O_LSCompareNEBZ8 => vb1 true (ICmpSB CNe SL) code p
  | O_GSCompareGEBZ8 => vb1 true (ICmpSB CGe SG) code p
  | O_LSCompareGEBZ8 => vb1 true (ICmpSB CGe SL) code p
  | O_GSCompareLEBZ8 => vb1 true (ICmpSB CLe SG) code p
  | O_LSCompareLEBZ8 => vb1 true (ICmpSB CLe SL) code p
  | O_GSCompareGTBZ8 => vb1 true (ICmpSB CGt SG) code p
  | O_LSCompareGTBZ8 => vb1 true (ICmpSB CGt SL) code p
  | O_GSCompareLTBZ8 => vb1 true (ICmpSB CLt SG) code p
  | O_LSCompareLTBZ8 => vb1 true (ICmpSB CLt SL) code p
  | O_LLCompareLTBZ => vb2 false (ICmp2B CLt SL) code p
  | O_LLCompareLEBZ => vb2 false (ICmp2B CLe SL) code p
  | O_LLCompareGTBZ => vb2 false (ICmp2B CGt SL) code p
  | O_LLCompareGEBZ => vb2 false (ICmp2B CGe SL) code p
  | O_LLCompareEQBZ => vb2 false (ICmp2B CEq SL) code p
  | O_LLCompareNEBZ => vb2 false (ICmp2B CNe SL) code p
  | O_GGCompareLTBZ => vb2 false (ICmp2B CLt SG) code p
  | O_GGCompareLEBZ => vb2 false (ICmp2B CLe SG) code p
  | O_GGCompareGTBZ => vb2 false (ICmp2B CGt SG) code p
  | O_GGCompareGEBZ => vb2 false (ICmp2B CGe SG) code p
  | O_GGCompareEQBZ => vb2 false (ICmp2B CEq SG) code p
  | O_GGCompareNEBZ => vb2 false (ICmp2B CNe SG) code p
  | O_LLCompareLTBZ8 => vb2 true (ICmp2B CLt SL) code p
  | O_LLCompareLEBZ8 => vb2 true (ICmp2B CLe SL) code p
  | O_LLCompareGTBZ8 => vb2 true (ICmp2B CGt SL) code p
  | O_LLCompareGEBZ8 => vb2 true (ICmp2B CGe SL) code p
  | O_LLCompareEQBZ8 => vb2 true (ICmp2B CEq SL) code p
  | O_LLCompareNEBZ8 => vb2 true (ICmp2B CNe SL) code p
  | O_GGCompareLTBZ8 => vb2 true (ICmp2B CLt SG) code p
  | O_GGCompareLEBZ8 => vb2 true (ICmp2B CLe SG) code p
  | O_GGCompareGTBZ8 => vb2 true (ICmp2B CGt SG) code p
  | O_GGCompareGEBZ8 => vb2 true (ICmp2B CGe SG) code p
  | O_GGCompareEQBZ8 => vb2 true (ICmp2B CEq SG) code p
  | O_GGCompareNEBZ8 => vb2 true (ICmp2B CNe SG) code p
  | O_PostIncrement => n0 (IPost 1) p
  | O_PostDecrement => n0 (IPost (-1)) p
  | O_PreIncrement => n0 (IPre 1) p
  | O_PreDecrement => n0 (IPre (-1)) p
  | O_PreIncrementAndPop => n0 (IPrePop 1) p
  | O_PreDecrementAndPop => n0 (IPrePop (-1)) p
  | O_IncGlobal => v1 (IIncVar 1 SG) code p
  | O_DecGlobal => v1 (IIncVar (-1) SG) code p
  | O_IncLocal => v1 (IIncVar 1 SL) code p
  | O_DecLocal => v1 (IIncVar (-1) SL) code p
  | O_Assign => n0 IAssign p
  | O_AssignAndPop => n0 IAssignPop p
  | O_AssignToGlobalAndPop => v1 (IAssignTo SG) code p
  | O_AssignToLocalAndPop => v1 (IAssignTo SL) code p
  | O_AssignToArrayAndPop => lS16 (fun q k => Some (IAssignArr k, q)) code p
  | O_SubtractAssign => n0 (ICompound BSub) p
  | O_AddAssign => n0 (ICompound BAdd) p
  | O_ModAssign => n0 (ICompound BMod) p
  | O_MultiplyAssign => n0 (ICompound BMul) p
  | O_DivideAssign => n0 (ICompound BDiv) p
  | O_ORAssign => n0 (ICompound BOr) p
  | O_ANDAssign => n0 (ICompound BAnd) p
  | O_XORAssign => n0 (ICompound BXor) p
  | O_RightShiftAssign => n0 (ICompound BShr) p
  | O_LeftShiftAssign => n0 (ICompound BShl) p
  | O_SubtractAssignAndPop => n0 (ICompoundPop BSub) p
  | O_AddAssignAndPop => n0 (ICompoundPop BAdd) p
  | O_ModAssignAndPop => n0 (ICompoundPop BMod) p
  | O_MultiplyAssignAndPop => n0 (ICompoundPop BMul) p
  | O_DivideAssignAndPop => n0 (ICompoundPop BDiv) p
  | O_ORAssignAndPop => n0 (ICompoundPop BOr) p
  | O_ANDAssignAndPop => n0 (ICompoundPop BAnd) p
  | O_XORAssignAndPop => n0 (ICompoundPop BXor) p
  | O_RightShiftAssignAndPop => n0 (ICompoundPop BShr) p
  | O_LeftShiftAssignAndPop => n0 (ICompoundPop BShl) p
  | O_LogicalNot => n0 INot p
  | O_Negate => n0 INeg p
  | O_LiteralInt8 => lInt8 (fun q v => Some (ILit v true, q)) code p
  | O_LiteralInt16 => lInt16 (fun q v => Some (ILit v true, q)) code p
  | O_IndexLiteral8 => lU8 (fun q k => Some (ILitIndex k, q)) code p
  | O_IndexLiteral16 => lS16 (fun q k => Some (ILitIndex k, q)) code p
  | O_IndexLocalLiteral8 => lU8 (fun q k => v1q (fun x => IVarIndex SL x k true) code p q) code (p + 1)
  | O_IndexGlobalLiteral8 => lU8 (fun q k => v1q (fun x => IVarIndex SG x k true) code p q) code (p + 1)
  | O_IndexLocalLiteral16 => lS16 (fun q k => v1q (fun x => IVarIndex SL x k false) code p q) code (p + 1)
  | O_IndexGlobalLiteral16 => lS16 (fun q k => v1q (fun x => IVarIndex SG x k true) code p q) code (p + 1)
  | O_BinaryAdditionAndStoreGlobal => v1 (IBinStore BAdd SG) code p
  | O_BinarySubtractionAndStoreGlobal => v1 (IBinStore BSub SG) code p
  | O_BinaryMultiplicationAndStoreGlobal => v1 (IBinStore BMul SG) code p
  | O_BinaryDivisionAndStoreGlobal => v1 (IBinStore BDiv SG) code p
  | O_BinaryAdditionAndStoreLocal => v1 (IBinStore BAdd SL) code p
  | O_BinarySubtractionAndStoreLocal => v1 (IBinStore BSub SL) code p
  | O_BinaryMultiplicationAndStoreLocal => v1 (IBinStore BMul SL) code p
  | O_BinaryDivisionAndStoreLocal => v1 (IBinStore BDiv SL) code p
  | O_CompareBEQ => b0 false (ICmpB CEq) code p
  | O_CompareBNE => b0 false (ICmpB CNe) code p
  | O_CompareBGE => b0 false (ICmpB CGe) code p
  | O_CompareBLE => b0 false (ICmpB CLe) code p
  | O_CompareBGT => b0 false (ICmpB CGt) code p
  | O_CompareBLT => b0 false (ICmpB CLt) code p
  | O_CompareBEQ8 => b0 true (ICmpB CEq) code p
  | O_CompareBNE8 => b0 true (ICmpB CNe) code p
  | O_CompareBGE8 => b0 true (ICmpB CGe) code p
  | O_CompareBLE8 => b0 true (ICmpB CLe) code p
  | O_CompareBGT8 => b0 true (ICmpB CGt) code p
  | O_CompareBLT8 => b0 true (ICmpB CLt) code p
  | O_BLA => b0 false (ICmpB CAnd) code p
  | O_BLA8 => b0 true (ICmpB CAnd) code p
  | O_BLO => b0 false (ICmpB COr) code p
  | O_BLO8 => b0 true (ICmpB COr) code p
  | O_LiteralInt8ToGlobal => lInt8 (fun q v => v1q (fun x => ILitTo SG x v) code p q) code (p + 1)
  | O_LiteralInt16ToGlobal => lInt16 (fun q v => v1q (fun x => ILitTo SG x v) code p q) code (p + 1)
  | O_LiteralInt32ToLocal => lInt32 (fun q v => v1q (fun x => ILitTo SL x v) code p q) code (p + 1)
  | O_LiteralInt8ToLocal => lInt8 (fun q v => v1q (fun x => ILitTo SL x v) code p q) code (p + 1)
  | O_LiteralInt16ToLocal => lInt16 (fun q v => v1q (fun x => ILitTo SL x v) code p q) code (p + 1)
  | O_LiteralFloatToGlobal => lFloat (fun q v => v1q (fun x => ILitTo SG x v) code p q) code (p + 1)
  | O_LiteralFloatToLocal => lFloat (fun q v => v1q (fun x => ILitTo SL x v) code p q) code (p + 1)
  | O_LiteralInt32ToGlobal => lInt32 (fun q v => v1q (fun x => ILitTo SG x v) code p q) code (p + 1)
  | O_GGBinaryMultiplication => v2 (IBin2 BMul SG SG) code p
  | O_GLBinaryMultiplication => v2 (IBin2 BMul SL SG) code p
  | O_LLBinaryMultiplication => v2 (IBin2 BMul SL SL) code p
  | O_GGBinaryAddition => v2 (IBin2 BAdd SG SG) code p
  | O_GLBinaryAddition => v2 (IBin2 BAdd SL SG) code p
  | O_LLBinaryAddition => v2 (IBin2 BAdd SL SL) code p
  | O_GGBinarySubtraction => v2 (IBin2 BSub SG SG) code p
  | O_GLBinarySubtraction => v2 (IBin2 BSub SL SG) code p
  | O_LGBinarySubtraction => v2 (IBin2 BSub SG SL) code p
  | O_LLBinarySubtraction => v2 (IBin2 BSub SL SL) code p
  | O_GGBinaryDivision => v2 (IBin2 BDiv SG SG) code p
  | O_GLBinaryDivision => v2 (IBin2 BDiv SL SG) code p
  | O_LGBinaryDivision => v2 (IBin2 BDiv SG SL) code p
  | O_LLBinaryDivision => v2 (IBin2 BDiv SL SL) code p
  | O_GPushIterator => n0 (IExt O_GPushIterator) p
  | O_LPushIterator => n0 (IExt O_LPushIterator) p
  | O_GGNextKeyValueOrJump => n0 (IExt O_GGNextKeyValueOrJump) p
  | O_GLNextKeyValueOrJump => n0 (IExt O_GLNextKeyValueOrJump) p
  | O_LGNextKeyValueOrJump => n0 (IExt O_LGNextKeyValueOrJump) p
  | O_LLNextKeyValueOrJump => n0 (IExt O_LLNextKeyValueOrJump) p
  | O_GNextValueOrJump => n0 (IExt O_GNextValueOrJump) p
  | O_LNextValueOrJump => n0 (IExt O_LNextValueOrJump) p
  | O_Switch => n0 ISwitch p
  | O_SwitchLinear => n0 ISwitchLinear p
  | O_GlobalStop => n0 IGlobalStop p
  | O_ToInt => n0 IToInt p
  | O_ToFloat => n0 IToFloat p
  | O_LoadLibConstant => n0 (IExt O_LoadLibConstant) p
  | O_InitArray => n0 IInitArray p
  | O_InitVar => n0 IInitVar p
  | O_DebugInfo => lS16 (fun q _ => Some (IDebug, q)) code p
  | O_LocalBZ => vb1 false (IVarBZ SL) code p
  | O_LocalBZ8 => vb1 true (IVarBZ SL) code p
  | O_GlobalBZ => vb1 false (IVarBZ SG) code p
  | O_GlobalBZ8 => vb1 true (IVarBZ SG) code p
  | O_HASH_PLACEHOLDER | O_FUNCTION_CALL_PLACEHOLDER | O_LAST => None
  end.
(* one instruction at [pc] and the position following it *)
Definition decode (code : list Z) (pc : Z) : option (instr * Z) :=
  match rd8 code pc with
  | Some b => match opcode_of b with Some o => decode_op o code (pc + 1) | None => None end
  | None => None
  end.

(* ---- the machine ---- *)
(* WRFunction, wrench.h: arguments, frameSpaceNeeded, frameBaseAdjustment, functionOffset *)
Record fn := mkFn { fn_args : nat; fn_frame : nat; fn_adjust : nat; fn_off : Z }.

(* locals of wr_callFunction.  Stack positions are indices of LStack (stackTop - context->stack).
   register0/register1 are used across instructions only by xxValues followed by ...SkipLoad and by
   Return followed by PushIndexFunctionReturnValue or Stop; every other instruction leaves them
   undefined here (None), so a use elsewhere is an error of the model. *)
Record vm := mkVm {
  vmem : mem; vpc : Z; vsp : nat; vfb : nat;
  vr0 : option loc; vr1 : option loc;
  vslice : Z                      (* w->sliceInstructionCount *)
}.

Inductive verr := E_stack_overflow | E_division_by_zero | E_function_not_found | E_lib | E_ext.
(* yieldArgs, ForceYielded *)
Inductive outcome :=
| Run (s : vm)
| Done (s : vm)                   (* the result is at stackBase *)
| Yielded (args : nat) (forced : bool) (s : vm)
| Failed (e : verr) (s : vm).

(* the address an operand denotes *)
Definition vloc (fb : nat) (s : space) (n : nat) : loc :=
  match s with SG => LGlobal n | SL => LStack (fb + n) end.
Definition next_loc (l : loc) : loc :=
  match l with
  | LGlobal n => LGlobal (S n) | LStack n => LStack (S n) | LElem i n => LElem i (S n) | _ => l
  end.

(* n values INT 0 from stack position p on *)
Fixpoint zeros (m : mem) (p n : nat) : mem :=
  match n with O => m | S k => zeros (wr m (LStack p) (VInt 0)) (S p) k end.

Section Vm.
(* parameters of OpsModel and ArrayModel *)
Variable pbits : value -> Z.
Variable obj_hash : mem -> value -> Z.
Variable as_string : mem -> value -> list Z.
Variable trap : bool.
Variable hash_index : loc -> loc -> loc -> mem -> res mem.
Variable new_table : loc -> mem -> mem.
(* registered library and native functions: stack position of stackTop, argument count;
   the second result is w->err != 0 *)
Variable lib_fn : Z -> option (nat -> nat -> mem -> res (mem * bool)).
Variable native_fn : Z -> option (nat -> nat -> mem -> res mem).
(* opcodes not modelled *)
Variable ext : opcode -> vm -> res outcome.
(* the image *)
Variable code : list Z.
Variable funs : list fn.
(* stackBase and stackLimit; WRENCH_PROTECT_STACK_FROM_OVERFLOW *)
Variable base limit : nat.
Variable protect : bool.
(* w->yieldEnabled *)
Variable slices : bool.
(* bound on the recursion of the operators *)
Variable fuel : nat.

Definition set_pc (s : vm) (pc : Z) : vm := mkVm (vmem s) pc (vsp s) (vfb s) None None (vslice s).
(* result of an instruction: new memory and stack height, registers undefined *)
Definition upd (s : vm) (m : mem) (sp : nat) : vm := mkVm m (vpc s) sp (vfb s) None None (vslice s).
(* CHECK_STACK, vm.cpp:175-179 *)
Definition checked_run (s : vm) : outcome :=
  if protect && (limit <=? vsp s)%nat then Failed E_stack_overflow s else Run s.
Definition push (s : vm) (v : value) : vm := upd s (wr (vmem s) (LStack (vsp s)) v) (S (vsp s)).
(* an instruction that needs n operands on the stack *)
Definition need (n : nat) (s : vm) (e : res outcome) : res outcome :=
  if (vsp s <? n)%nat then UB else e.
Definition is_invalid (v : value) : bool := match v with VInvalid => true | _ => false end.
(* WRENCH_TRAP_DIVISION_BY_ZERO: IS_INVALID( target ) *)
Definition trapped (l : loc) (s : vm) (k : outcome) : res outcome :=
  if trap && is_invalid (mv (vmem s) l) then Ok (Failed E_division_by_zero s) else Ok k.

(* doYield, vm.cpp:832-845: the free slot on top is set to INT 0 (stackTop->init()) *)
Definition do_yield (args : nat) (forced : bool) (s : vm) : outcome :=
  Yielded args forced (mkVm (wr (vmem s) (LStack (vsp s)) (VInt 0)) (vpc s) (vsp s) (vfb s) None None (vslice s)).
(* CHECK_FORCE_YIELD, vm.cpp:212 *)
Definition force_yield (s : vm) : outcome :=
  let s' := mkVm (vmem s) (vpc s) (vsp s) (vfb s) None None (vslice s - 1) in
  if (vslice s - 1 =? 0) && slices then do_yield 0 true s' else Run s'.

(* callFunction:, vm.cpp:1015-1070.  [ret] is the return position. *)
Definition locals_init (m : mem) (sp n : nat) : mem :=
  (* for each local: (stackTop++)->p2 = INT; stackTop->p = 0: the tag of this slot, the payload of the
     next one *)
  let fix go (m : mem) (p n : nat) :=
    match n with
    | O => m
    | S k =>
      let m1 := wr m (LStack p) (VInt (u32 (rdi pbits m (LStack p)))) in   (* a field of 32 bits *)
      (* p2 of the next slot is left alone *)
      go (wr m1 (LStack (S p)) (match mv m1 (LStack (S p)) with VFlt _ => VFlt 0 | _ => VInt 0 end)) (S p) k
    end in go m sp n.
Definition call_fn (f : fn) (args : nat) (ret : Z) (s : vm) : res outcome :=
  need args s (
  (* rectify the argument count *)
  let sp1 := (vsp s - args + fn_args f)%nat in
  let m1 := zeros (vmem s) (vsp s) (fn_args f - args) in
  let s1 := mkVm m1 (vpc s) sp1 (vfb s) None None (vslice s) in
  if protect && (limit <=? sp1)%nat && (args <? fn_args f)%nat then Ok (Failed E_stack_overflow s1)
  else if protect && (limit <=? sp1 + fn_frame f + 2)%nat then Ok (Failed E_stack_overflow s1)
  else
    let m2 := locals_init m1 sp1 (fn_frame f) in
    let sp2 := (sp1 + fn_frame f)%nat in
    (* the return vector: frame and returnOffset share the slot *)
    let m3 := wr m2 (LStack sp2) (VRaw (vfb s) (Z.to_nat ret)) in
    let sp3 := S sp2 in
    if (sp3 <? fn_adjust f)%nat then UB
    else Ok (checked_run (mkVm m3 (fn_off f) sp3 (sp3 - fn_adjust f) None None (vslice s)))).

(* Return, vm.cpp:1252-1272 *)
Definition do_return (s : vm) : res outcome :=
  need 2 s (
  match mv (vmem s) (LStack (vsp s - 2)) with
  | VRaw frame ret => Ok (Run (mkVm (vmem s) (Z.of_nat ret) (vfb s) frame (Some (LStack (vsp s - 2))) None (vslice s)))
  | _ => UB
  end).

(* after a library or native call: the result, left at stackTop, replaces the arguments *)
Definition copy_down (s : vm) (m : mem) (args : nat) : vm :=
  if (args =? 0)%nat then upd s m (S (vsp s))
  else upd s (wr m (LStack (vsp s - args)) (mv m (LStack (vsp s)))) (S (vsp s) - args).

(* singleValue / getHash of the popped selector, then the jump table: vm.cpp:1726-1759.
   [s] has the selector popped and vpc at the table. *)
Definition do_switch (h : Z) (s : vm) : res outcome :=
  let pc := vpc s in
  match rdu16 code pc with
  | Some md =>
    if md =? 0 then UB
    else
      let e := pc + 4 + 6 * (h mod md) in
      match rd32 code e with
      | Some h' =>
        match rd16 code (if h' =? h then e + 4 else pc + 2) with
        | Some d => Ok (Run (set_pc s (pc + d)))
        | None => UB
        end
      | None => UB
      end
  | None => UB
  end.
Definition do_switch_linear (h : Z) (s : vm) : res outcome :=
  let pc := vpc s in
  match rd8 code pc with
  | Some size =>
    match rd16 code (if h <? size then pc + 1 + 2 * h + 2 else pc + 1) with
    | Some d => Ok (Run (set_pc s (pc + 1 + d)))
    | None => UB
    end
  | None => UB
  end.

(* WRValue::asFloat, utils.cpp:613-626; containers are not modelled *)
Definition as_float (l : loc) (m : mem) : res (Z * mem) :=
  ' (d, m1) <- deref pbits fuel l m ;;
  match mv m1 d with
  | VFlt u => Ok (u, m1)
  | VInt u => Ok (f32_of_int (s32 u), m1)
  | _ => UB
  end.

(* one instruction; [s] already has vpc at the following instruction and still has the registers of
   the previous one *)
Definition exec (i : instr) (s0 : vm) : res outcome :=
  let r0 := vr0 s0 in
  let r1 := vr1 s0 in
  let s := upd s0 (vmem s0) (vsp s0) in
  let m := vmem s in
  let sp := vsp s in
  let top := LStack (sp - 1) in
  let second := LStack (sp - 2) in
  let bin := eval_bin pbits obj_hash as_string trap in
  let cmpr := eval_cmp pbits obj_hash in
  match i with
  | IYield args => need args s (Ok (do_yield args false s))
  | ILit v c => Ok (if c then checked_run (push s v) else Run (push s v))
  | ILitStr bs => Ok (checked_run (upd s (new_string m bs (LStack sp)) (S sp)))
  | ICall args idx =>
    match nth_error funs idx with Some f => call_fn f args (vpc s) s | None => UB end
  | IPushRet =>
    match r0 with
    | Some l =>
      ' (d, m1) <- deref pbits fuel (next_loc l) m ;;
      Ok (checked_run (upd s (wr m1 (LStack sp) (mv m1 d)) (S sp)))
    | None => UB
    end
  | ILib pop args h =>
    match lib_fn h with
    | None => Ok (Failed E_lib s)
    | Some f =>
      need args s (
      let m1 := if pop then m else wr m (LStack sp) (VInt 0) in
      ' (m2, e) <- f sp args m1 ;;
      let s' := if pop then upd s m2 (sp - args) else copy_down s m2 args in
      Ok (if e : bool then Failed E_lib s' else if pop then Run s' else checked_run s'))
    end
  | ICallHash pop args h =>
    match native_fn h with
    | None => Ok (Failed E_function_not_found s)
    | Some f =>
      need args s (
      let m1 := if pop then m else wr m (LStack sp) (VInt 0) in
      m2 <- f sp args m1 ;;
      Ok (if pop then Run (upd s m2 (sp - args)) else checked_run (copy_down s m2 args)))
    end
  | IPop => need 1 s (Ok (Run (upd s m (sp - 1))))
  | IReturnZero =>
    let s' := push s (VInt 0) in
    if protect && (limit <=? vsp s')%nat then Ok (Failed E_stack_overflow s') else do_return s'
  | IReturn => do_return s
  | IGlobalStop => Ok (Done s)
  | IStop =>
    match r0 with
    | Some l => Ok (Done (upd s (wr m (LStack base) (mv m (next_loc l))) sp))
    | None => UB
    end
  | IDeref => need 1 s (' (d, m1) <- deref pbits fuel top m ;; Ok (Run (upd s (wr m1 top (mv m1 d)) sp)))
  | IHashOf => need 1 s (' (h, m1) <- get_hash pbits obj_hash fuel top m ;; Ok (Run (upd s (wr m1 top (VInt h)) sp)))
  | IIndex =>
    need 2 s (m1 <- op_index pbits hash_index new_table fuel top second second m ;; Ok (Run (upd s m1 (sp - 1))))
  | IIndexSkip =>
    match r0, r1 with
    | Some a, Some b =>
      m1 <- op_index pbits hash_index new_table fuel a b (LStack sp) m ;; Ok (Run (upd s m1 (S sp)))
    | _, _ => UB
    end
  | ILitIndex k =>
    need 1 s (
    m1 <- op_index pbits hash_index new_table fuel (LStack sp) top top (wr m (LStack sp) (VInt k)) ;;
    Ok (Run (upd s m1 sp)))
  | IVarIndex q n k c =>
    m1 <- op_index pbits hash_index new_table fuel (LStack (S sp)) (vloc (vfb s) q n) (LStack sp) (wr m (LStack (S sp)) (VInt k)) ;;
    let s' := upd s m1 (S sp) in Ok (if c then checked_run s' else Run s')
  | ISwap n =>
    need (Nat.max n 1) s (
    let x := mv m top in let y := mv m (LStack (sp - n)) in
    Ok (Run (upd s (wr (wr m top y) (LStack (sp - n)) x) sp)))
  | ISwap2 a b =>
    need (Nat.max (Nat.max a b) 2) s (
    let x := mv m top in let y := mv m (LStack (sp - a)) in
    let m1 := wr (wr m top y) (LStack (sp - a)) x in
    let x' := mv m1 second in let y' := mv m1 (LStack (sp - b)) in
    Ok (Run (upd s (wr (wr m1 second y') (LStack (sp - b)) x') sp)))
  | ILoad q n => Ok (checked_run (push s (VRef (vloc (vfb s) q n))))
  | IValues q0 q1 a b =>
    Ok (Run (mkVm m (vpc s) sp (vfb s) (Some (vloc (vfb s) q0 a)) (Some (vloc (vfb s) q1 b)) (vslice s)))
  | IBin b =>
    need 2 s (
    m1 <- bin b fuel top second second m ;;
    let s' := upd s m1 (sp - 1) in trapped second s' (Run s'))
  | IBinSkip b =>
    match r0, r1 with
    | Some x, Some y =>
      m1 <- bin b fuel y x (LStack sp) m ;; Ok (checked_run (upd s m1 (S sp)))
    | _, _ => UB
    end
  | IBin2 b s1 s2 x y =>
    m1 <- bin b fuel (vloc (vfb s) s2 y) (vloc (vfb s) s1 x) (LStack sp) m ;;
    let s' := upd s m1 (S sp) in
    match b with BDiv => trapped (LStack sp) s' (checked_run s') | _ => Ok (checked_run s') end
  | IBinStore b q n =>
    need 2 s (
    m1 <- bin b fuel top second (vloc (vfb s) q n) m ;;
    let s' := upd s m1 (sp - 2) in trapped (vloc (vfb s) q n) s' (Run s'))
  | INot =>
    need 1 s (' (b, m1) <- logical_not pbits obj_hash fuel (type_of (mv m top)) top m ;;
              Ok (Run (upd s (wr m1 top (VInt (Z.b2z b))) sp)))
  | INeg =>
    need 1 s (m1 <- negate pbits obj_hash fuel (type_of (mv m top)) top top m ;; Ok (Run (upd s m1 sp)))
  | IBitNot =>
    need 1 s (' (r, m1) <- bitwise_not pbits obj_hash fuel (type_of (mv m top)) top m ;;
              Ok (Run (upd s (wr m1 top (VInt r)) sp)))
  | IToInt => need 1 s (' (r, m1) <- asInt pbits fuel top m ;; Ok (Run (upd s (wr m1 top (VInt (u32 r))) sp)))
  | IToFloat => need 1 s (' (r, m1) <- as_float top m ;; Ok (Run (upd s (wr m1 top (VFlt r)) sp)))
  | ICmp c =>
    need 2 s (' (b, m1) <- cmpr c fuel top second m ;; Ok (Run (upd s (wr m1 second (VInt (Z.b2z b))) (sp - 1))))
  | ICmp2 c q x y =>
    ' (b, m1) <- cmpr c fuel (vloc (vfb s) q y) (vloc (vfb s) q x) m ;;
    Ok (checked_run (upd s (wr m1 (LStack sp) (VInt (Z.b2z b))) (S sp)))
  | ICmpS c q x =>
    need 1 s (' (b, m1) <- cmpr c fuel (vloc (vfb s) q x) top m ;; Ok (Run (upd s (wr m1 top (VInt (Z.b2z b))) sp)))
  | IJump t => Ok (force_yield (set_pc s t))
  | IBZ t =>
    need 1 s (
    ' (z, m1) <- logical_not pbits obj_hash fuel (type_of (mv m top)) top m ;;
    let s' := upd s m1 (sp - 1) in Ok (force_yield (if z : bool then set_pc s' t else s')))
  | IVarBZ q n t =>
    let l := vloc (vfb s) q n in
    ' (z, m1) <- logical_not pbits obj_hash fuel (type_of (mv m l)) l m ;;
    let s' := upd s m1 sp in Ok (force_yield (if z : bool then set_pc s' t else s'))
  | ICmpB c t =>
    need 2 s (
    ' (b, m1) <- cmpr c fuel top second m ;;
    let s' := upd s m1 (sp - 2) in Ok (force_yield (if b : bool then s' else set_pc s' t)))
  | ICmp2B c q x y t =>
    ' (b, m1) <- cmpr c fuel (vloc (vfb s) q y) (vloc (vfb s) q x) m ;;
    let s' := upd s m1 sp in Ok (Run (if b : bool then s' else set_pc s' t))
  | ICmpSB c q x t =>
    need 1 s (
    ' (b, m1) <- cmpr c fuel (vloc (vfb s) q x) top m ;;
    let s' := upd s m1 (sp - 1) in Ok (Run (if b : bool then s' else set_pc s' t)))
  | IPost d => need 1 s (m1 <- eval_post pbits obj_hash d fuel top m ;; Ok (Run (upd s m1 sp)))
  | IPre d => need 1 s (m1 <- eval_pre pbits obj_hash d fuel top m ;; Ok (Run (upd s m1 sp)))
  | IPrePop d => need 1 s (m1 <- eval_pre pbits obj_hash d fuel top m ;; Ok (Run (upd s m1 (sp - 1))))
  | IIncVar d q n => m1 <- eval_pre pbits obj_hash d fuel (vloc (vfb s) q n) m ;; Ok (Run (upd s m1 sp))
  | IAssign =>
    need 2 s (
    m1 <- wr_assign pbits fuel (type_of (mv m top)) (type_of (mv m second)) top second m ;;
    let s' := upd s m1 (sp - 1) in trapped top s' (Run s'))
  | IAssignPop =>
    need 2 s (
    m1 <- wr_assign pbits fuel (type_of (mv m top)) (type_of (mv m second)) top second m ;;
    let s' := upd s m1 (sp - 2) in trapped top s' (Run s'))
  | IAssignTo q n =>
    let l := vloc (vfb s) q n in
    need 1 s (
    m1 <- wr_assign pbits fuel (type_of (mv m l)) (type_of (mv m top)) l top m ;; Ok (Run (upd s m1 (sp - 1))))
  | ICompound b =>
    need 2 s (
    m1 <- eval_assign pbits obj_hash as_string trap b fuel top second m ;;
    let s' := upd s m1 (sp - 1) in trapped top s' (Run s'))
  | ICompoundPop b =>
    need 2 s (
    m1 <- eval_assign pbits obj_hash as_string trap b fuel top second m ;;
    let s' := upd s m1 (sp - 2) in trapped top s' (Run s'))
  | ILitTo q n v => Ok (Run (upd s (wr m (vloc (vfb s) q n) v) sp))
  | IInitVar => need 1 s (' (d, m1) <- deref pbits fuel top m ;; Ok (Run (upd s (wr m1 d (VInt 0)) sp)))
  | IInitArray =>
    need 2 s (
    m1 <- single_value pbits obj_hash fuel top m ;;
    ' (d, m2) <- deref pbits fuel second m1 ;;
    Ok (Run (upd s (new_array m2 d (Z.to_nat (rdi pbits m2 LTemp1))) (sp - 1))))
  | IAssignArr k =>
    (* vm.cpp:1578-1598: index slot at stackTop, target slot above it *)
    need 2 s (
    m1 <- op_index pbits hash_index new_table fuel (LStack sp) second (LStack (S sp)) (wr m (LStack sp) (VInt k)) ;;
    m2 <- wr_assign pbits fuel (type_of (mv m1 (LStack (S sp)))) (type_of (mv m1 top)) (LStack (S sp)) top m1 ;;
    Ok (Run (upd s m2 (sp - 1))))
  | ISwitch =>
    need 1 s (' (h, m1) <- get_hash pbits obj_hash fuel top m ;; do_switch h (upd s m1 (sp - 1)))
  | ISwitchLinear =>
    need 1 s (' (h, m1) <- get_hash pbits obj_hash fuel top m ;; do_switch_linear h (upd s m1 (sp - 1)))
  | IDebug => Ok (Run s)
  | IExt o => ext o s
  end.

Definition step (s : vm) : res outcome :=
  match decode code (vpc s) with
  | Some (i, n) => exec i (mkVm (vmem s) n (vsp s) (vfb s) (vr0 s) (vr1 s) (vslice s))
  | None => UB
  end.

(* the interpreter loop; [n] bounds the number of instructions *)
Fixpoint run (n : nat) (s : vm) : res outcome :=
  match n with
  | O => OutOfFuel
  | S k =>
    o <- step s ;;
    match o with Run s' => run k s' | _ => Ok o end
  end.

(* entry after a yield, vm.cpp:684-710.  [ips] is w->instructionsPerSlice *)
Definition resume (ips : Z) (args : nat) (forced : bool) (s : vm) : vm :=
  let m := if (args =? 0)%nat then vmem s else wr (vmem s) (LStack (vsp s - args)) (mv (vmem s) (LStack (vsp s))) in
  let sp := (vsp s - args)%nat in
  mkVm m (vpc s) (if forced then sp else S sp) (vfb s) None None ips.

(* wr_callFunction( context, function, argv, argn ) by the host, vm.cpp:717-731: the stack starts
   with a zero and the arguments; the called function returns to stopLocation *)
Fixpoint push_args (m : mem) (p : nat) (argv : list value) : mem :=
  match argv with [] => m | v :: r => push_args (wr m (LStack p) v) (S p) r end.
Definition host_call (ips : Z) (stop : Z) (f : fn) (argv : list value) (m : mem) : res outcome :=
  let m1 := push_args (wr m (LStack base) (VInt 0)) (S base) argv in
  call_fn f (length argv) stop (mkVm m1 stop (S base + length argv) 0 None None ips).
End Vm.
