(* What a literal token becomes: cc/cc.cpp:755-800 pushLiteral, for the three kinds of value a token has. *)
From Verif Require Import Base HashModel OpsModel VmModel EmitModel ExprModel ExprEmit TokenModel.
Open Scope Z_scope.

(* expression.cpp:79-98: a token with a value is a literal; literalString is the text of the token.
   cc.cpp:784-793: the length is stored as int16_t; 794-799: the bits of the float *)
Definition push_token (t : tok) (b : bcode) : cres bcode :=
  match t_val t with
  | IntVal n => push_literal (s32 n) b
  | TextVal => b1 <~ push_opcode O_LiteralString b ;; COk (push_data (wr_pack16 (Base.s16 (lenZ (t_text t))) ++ t_text t) b1)
  | FloatVal f => b1 <~ push_opcode O_LiteralFloat b ;; COk (push_data (wr_pack32 f) b1)
  | NoVal => CErr E_bad_expression       (* not a literal: pushLiteral is not called *)
  end.
