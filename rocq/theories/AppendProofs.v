(* Appending a block changes the code and the cache only, besides merging the name spaces. *)
From Verif Require Import Base BaseLemmas OpsModel VmModel EmitModel CcModel JumpSpec JumpProofs JumpProps LinkSpec CtlSpec LayProofs.

(* ---- what the operations leave alone ---- *)
Lemma push_frame o b b1 : push_opcode o b = COk b1 -> b1 = set_code b (b_all b1) (b_ops b1).
Proof. unfold push_opcode. destruct (fuse o (b_ops b) (rev (b_all b))); intros E; try discriminate E; injection E as <-; reflexivity. Qed.
Lemma push_set_jumps o b js b1 : push_opcode o b = COk b1 -> push_opcode o (set_jumps b js) = COk (set_jumps b1 js).
Proof.
  unfold push_opcode. cbn [set_jumps b_ops b_all]. destruct (fuse o (b_ops b) (rev (b_all b))); intros E; try discriminate E; injection E as <-; reflexivity.
Qed.
(* appendBytecode behind the merging of the name spaces *)
Definition append_code (b add : bcode) : cres bcode :=
  let no_goto := match b_gotos add with [] => true | _ => false end in
  let top := match b_ops b with o :: _ => load_of o | [] => None end in
  match top, b_ops add, b_all add, rev (b_all b), no_goto with
  | Some s, [O_IndexLiteral16], _ :: x :: y :: more, p0 :: _ :: r, true =>
    let op := lit_to s O_IndexGlobalLiteral16 O_IndexLocalLiteral16 in
    COk (set_code b (rev r ++ byte_of op :: p0 :: x :: y :: more) [op])
  | Some s, [O_IndexLiteral8], _ :: x :: more, p0 :: _ :: r, true =>
    let op := lit_to s O_IndexGlobalLiteral8 O_IndexLocalLiteral8 in
    COk (set_code b (rev r ++ byte_of op :: p0 :: x :: more) [op])
  | Some s, [O_Index; o0], [_; x; _], p0 :: _ :: r, true =>
    match load_of o0 with
    | Some s' =>
      COk (set_code b (rev r ++ [byte_of (values_op s' s); x; p0; byte_of O_IndexSkipLoad])
                      (O_IndexSkipLoad :: o0 :: b_ops b))
    | None => append_plain b add
    end
  | _, _, _, _, _ =>
    match b_ops add, b_all add with
    | o :: _, [_] =>
      if op_eqb (last (b_ops add) o) O_HASH_PLACEHOLDER then
        match b_ops b, rev (b_all b) with
        | O_LoadFromLocal :: O_LiteralInt32 :: _, p0 :: _ :: p2 :: p3 :: p4 :: p5 :: _ :: r =>
          COk (set_code b (rev r ++ [byte_of O_LocalIndexHash; p0; p5; p4; p3; p2]) [])
        | O_LoadFromGlobal :: O_LiteralInt32 :: _, p0 :: _ :: p2 :: p3 :: p4 :: p5 :: _ :: r =>
          COk (set_code b (rev r ++ [byte_of O_GlobalIndexHash; p0; p5; p4; p3; p2]) [])
        | O_StackSwap :: O_LiteralInt32 :: _, _ :: _ :: p2 :: p3 :: p4 :: p5 :: _ :: r =>
          COk (set_code b (rev r ++ [byte_of O_StackIndexHash; p5; p4; p3; p2]) [])
        | _, _ => CErr E_compiler_panic
        end
      else push_opcode (last (b_ops add) o) b
    | [], [_] => CUB
    | _, _ => append_plain b add
    end
  end.
Lemma append_split b e : append_bytecode b e = append_code (merge_spaces b e) e.
Proof. reflexivity. Qed.
(* nothing else changes *)
Definition framed (b : bcode) (r : cres bcode) : Prop := match r with COk b1 => b1 = set_code b (b_all b1) (b_ops b1) | _ => True end.
Lemma append_plain_frame b e : framed b (append_plain b e).
Proof. unfold append_plain, framed. destruct (resolve_jumps e); cbn; auto. Qed.
Lemma push_frame' o b : framed b (push_opcode o b).
Proof. unfold framed. destruct (push_opcode o b) eqn:E; auto. now apply push_frame in E. Qed.
Lemma append_code_frame b e : framed b (append_code b e).
Proof.
  unfold append_code. cbv zeta.
  assert (D : framed b match b_ops e, b_all e with
    | o :: _, [_] =>
      if op_eqb (last (b_ops e) o) O_HASH_PLACEHOLDER then
        match b_ops b, rev (b_all b) with
        | O_LoadFromLocal :: O_LiteralInt32 :: _, p0 :: _ :: p2 :: p3 :: p4 :: p5 :: _ :: r =>
          COk (set_code b (rev r ++ [byte_of O_LocalIndexHash; p0; p5; p4; p3; p2]) [])
        | O_LoadFromGlobal :: O_LiteralInt32 :: _, p0 :: _ :: p2 :: p3 :: p4 :: p5 :: _ :: r =>
          COk (set_code b (rev r ++ [byte_of O_GlobalIndexHash; p0; p5; p4; p3; p2]) [])
        | O_StackSwap :: O_LiteralInt32 :: _, _ :: _ :: p2 :: p3 :: p4 :: p5 :: _ :: r =>
          COk (set_code b (rev r ++ [byte_of O_StackIndexHash; p5; p4; p3; p2]) [])
        | _, _ => CErr E_compiler_panic
        end
      else push_opcode (last (b_ops e) o) b
    | [], [_] => CUB
    | _, _ => append_plain b e
    end).
  { destruct (b_ops e) as [|o l]; destruct (b_all e) as [|x [|y r]]; try apply append_plain_frame; [exact I|].
    destruct (op_eqb _ _); [|apply push_frame'].
    repeat (match goal with |- framed _ (match ?x with _ => _ end) => destruct x end; try exact I; try reflexivity). }
  repeat (match goal with |- framed _ (match ?x with _ => _ end) => destruct x end; try exact D; try reflexivity; try apply append_plain_frame).
Qed.
Lemma append_frame b e b1 : append_bytecode b e = COk b1 -> b1 = set_code (merge_spaces b e) (b_all b1) (b_ops b1).
Proof. rewrite append_split. intros E. pose proof (append_code_frame (merge_spaces b e) e) as F. rewrite E in F. exact F. Qed.
