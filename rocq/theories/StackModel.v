(* The call stack on its way from the target to the client: the reply to WRD_RequestCallstack
   (debug/server_interface_private.cpp:418-448) and WRDebugClientInterface::getCallstack (debug/client_debug.cpp:205-237).
   How packets travel is in PacketModel. *)
From Verif Require Import Base.
From Verif Require Import GCModel LinkedModel PacketModel.
Open Scope list_scope. Open Scope Z_scope.

(* wrench.h:1228-1238: onLine by its 32 bits *)
Record frame := mkFrame { f_line : Z; f_offset : Z; f_from : Z; f_this : Z; f_locals : Z; f_args : Z }.
Definition FRAME : Z := 12.                       (* sizeof(WrenchCallStackEntry), with a byte of padding at the end *)
(* how a machine lays out 16 bits, and wr_x16 (vm.h:155, utils.cpp:89-93) *)
Definition half_bytes (be : bool) (n : Z) : list Z := if be then [(n / 256) mod 256; n mod 256] else [n mod 256; (n / 256) mod 256].
Definition half_read (be : bool) (b0 b1 : Z) : Z := if be then b0 * 256 + b1 else b1 * 256 + b0.
Definition x16 (be : bool) (n : Z) : Z := match half_bytes be n with [b0; b1] => half_read false b0 b1 | _ => 0 end.
(* the struct in memory; [pad] is what the padding happens to hold *)
Definition frame_bytes (be : bool) (pad : Z) (f : frame) : list Z :=
  word_bytes be (f_line f) ++ half_bytes be (f_offset f) ++ [f_from f; f_this f] ++ half_bytes be (f_locals f) ++ [f_args f; pad].
Definition frame_read (be : bool) (b : list Z) : option frame :=
  match b with
  | b0 :: b1 :: b2 :: b3 :: b4 :: b5 :: b6 :: b7 :: b8 :: b9 :: b10 :: _ :: _ =>
    Some (mkFrame (word_read be [b0; b1; b2; b3]) (half_read be b4 b5) b6 b7 (half_read be b8 b9) b10)
  | _ => None
  end.
(* server_interface_private.cpp:440-442, client_debug.cpp:229-231 *)
Definition translated (be : bool) (f : frame) : frame :=
  mkFrame (x32 be (f_line f)) (x16 be (f_offset f)) (f_from f) (f_this f) (x16 be (f_locals f)) (f_args f).
(* server_interface_private.cpp:435-444: the loop; [room] entries fit into the payload *)
Fixpoint pack_from (fuel : nat) (room : Z) (be : bool) (pad : Z) (l : ll frame) (p : option nat) : res (ll frame * list Z) :=
  match fuel with
  | O => OutOfFuel
  | S f => match p with
    | None => Ok (l, [])
    | Some a =>
      if room <=? 0 then UB
      else match l_mem l a with
      | None => UB
      | Some n =>
        match ll_next l with
        | Ok (l1, q) => match pack_from f (room - 1) be pad l1 q with
                        | Ok (l2, b) => Ok (l2, frame_bytes be pad (translated be (n_item n)) ++ b)
                        | UB => UB | OutOfFuel => OutOfFuel
                        end
        | UB => UB | OutOfFuel => OutOfFuel
        end
      end
    end
  end.
(* server_interface_private.cpp:428-444: param1 and the payload of the reply *)
Definition pack (be : bool) (pad : Z) (l : ll frame) : res (ll frame * (Z * list Z)) :=
  match ll_count l with
  | Ok (l1, count) =>
    let (l2, p) := ll_first l1 in
    match pack_from (S (l_fresh l)) count be pad l2 p with Ok (l3, b) => Ok (l3, (count, b)) | UB => UB | OutOfFuel => OutOfFuel end
  | UB => UB | OutOfFuel => OutOfFuel
  end.
(* client_debug.cpp:226-233: the loop *)
Fixpoint unpack_from (count : nat) (be : bool) (b : list Z) (l : ll frame) : res (ll frame) :=
  match count with
  | O => Ok l
  | S c => match frame_read be b with
           | None => UB
           | Some f => match ll_add_tail (translated be f) l with Ok l1 => unpack_from c be (skipn (Z.to_nat FRAME) b) l1 | UB => UB | OutOfFuel => OutOfFuel end
           end
  end.
(* client_debug.cpp:212-233, with the reply *)
Definition unpack (be : bool) (reply : Z * list Z) (l : ll frame) : res (ll frame) :=
  match ll_clear l with Ok l1 => unpack_from (Z.to_nat (u32 (fst reply))) be (snd reply) l1 | UB => UB | OutOfFuel => OutOfFuel end.
