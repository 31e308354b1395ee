(* Debugger packets: debug/packet.h, debug/packet.cpp, debug/debug.cpp:29-75, the loop-back, TCP and
   serial transports.  A packet in memory is four 32-bit words in the machine's own byte order
   followed by the bytes that were allocated behind them. *)
From Verif Require Import Base.

(* packet.h:62-87 *)
Record packet := mkP { p_size : Z; p_type : Z; p_par1 : Z; p_par2 : Z; p_data : list Z }.
Definition HDR : Z := 16.                         (* sizeof(WrenchPacket) *)

(* how a machine lays out a 32-bit word; [be] is WRENCH_BIG_ENDIAN *)
Definition le_bytes (n : Z) : list Z := [n mod 256; (n / 256) mod 256; (n / 65536) mod 256; (n / 16777216) mod 256].
Definition word_bytes (be : bool) (n : Z) : list Z := if be then rev (le_bytes n) else le_bytes n.
Definition le_read (b : list Z) : Z :=
  match b with b0 :: b1 :: b2 :: b3 :: _ => u32 (b0 + b1 * 256 + b2 * 65536 + b3 * 16777216) | _ => 0 end.
Definition word_read (be : bool) (b : list Z) : Z := le_read (if be then rev (firstn 4 b) else b).
(* vm.h:154 (little endian: nothing), utils.cpp:81-87 (big endian: READ_32_FROM_PC of the word's bytes,
   which reads the low byte first) *)
Definition x32 (be : bool) (n : Z) : Z := if be then le_read (word_bytes true n) else n.

(* packet.h:76-77 *)
Definition payload_size (p : packet) : Z := if p_size p <=? HDR then 0 else p_size p - HDR.
(* packet.cpp:39-43 *)
Definition packet_of_type (t : Z) : packet := mkP 0 (u32 t) 0 0 [].
(* packet.cpp:55-73 with a payload, or without (the allocated bytes are then unspecified: [junk]) *)
Definition alloc (type : Z) (payload : list Z) : packet := mkP (u32 (HDR + lenZ payload)) type 0 0 payload.
Definition image (be : bool) (p : packet) : list Z :=
  word_bytes be (p_size p) ++ word_bytes be (p_type p) ++ word_bytes be (p_par1 p) ++ word_bytes be (p_par2 p) ++ p_data p.
(* packet.cpp:76-87 *)
Definition xlate (be : bool) (p : packet) : packet :=
  mkP (x32 be (p_size p)) (x32 be (p_type p)) (x32 be (p_par1 p)) (x32 be (p_par2 p)) (p_data p).

(* tcp_debug_comm.cpp:72-88, serial_debug_comm.cpp:46-62 sendEx( data, int bytes ): calls the system until
   everything is gone.  [sched] drives the successive system calls: -1 is an error, otherwise n bytes are
   taken, but never more than asked for.  SUB: a read outside the packet.  SPending: the calls given
   by [sched] did not suffice. *)
Inductive sent := SOk (wire : list Z) | SFail (wire : list Z) | SPending | SUB.
Fixpoint send_loop (sched : list Z) (data : list Z) (bytes : Z) : sent :=
  if bytes <=? 0 then SOk []
  else match sched with
  | [] => SPending
  | n :: s =>
    if n =? -1 then SFail []
    else let k := Z.max 0 (Z.min n bytes) in
         if lenZ data <? k then SUB
         else match send_loop s (skipn (Z.to_nat k) data) (bytes - k) with
              | SOk w => SOk (firstn (Z.to_nat k) data ++ w)
              | SFail w => SFail (firstn (Z.to_nat k) data ++ w)
              | r => r
              end
  end.
(* debug.cpp:30-36 *)
Definition send (be : bool) (sched : list Z) (p : packet) : sent * packet :=
  let p1 := xlate be p in
  (send_loop sched (image be p1) (s32 (p_size p)), xlate be p1).

(* recvEx, tcp_debug_comm.cpp:91-108, serial_debug_comm.cpp:65-82: a call delivers at most what was asked
   for and what has arrived *)
Inductive got := GOk (data rest : list Z) | GFail | GPending.
Fixpoint recv_loop (sched : list Z) (wire : list Z) (bytes : Z) : got * list Z :=
  if bytes <=? 0 then (GOk [] wire, sched)
  else match sched with
  | [] => (GPending, [])
  | n :: s =>
    if n =? -1 then (GFail, s)
    else let k := Z.max 0 (Z.min n (Z.min bytes (lenZ wire))) in
         match recv_loop s (skipn (Z.to_nat k) wire) (bytes - k) with
         | (GOk d r, s') => (GOk (firstn (Z.to_nat k) wire ++ d) r, s')
         | r => r
         end
  end.
(* debug.cpp:39-73.  [avail] is what peekEx reports. *)
Inductive received := ROk (p : packet) (rest : list Z) | RNone | RPending.
Definition receive (be : bool) (avail : Z) (sched : list Z) (wire : list Z) : received :=
  if avail <? HDR then RNone
  else match recv_loop sched wire HDR with
  | (GOk h w, s) =>
    let p := xlate be (mkP (word_read be h) (word_read be (skipn 4 h)) (word_read be (skipn 8 h)) (word_read be (skipn 12 h)) []) in
    if payload_size p =? 0 then ROk p w
    else match recv_loop s w (s32 (payload_size p)) with
         | (GOk d w', _) => ROk (mkP (p_size p) (p_type p) (p_par1 p) (p_par2 p) d) w'
         | (GFail, _) => RNone
         | (GPending, _) => RPending
         end
  | (GFail, _) => RNone
  | (GPending, _) => RPending
  end.
(* std_tcp.cpp:487-501: on Linux wr_peekTCPEx is the result of poll() on one descriptor *)
Definition linux_peek (wire : list Z) : Z := match wire with [] => 0 | _ => 1 end.

(* debug_comm.h:47-63 the loop-back transport; a queue with addHead and popTail (utils/simple_ll.h).
   packet.cpp:46-52 alloc( base ) copies base.size bytes.  None: outside the block. *)
Definition alloc_copy (p : packet) : option packet :=
  if (p_size p <? HDR) || (HDR + lenZ (p_data p) <? p_size p) then None
  else Some (mkP (p_size p) (p_type p) (p_par1 p) (p_par2 p) (firstn (Z.to_nat (p_size p - HDR)) (p_data p))).
Definition loop_send (p : packet) (q : list packet) : option (list packet) := option_map (fun c => c :: q) (alloc_copy p).
Definition loop_receive (q : list packet) : option packet * list packet :=
  match rev q with [] => (None, []) | p :: r => (Some p, rev r) end.
