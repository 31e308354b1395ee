(* Properties of the debugger transport (C43). *)
From Verif Require Import Base BaseLemmas PacketModel.

(* a packet whose size field tells how many bytes it has, as alloc makes them *)
Definition packet_ok (p : packet) : Prop :=
  p_size p = HDR + lenZ (p_data p) /\ p_size p < 2147483648 /\
  is_u32 (p_type p) /\ is_u32 (p_par1 p) /\ is_u32 (p_par2 p).

Lemma le_bytes_read n : is_u32 n -> le_read (le_bytes n) = n.
Proof. intros H. unfold le_bytes, le_read. rewrite u32_id; [|unfold is_u32 in *]; unfold is_u32 in H; lia. Qed.
Lemma word_len be n : length (word_bytes be n) = 4%nat.
Proof. destruct be; reflexivity. Qed.
Lemma bytes4 n : is_u32 n -> exists a b c d, le_bytes n = [a; b; c; d] /\ n = a + b * 256 + c * 65536 + d * 16777216 /\
  0 <= a < 256 /\ 0 <= b < 256 /\ 0 <= c < 256 /\ 0 <= d < 256.
Proof.
  intros H. exists (n mod 256), (n / 256 mod 256), (n / 65536 mod 256), (n / 16777216 mod 256). split; [reflexivity|].
  unfold is_u32 in H. repeat split; try (apply Z.mod_pos_bound; lia); lia.
Qed.
Lemma bytes4_inv a b c d : 0 <= a < 256 -> 0 <= b < 256 -> 0 <= c < 256 -> 0 <= d < 256 ->
  le_bytes (a + b * 256 + c * 65536 + d * 16777216) = [a; b; c; d].
Proof.
  intros A B C D. unfold le_bytes.
  assert (E0 : (a + b * 256 + c * 65536 + d * 16777216) mod 256 = a) by lia.
  assert (E1 : (a + b * 256 + c * 65536 + d * 16777216) / 256 mod 256 = b) by lia.
  assert (E2 : (a + b * 256 + c * 65536 + d * 16777216) / 65536 mod 256 = c) by lia.
  assert (E3 : (a + b * 256 + c * 65536 + d * 16777216) / 16777216 mod 256 = d) by lia.
  now rewrite E0, E1, E2, E3.
Qed.
Lemma read4 a b c d : 0 <= a < 256 -> 0 <= b < 256 -> 0 <= c < 256 -> 0 <= d < 256 ->
  le_read [a; b; c; d] = a + b * 256 + c * 65536 + d * 16777216.
Proof. intros. unfold le_read. apply u32_id. unfold is_u32. lia. Qed.
Lemma x32_bytes be n : is_u32 n -> word_bytes be (x32 be n) = le_bytes n.
Proof.
  intros H. destruct be; [|reflexivity]. unfold x32, word_bytes. destruct (bytes4 n H) as [a [b [c [d [-> [_ [A [B [C D]]]]]]]]].
  cbn [rev app]. rewrite read4, bytes4_inv by auto. reflexivity.
Qed.
Lemma x32_range be n : is_u32 n -> is_u32 (x32 be n).
Proof. intros H. destruct be; [|auto]. unfold x32, le_read, word_bytes, le_bytes. cbn [rev app]. unfold is_u32, u32. apply Z.mod_pos_bound. lia. Qed.
Lemma x32_invol be n : is_u32 n -> x32 be (x32 be n) = n.
Proof.
  intros H. destruct be; [|reflexivity]. unfold x32 at 1. rewrite x32_bytes by auto. now apply le_bytes_read.
Qed.
(* what travels for one word is the little endian order, from and to either kind of machine *)
Lemma read_x32 be n r : is_u32 n -> x32 be (word_read be (le_bytes n ++ r)) = n.
Proof.
  intros H. unfold word_read. destruct be.
  - change (firstn 4 (le_bytes n ++ r)) with (le_bytes n). rewrite <- (x32_bytes true n H). unfold word_bytes. rewrite rev_involutive.
    rewrite le_bytes_read by (now apply x32_range). now apply x32_invol.
  - cbn [x32]. change (le_read (le_bytes n ++ r)) with (le_read (le_bytes n)). now apply le_bytes_read.
Qed.
Definition wire_of (p : packet) : list Z := le_bytes (p_size p) ++ le_bytes (p_type p) ++ le_bytes (p_par1 p) ++ le_bytes (p_par2 p) ++ p_data p.
Lemma wire_len p : packet_ok p -> lenZ (wire_of p) = p_size p.
Proof. intros [S _]. unfold wire_of, lenZ in *. rewrite !app_length. cbn [length le_bytes]. unfold HDR in S. lia. Qed.
Lemma image_wire be p : packet_ok p -> image be (xlate be p) = wire_of p.
Proof.
  intros [S [B [T [P1 P2]]]]. unfold image, xlate. cbn [p_size p_type p_par1 p_par2 p_data].
  rewrite !x32_bytes; auto. unfold is_u32, HDR, lenZ in *. lia.
Qed.
Lemma xlate_invol be p : packet_ok p -> xlate be (xlate be p) = p.
Proof.
  intros [S [B [T [P1 P2]]]]. unfold xlate. cbn [p_size p_type p_par1 p_par2 p_data]. rewrite !x32_invol; auto; [now destruct p|].
  unfold is_u32, HDR, lenZ in *. lia.
Qed.
Lemma send_spec sched : forall data bytes, bytes = lenZ data -> forall w,
  send_loop sched data bytes <> SUB /\ (send_loop sched data bytes = SOk w -> w = data).
Proof.
  induction sched as [|n s IH]; intros data bytes HB w; cbn [send_loop].
  - destruct (bytes <=? 0) eqn:E; [|split; discriminate]. split; [discriminate|]. intros [= <-]. subst bytes. unfold lenZ in E. destruct data; [auto|cbn in E; lia].
  - destruct (bytes <=? 0) eqn:E.
    { split; [discriminate|]. intros [= <-]. subst bytes. unfold lenZ in E. destruct data; [auto|cbn in E; lia]. }
    destruct (n =? -1) eqn:N; [split; discriminate|]. set (k := Z.max 0 (Z.min n bytes)). cbv zeta.
    replace (lenZ data <? k) with false by (symmetry; apply Z.ltb_ge; unfold k; lia).
    assert (HB' : bytes - k = lenZ (skipn (Z.to_nat k) data)) by (unfold lenZ in *; rewrite skipn_length; unfold k; lia).
    destruct (IH _ _ HB' (skipn (Z.to_nat k) data)) as [A _].
    destruct (send_loop s (skipn (Z.to_nat k) data) (bytes - k)) as [w'|w'| |] eqn:R; split; try discriminate; try congruence.
    destruct (IH _ _ HB' w') as [_ B]. rewrite (B R). intros [= <-]. apply firstn_skipn.
Qed.
Lemma recv_spec sched : forall wire bytes d rest s', 0 <= bytes -> bytes <= lenZ wire ->
  recv_loop sched wire bytes = (GOk d rest, s') -> d = firstn (Z.to_nat bytes) wire /\ rest = skipn (Z.to_nat bytes) wire.
Proof.
  induction sched as [|n s IH]; intros wire bytes d rest s' B0 B H; cbn [recv_loop] in H.
  - destruct (bytes <=? 0) eqn:E; [|discriminate]. injection H as <- <- <-. replace bytes with 0 by lia. auto.
  - destruct (bytes <=? 0) eqn:E; [injection H as <- <- <-; replace bytes with 0 by lia; auto|].
    destruct (n =? -1); [discriminate|]. cbv zeta in H. set (k := Z.max 0 (Z.min n (Z.min bytes (lenZ wire)))) in *.
    assert (K : 0 <= k <= bytes) by (unfold k, lenZ in *; lia).
    destruct (recv_loop s (skipn (Z.to_nat k) wire) (bytes - k)) as [[d' r| |] s2] eqn:R; try discriminate.
    injection H as <- <- <-. apply IH in R; [|lia|unfold lenZ in *; rewrite skipn_length; lia]. destruct R as [-> ->].
    replace (Z.to_nat (bytes - k)) with (Z.to_nat bytes - Z.to_nat k)%nat by lia. split.
    + rewrite firstn_skipn_comm. replace (Z.to_nat k + (Z.to_nat bytes - Z.to_nat k))%nat with (Z.to_nat bytes) by lia.
      rewrite <- (firstn_skipn (Z.to_nat k) (firstn (Z.to_nat bytes) wire)) at 2. f_equal. rewrite firstn_firstn. f_equal. lia.
    + assert (SS : forall (l : list Z) a b, skipn a (skipn b l) = skipn (b + a) l).
      { clear. intros l a b. revert l. induction b; intros l; [reflexivity|]. destruct l; cbn [Nat.add skipn]; [now rewrite skipn_nil|auto]. }
      rewrite SS. f_equal. lia.
Qed.

(* C43: whatever the byte orders of the two machines and however the transport cuts the stream into
   pieces, a sent packet that is received is the packet, and the sender's own copy is unchanged.
   What follows on the wire is left for the next receive. *)
Theorem c43_packet_transport_partial : forall be1 be2 sched1 sched2 avail p w p' more r rest,
  packet_ok p ->
  send be1 sched1 p = (SOk w, p') ->
  receive be2 avail sched2 (w ++ more) = ROk r rest ->
  p' = p /\ r = p /\ rest = more.
Proof.
  intros be1 be2 s1 s2 avail p w p' more r rest OK HS HR. unfold send in HS. injection HS as HS <-.
  rewrite (xlate_invol be1 p OK). split; [reflexivity|].
  rewrite (image_wire be1 p OK) in HS. pose proof (wire_len p OK) as WL.
  pose proof OK as [S [B [T [P1 P2]]]]. assert (Q : is_u32 (p_size p)) by (unfold is_u32, HDR, lenZ in *; lia).
  assert (SS : s32 (p_size p) = p_size p) by (apply s32_id; unfold is_s32, HDR, lenZ in *; lia).
  rewrite SS in HS. destruct (send_spec s1 (wire_of p) (p_size p) ltac:(lia) w) as [_ W]. rewrite (W HS) in *. clear W HS.
  unfold receive in HR. destruct (avail <? HDR); [discriminate|].
  destruct (recv_loop s2 (wire_of p ++ more) HDR) as [[h w2| |] s3] eqn:R1; try discriminate.
  apply recv_spec in R1; [|unfold HDR; lia|unfold HDR, lenZ in *; rewrite app_length; lia].
  destruct R1 as [-> ->].
  assert (X : xlate be2 (mkP (word_read be2 (firstn (Z.to_nat HDR) (wire_of p ++ more)))
       (word_read be2 (skipn 4 (firstn (Z.to_nat HDR) (wire_of p ++ more))))
       (word_read be2 (skipn 8 (firstn (Z.to_nat HDR) (wire_of p ++ more))))
       (word_read be2 (skipn 12 (firstn (Z.to_nat HDR) (wire_of p ++ more)))) []) = mkP (p_size p) (p_type p) (p_par1 p) (p_par2 p) []).
  { unfold xlate. cbn [p_size p_type p_par1 p_par2 p_data]. unfold wire_of. rewrite <- !app_assoc.
    set (tail := p_data p ++ more).
    change (firstn (Z.to_nat HDR) (le_bytes (p_size p) ++ le_bytes (p_type p) ++ le_bytes (p_par1 p) ++ le_bytes (p_par2 p) ++ tail))
      with (le_bytes (p_size p) ++ le_bytes (p_type p) ++ le_bytes (p_par1 p) ++ le_bytes (p_par2 p) ++ []).
    change (skipn 4 (le_bytes (p_size p) ++ le_bytes (p_type p) ++ le_bytes (p_par1 p) ++ le_bytes (p_par2 p) ++ []))
      with (le_bytes (p_type p) ++ le_bytes (p_par1 p) ++ le_bytes (p_par2 p) ++ []).
    change (skipn 8 (le_bytes (p_size p) ++ le_bytes (p_type p) ++ le_bytes (p_par1 p) ++ le_bytes (p_par2 p) ++ []))
      with (le_bytes (p_par1 p) ++ le_bytes (p_par2 p) ++ []).
    change (skipn 12 (le_bytes (p_size p) ++ le_bytes (p_type p) ++ le_bytes (p_par1 p) ++ le_bytes (p_par2 p) ++ []))
      with (le_bytes (p_par2 p) ++ []).
    rewrite !read_x32 by auto. reflexivity. }
  rewrite X in HR. clear X. unfold payload_size in HR. cbn [p_size p_type p_par1 p_par2 p_data] in HR.
  assert (TL : skipn (Z.to_nat HDR) (wire_of p ++ more) = p_data p ++ more).
  { unfold wire_of. rewrite <- !app_assoc. reflexivity. }
  rewrite TL in HR. unfold HDR in *. pose proof (Zle_0_nat (length (p_data p))). unfold lenZ in S.
  destruct (p_size p <=? 16) eqn:E.
  - change (0 =? 0) with true in HR. injection HR as <- <-. apply Z.leb_le in E.
    assert (p_data p = []) as D by (apply length_zero_iff_nil; lia).
    rewrite D. split; [destruct p; cbn in *; congruence|reflexivity].
  - destruct (p_size p - 16 =? 0) eqn:E2; [lia|].
    rewrite s32_id in HR by (unfold is_s32; lia).
    destruct (recv_loop s3 (p_data p ++ more) (p_size p - 16)) as [[d w2| |] s4] eqn:R2; try discriminate.
    injection HR as <- <-. apply recv_spec in R2; [|lia|unfold lenZ; rewrite app_length; lia]. destruct R2 as [-> ->].
    replace (Z.to_nat (p_size p - 16)) with (length (p_data p)) by lia.
    rewrite firstn_app, skipn_app, Nat.sub_diag, firstn_all, skipn_all. cbn [firstn skipn app]. rewrite app_nil_r.
    split; [now destruct p|reflexivity].
Qed.
(* nothing outside the packet is read while sending *)
Theorem c43_send_in_bounds : forall be sched p, packet_ok p -> fst (send be sched p) <> SUB.
Proof.
  intros be sched p OK. unfold send. cbn [fst]. rewrite (image_wire be p OK). pose proof (wire_len p OK) as WL.
  pose proof OK as [S [B _]]. rewrite s32_id by (unfold is_s32, HDR, lenZ in *; lia).
  apply (send_spec sched (wire_of p) (p_size p) ltac:(lia) []).
Qed.
(* the packets that alloc( type, size, payload ) makes are of that kind *)
Theorem c43_alloc_ok : forall type payload, is_u32 type -> lenZ payload < 2147483648 - 16 -> packet_ok (alloc type payload).
Proof.
  intros type payload T L. unfold packet_ok, alloc. cbn [p_size p_type p_par1 p_par2 p_data].
  unfold lenZ, HDR in *. rewrite u32_id by (unfold is_u32; lia). repeat split; unfold is_u32 in *; lia.
Qed.
(* a packet made from a type alone, as almost all requests are, has size 0: nothing is sent, and the
   sender is told that it was *)
Theorem c43_request_refuted : forall be sched type, exists p', send be sched (packet_of_type type) = (SOk [], p').
Proof. intros be sched type. eexists. unfold send. f_equal. destruct sched; destruct be; reflexivity. Qed.
(* and copying it for the loop-back transport makes a block without room for the header *)
Theorem c43_request_loopback_refuted : forall type q, loop_send (packet_of_type type) q = None.
Proof. reflexivity. Qed.
(* on Linux the number of readable descriptors, 0 or 1, is taken for the number of bytes: nothing is
   ever received *)
Theorem c43_linux_tcp_refuted : forall be sched wire, receive be (linux_peek wire) sched wire = RNone.
Proof. intros be sched [|x r]; reflexivity. Qed.

(* loop-back: packets come out in the order they went in *)
Fixpoint loop_sends (ps : list packet) (q : list packet) : option (list packet) :=
  match ps with [] => Some q | p :: r => match loop_send p q with Some q' => loop_sends r q' | None => None end end.
Fixpoint loop_receives (n : nat) (q : list packet) : list (option packet) :=
  match n with O => [] | S k => let '(p, q') := loop_receive q in p :: loop_receives k q' end.
Lemma loop_send_ok p q : packet_ok p -> loop_send p q = Some (p :: q).
Proof.
  intros [S _]. unfold loop_send, alloc_copy. unfold HDR, lenZ in *.
  replace ((p_size p <? 16) || (16 + Z.of_nat (length (p_data p)) <? p_size p)) with false
    by (symmetry; apply orb_false_iff; split; apply Z.ltb_ge; lia).
  cbn [option_map]. do 2 f_equal. rewrite S. replace (Z.to_nat (16 + Z.of_nat (length (p_data p)) - 16)) with (length (p_data p)) by lia.
  rewrite firstn_all. rewrite <- S. now destruct p.
Qed.
Theorem c43_loopback_fifo : forall ps, Forall packet_ok ps ->
  exists q, loop_sends ps [] = Some q /\ loop_receives (length ps + 1) q = map Some ps ++ [None].
Proof.
  intros ps H.
  assert (G : forall ps q, Forall packet_ok ps -> loop_sends ps q = Some (rev ps ++ q)).
  { clear. induction ps as [|p r IH]; intros q H; [reflexivity|]. inversion H; subst. cbn [loop_sends rev].
    rewrite loop_send_ok by auto. rewrite IH by auto. now rewrite <- app_assoc. }
  exists (rev ps). split; [rewrite G by auto; now rewrite app_nil_r|]. clear.
  induction ps as [|p r IH]; [reflexivity|]. cbn [length Nat.add loop_receives rev map app]. unfold loop_receive at 1.
  rewrite rev_app_distr, rev_involutive. cbn [rev app]. f_equal. exact IH.
Qed.
(* a packet sent by a big endian machine in three pieces and received by a little endian one in two *)
Example c43_ex :
  let p := alloc 4 [1; 2; 3; 200; 5] in
  packet_ok p /\
  fst (send true [7; 13; 10] p) = SOk [21; 0; 0; 0; 4; 0; 0; 0; 0; 0; 0; 0; 0; 0; 0; 0; 1; 2; 3; 200; 5] /\
  receive false 16 [16; 0; 4; 9] ([21; 0; 0; 0; 4; 0; 0; 0; 0; 0; 0; 0; 0; 0; 0; 0; 1; 2; 3; 200; 5] ++ [9; 9]) = ROk p [9; 9].
Proof.
  split; [apply c43_alloc_ok; [split; [discriminate|reflexivity]|reflexivity]|]. split; vm_compute; reflexivity.
Qed.
Print Assumptions c43_packet_transport_partial.
Print Assumptions c43_send_in_bounds.
Print Assumptions c43_alloc_ok.
Print Assumptions c43_request_refuted.
Print Assumptions c43_request_loopback_refuted.
Print Assumptions c43_linux_tcp_refuted.
Print Assumptions c43_loopback_fifo.
