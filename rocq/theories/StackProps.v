(* C65: the client sees the call stack of the target. *)
From Verif Require Import Base.
From Verif Require Import GCModel LinkedModel LinkedSpec LinkedProofs DebugModel DebugProofs PacketModel PacketProps StackModel.
From Coq Require Import List.
Open Scope list_scope. Open Scope Z_scope.

(* the values the fields of an entry can have *)
Definition frame_ok (f : frame) : Prop :=
  is_u32 (f_line f) /\ 0 <= f_offset f < 65536 /\ 0 <= f_from f < 256 /\ 0 <= f_this f < 256 /\ 0 <= f_locals f < 65536 /\ 0 <= f_args f < 256.

Lemma x16_bytes be n : 0 <= n < 65536 -> half_bytes be (x16 be n) = half_bytes false n.
Proof. intros R. unfold x16. destruct be; unfold half_bytes, half_read; f_equal; [|f_equal| |f_equal]; lia. Qed.
Lemma read_x16 be n : 0 <= n < 65536 -> x16 be (half_read be (n mod 256) ((n / 256) mod 256)) = n.
Proof. intros R. unfold x16. destruct be; unfold half_bytes, half_read; lia. Qed.
(* an entry as it travels *)
Definition travelling (pad : Z) (f : frame) : list Z := le_bytes (f_line f) ++ half_bytes false (f_offset f) ++ [f_from f; f_this f] ++ half_bytes false (f_locals f) ++ [f_args f; pad].
Lemma frame_out be pad f : frame_ok f -> frame_bytes be pad (translated be f) = travelling pad f.
Proof. intros (A & B & C & D & E & F). unfold frame_bytes, translated, travelling. cbn [f_line f_offset f_from f_this f_locals f_args]. now rewrite x32_bytes, !x16_bytes by assumption. Qed.
Lemma frame_in be pad f r : frame_ok f -> exists g, frame_read be (travelling pad f ++ r) = Some g /\ translated be g = f.
Proof.
  intros (A & B & C & D & E & F). eexists. split; [reflexivity|]. unfold translated. cbn [f_line f_offset f_from f_this f_locals f_args]. rewrite !read_x16 by assumption.
  pose proof (read_x32 be (f_line f) [] A) as X. rewrite app_nil_r in X. unfold le_bytes in X. rewrite X. now destruct f.
Qed.
Lemma travelling_len pad f r : skipn (Z.to_nat FRAME) (travelling pad f ++ r) = r.
Proof. reflexivity. Qed.

Lemma pack_spec be pad ps : forall fuel room l p, repr l ps (Some p) -> (length ps - p < fuel)%nat -> (p < length ps)%nat -> Z.of_nat (length ps - p) <= room -> Forall frame_ok (map snd ps) ->
  exists l1, pack_from fuel room be pad l (nth_error (map fst ps) p) = Ok (l1, concat (map (travelling pad) (skipn p (map snd ps)))) /\ exists pos1, repr l1 ps pos1.
Proof.
  induction fuel as [|fuel IH]; intros room l p R LF L RM OK; [lia|]. cbn [pack_from]. destruct (nth_error ps p) as [[a x]|] eqn:E; [|apply nth_error_None in E; lia].
  pose proof (map_nth_error fst _ _ E) as E1. pose proof (map_nth_error snd _ _ E) as E2. cbn [fst snd] in *. pose proof (item_repr _ _ _ p R) as IT. rewrite E1, E2 in IT. rewrite E1. cbn [ll_item] in IT.
  destruct (Z.leb_spec room 0); [lia|]. destruct (l_mem l a) as [n|] eqn:M; [|discriminate IT]. injection IT as IT. rewrite IT.
  assert (OX : frame_ok x) by (rewrite Forall_forall in OK; apply OK; eapply nth_error_In; eauto). rewrite (frame_out be pad x OX).
  assert (SK : skipn p (map snd ps) = x :: skipn (S p) (map snd ps)). { apply nth_error_split in E2 as (u & s & -> & <-). rewrite !skipn_app, skipn_all, (skipn_all2 u) by lia. replace (S (length u) - length u)%nat with 1%nat by lia. rewrite Nat.sub_diag. reflexivity. }
  rewrite SK. cbn [map concat]. destruct (next_repr _ _ _ R) as (l1 & EX & R1). rewrite EX. unfold following in R1. destruct (Nat.ltb_spec (S p) (length ps)) as [B|B].
  - destruct (IH (room - 1) l1 (S p) R1) as (l2 & F & RR); [lia|exact B|lia|exact OK|]. rewrite F. exists l2. split; [reflexivity|exact RR].
  - rewrite (proj2 (nth_error_None _ _)) by (rewrite map_length; exact B). destruct fuel; [lia|]. cbn [pack_from]. exists l1. rewrite skipn_all2 by (rewrite map_length; lia). split; [reflexivity|eauto].
Qed.
Lemma unpack_spec be pad : forall fs l xs, Forall frame_ok fs -> lists l xs -> exists l1, unpack_from (length fs) be (concat (map (travelling pad) fs)) l = Ok l1 /\ lists l1 (xs ++ fs).
Proof.
  induction fs as [|f fs IH]; intros l xs OK L; cbn [length unpack_from map concat]; [exists l; now rewrite app_nil_r|]. inversion OK as [|? ? O1 O2]; subst.
  destruct (frame_in be pad f (concat (map (travelling pad) fs)) O1) as (g & E & T). rewrite E, T, travelling_len. destruct (add_tail_lists _ _ f L) as (l1 & E1 & L1). rewrite E1. destruct (IH l1 (xs ++ [f]) O2 L1) as (l2 & E2 & L2). exists l2. split; [exact E2|]. now rewrite <- app_assoc in L2.
Qed.

(* The target has the call stack fs, the client has shown anything before; the byte orders of the two machines are any.
   The client then shows fs. *)
Theorem c65_call_stack_arrives be1 be2 pad (server client : ll frame) fs old : lists server fs -> lists client old -> Forall frame_ok fs -> lenZ fs < 4294967296 ->
  exists server' reply client', pack be1 pad server = Ok (server', reply) /\ lists server' fs /\
    lenZ (snd reply) = FRAME * fst reply /\ unpack be2 reply client = Ok client' /\ lists client' fs.
Proof.
  intros (ps & pos & R & <-) (qs & qpos & Q & _) OK SM. unfold pack, unpack. pose proof (repr_small _ _ _ R) as RS.
  assert (CL : exists c, ll_clear client = Ok c /\ lists c []).
  { pose proof (repr_small _ _ _ Q) as QS. unfold ll_clear. destruct (clear_repr client qpos qs client (S (l_fresh client)) eq_refl Q ltac:(lia)) as (c & E & R1). exists c. split; [exact E|]. exists [], None. auto. }
  destruct CL as (c & EC & LC). rewrite EC. destruct (unpack_spec be2 pad (map snd ps) c [] OK LC) as (c1 & EU & LU).
  assert (LB : lenZ (concat (map (travelling pad) (map snd ps))) = FRAME * lenZ ps).
  { clear. unfold lenZ, FRAME. induction ps as [|p ps IH]; [reflexivity|]. cbn [map concat]. rewrite app_length, Nat2Z.inj_add, IH. cbn [length]. change (length (travelling pad (snd p))) with 12%nat. lia. }
  unfold lenZ in SM. rewrite map_length in SM, EU.
  assert (CN : Z.to_nat (u32 (lenZ ps)) = length ps) by (unfold u32, lenZ; rewrite Z.mod_small by lia; lia).
  destruct (first_repr _ _ _ R) as (l1 & E1 & R1). unfold ll_count. rewrite E1. destruct ps as [|x ps].
  - cbn [map nth_error ll_count_from]. destruct (first_repr _ _ _ R1) as (l2 & E2 & R2). rewrite E2. cbn [map nth_error pack_from]. eexists l2, _, c1. split; [reflexivity|]. split; [exists [], None; auto|]. split; [reflexivity|]. split; [exact EU|exact LU].
  - destruct (count_repr (x :: ps) (S (l_fresh server)) 0 l1 0 R1) as (l2 & E2 & R2); [lia|cbn; lia|]. rewrite E2. destruct (first_repr _ _ _ R2) as (l3 & E3 & R3). rewrite E3.
    destruct (pack_spec be1 pad (x :: ps) (S (l_fresh server)) (0 + Z.of_nat (length (x :: ps) - 0)) l3 0 R3) as (l4 & E4 & pos4 & R4); [lia|cbn; lia|lia|exact OK|]. rewrite E4. cbn [skipn].
    replace (0 + Z.of_nat (length (x :: ps) - 0)) with (lenZ (x :: ps)) by (unfold lenZ; lia). eexists l4, _, c1. split; [reflexivity|]. split; [exists (x :: ps), pos4; auto|]. cbn [fst snd]. split; [exact LB|]. rewrite CN. split; [exact EU|exact LU].
Qed.

(* two entries from a target with the other byte order than the client *)
Example c65_example : exists s s' r c, ll_add_tail (mkFrame 300 0 0 0 5 0) ll_new = Ok s /\ (match ll_add_tail (mkFrame 4294967295 517 0 3 258 2) s with Ok s => pack true 77 s | _ => UB end) = Ok (s', r) /\
  fst r = 2 /\ firstn 12 (snd r) = [44; 1; 0; 0; 0; 0; 0; 0; 5; 0; 0; 77] /\ unpack false r ll_new = Ok c /\ ll_item c (l_tail c) = Ok (Some (mkFrame 4294967295 517 0 3 258 2)).
Proof. eexists _, _, _, _. split; [vm_compute; reflexivity|]. split; [vm_compute; reflexivity|]. split; [reflexivity|]. split; [vm_compute; reflexivity|]. split; vm_compute; reflexivity. Qed.

Print Assumptions c65_call_stack_arrives.
