(* The resolution of expressions does not look at the operands: it commutes with any mapping of them. *)
From Coq Require Import String.
From Verif Require Import Base HashModel OpsModel VmModel EmitModel ExprModel.
Open Scope list_scope. Open Scope Z_scope.

Section Map.
Context {A B : Type} (f : A -> B).
Definition kmap (k : kind A) : kind B :=
  match k with KNone => KNone | KLeaf l => KLeaf (f l) | KOp o x => KOp o (map f x) | KResolved => KResolved end.
Definition emap (e : ectx A) : ectx B := mkE (kmap (e_kind e)) (e_pos e).
Definition amap (a : action A) : action B :=
  match a with
  | ALoad l => ALoad (f l) | AHash k => AHash (kmap k) | ASwap n => ASwap n | ASwap2 n m => ASwap2 n m
  | AOp q x => AOp q (map f x) | AAlt c => AAlt c
  end.
Definition imap (i : item A) : item B := match i with IAtom l => IAtom (f l) | ISym s x => ISym s (map f x) end.
Definition cmap {X Y} (h : X -> Y) (r : cres X) : cres Y := match r with COk a => COk (h a) | CErr e => CErr e | CUB => CUB end.
Notation M := (map emap).
Notation MA := (map amap).

Lemma cmap_bind {X Y X' Y'} (h : X -> X') (h' : Y -> Y') (r : cres X) (u : X -> cres Y) (v : X' -> cres Y') :
  (forall x, v (h x) = cmap h' (u x)) -> cbind (cmap h r) v = cmap h' (cbind r u).
Proof. intros E. destruct r; cbn; auto. Qed.
Lemma emap_pos e p : emap (set_pos e p) = set_pos (emap e) p.
Proof. reflexivity. Qed.
Lemma existsb_map cs p : existsb (fun e => e_pos e =? p) (M cs) = existsb (fun e => e_pos e =? p) cs.
Proof. induction cs; cbn; [reflexivity|]. now rewrite IHcs. Qed.
Lemma mapi_map g h cs : (forall j e, h j (emap e) = emap (g j e)) -> forall i, mapi h i (M cs) = M (mapi g i cs).
Proof. intros E. induction cs; cbn; intros i; [reflexivity|]. now rewrite E, IHcs. Qed.
Lemma compact_map n : forall h cs, compact n h (M cs) = M (compact n h cs).
Proof.
  induction n; intros h cs; cbn [compact]; [reflexivity|]. rewrite existsb_map. destruct (existsb _ cs); [apply IHn|].
  rewrite <- IHn. f_equal. rewrite !map_map. apply map_ext. intros e. cbn [emap e_pos]. destruct (h <? e_pos e); reflexivity.
Qed.
Lemma fold_map cs : forall h, fold_left (fun h e => Z.max h (e_pos e)) (M cs) h = fold_left (fun h e => Z.max h (e_pos e)) cs h.
Proof. induction cs; intros h; cbn; [reflexivity|]. apply IHcs. Qed.
Lemma push_map i cs : push_to_stack i (M cs) = M (push_to_stack i cs).
Proof.
  unfold push_to_stack.
  rewrite (mapi_map (fun j e => if Nat.eqb j i then set_pos e 0 else if e_pos e =? -1 then e else set_pos e (e_pos e + 1))).
  - rewrite fold_map. apply compact_map.
  - intros j e. cbn [emap e_pos]. destruct (Nat.eqb j i), (e_pos e =? -1); reflexivity.
Qed.
Lemma swap_map p cs : swap_with_top p (M cs) = cmap M (swap_with_top p cs).
Proof.
  unfold swap_with_top. destruct (p =? 0); [reflexivity|]. rewrite !existsb_map.
  destruct (existsb _ cs && existsb _ cs); [|reflexivity]. cbn [cmap]. f_equal. rewrite !map_map. apply map_ext.
  intros e. cbn [emap e_pos]. destruct (e_pos e =? 0), (e_pos e =? p); reflexivity.
Qed.
Lemma nth_map i cs : nth_error (M cs) i = option_map emap (nth_error cs i).
Proof. apply nth_error_map. Qed.
Lemma pos_map cs i : pos_of (M cs) i = pos_of cs i.
Proof. unfold pos_of. rewrite nth_map. destruct (nth_error cs i); reflexivity. Qed.
Lemma hash_map cs o : is_hash (M cs) o = is_hash cs o.
Proof. unfold is_hash. rewrite nth_map. destruct (nth_error cs o) as [[[] ?]|]; reflexivity. Qed.
Lemma load_code_map cs i o : load_code (M cs) i o = MA (load_code cs i o).
Proof.
  unfold load_code. rewrite nth_map, hash_map. destruct (nth_error cs i) as [[k p]|]; cbn [option_map]; [|reflexivity].
  destruct (((0 <? o) && (o <? i))%nat && is_hash cs o); [reflexivity|]. destruct k; reflexivity.
Qed.
Lemma load_map i cs : load i (M cs) = M (load i cs).
Proof.
  unfold load. rewrite push_map. apply mapi_map. intros j e. destruct (Nat.eqb j i); reflexivity.
Qed.
Lemma remove_map i n cs : remove_at i n (M cs) = M (remove_at i n cs).
Proof. unfold remove_at. now rewrite map_app, firstn_map, skipn_map. Qed.
Lemma grown_map i cs : grown i (M cs) = M (grown i cs).
Proof. unfold grown. rewrite map_length. destruct (i <? length cs)%nat; [reflexivity|]. now rewrite map_app. Qed.
Lemma swap_code_map p : MA (swap_code p) = swap_code p.
Proof. unfold swap_code. destruct (p =? 0); reflexivity. Qed.
Definition MR (r : resolved (leaf := A)) : resolved (leaf := B) := let '(cs, a, z) := r in (M cs, MA a, z).
Definition M3 (r : list (ectx A) * list (action A) * bool) : list (ectx B) * list (action B) * bool := let '(cs, a, z) := r in (M cs, MA a, z).
Definition M2 (r : list (ectx A) * list (action A)) : list (ectx B) * list (action B) := let '(cs, a) := r in (M cs, MA a).

Lemma unary_map q x o arg cs : unary q (map f x) o arg (M cs) = cmap MR (unary q x o arg cs).
Proof.
  unfold unary. rewrite pos_map.
  assert (E : (if pos_of cs arg =? -1 then COk (load arg (M cs), load_code (M cs) arg (match o_type q with Post => o | _ => O end))
                else cs1 <~ swap_with_top (pos_of cs arg) (M cs) ;; COk (cs1, swap_code (pos_of cs arg))) =
              cmap M2 (if pos_of cs arg =? -1 then COk (load arg cs, load_code cs arg (match o_type q with Post => o | _ => O end))
                else cs1 <~ swap_with_top (pos_of cs arg) cs ;; COk (cs1, swap_code (pos_of cs arg)))).
  { destruct (pos_of cs arg =? -1); [cbn [cmap M2]; now rewrite load_map, load_code_map|].
    rewrite swap_map. apply cmap_bind. intros c. cbn [cmap M2]. now rewrite swap_code_map. }
  rewrite E. apply cmap_bind. intros [c a]. cbn [M2 cmap MR]. now rewrite remove_map, push_map, map_app.
Qed.
Ltac swaps := rewrite ?pos_map, ?swap_map; apply cmap_bind; intros.
Ltac ends := cbn [cmap M3]; rewrite ?map_app, ?load_map, ?load_code_map, ?swap_code_map; cbn [map amap]; rewrite ?map_app, ?load_map, ?load_code_map, ?swap_code_map; reflexivity.
Lemma two_map u s code cs first : two_to_top u s (MA code) (M cs) first = cmap M3 (two_to_top u s code cs first).
Proof. unfold two_to_top. swaps. swaps. swaps. ends. Qed.
Lemma commute_map o cs : commute_operands o (M cs) = cmap M3 (commute_operands o cs).
Proof.
  unfold commute_operands. rewrite !pos_map. set (s := pos_of cs (S o)). set (u := pos_of cs (o - 1)).
  destruct (s =? -1).
  - assert (E : (if u =? -1 then COk (load (o - 1) (M cs), load_code (M cs) (o - 1) o) else cs1 <~ swap_with_top u (M cs) ;; COk (cs1, swap_code u)) =
                cmap M2 (if u =? -1 then COk (load (o - 1) cs, load_code cs (o - 1) o) else cs1 <~ swap_with_top u cs ;; COk (cs1, swap_code u))).
    { destruct (u =? -1); [cbn [cmap M2]; now rewrite load_map, load_code_map|]. rewrite swap_map. apply cmap_bind. intros c. cbn [cmap M2]. now rewrite swap_code_map. }
    rewrite E. apply cmap_bind. intros [c a]. cbn [M2]. ends.
  - destruct (u =? -1); [swaps; ends|]. destruct (s =? 1); [swaps; ends|]. destruct (u =? 1); [swaps; ends|].
    exact (two_map u s [ASwap2 (u8 (u + 1)) (u8 (s + 1))] cs (o - 1)).
Qed.
Lemma binary_map q o cs : binary_operands q o (M cs) = cmap M3 (binary_operands q o cs).
Proof.
  unfold binary_operands. rewrite !pos_map. set (s := pos_of cs (S o)). set (u := pos_of cs (o - 1)). cbv zeta.
  destruct (s =? -1).
  - destruct (u =? -1); [ends|]. swaps. destruct (o_alt q); [ends|]. rewrite load_map. swaps. ends.
  - destruct (u =? -1); [swaps; ends|]. destruct (s =? 1); [swaps; ends|].
    destruct (s =? 0).
    + destruct (u =? 1); [swaps; ends|]. swaps. swaps. ends.
    + exact (two_map u s [ASwap2 (u8 (u + 1)) (u8 (s + 1))] cs (o - 1)).
Qed.
Lemma resolve_ex_map o cs : resolve_ex o (M cs) = cmap MR (resolve_ex o cs).
Proof.
  unfold resolve_ex. rewrite nth_map. destruct (nth_error cs o) as [[k p]|]; cbn [option_map]; [|reflexivity].
  destruct k as [| |q x|]; cbn [emap kmap e_kind]; try reflexivity.
  assert (two : forall (h : forall L, nat -> list (ectx L) -> cres (list (ectx L) * list (action L) * bool)), h B o (grown (S o) (M cs)) = cmap M3 (h A o (grown (S o) cs)) ->
    (' (cs1, a, alt) <~ h B o (grown (S o) (M cs)) ;;
     let op := if alt : bool then match o_alt q with Some c => [AAlt c] | None => [] end else [AOp q (map f x)] in
     COk (push_to_stack (o - 1) (remove_at (o - 1) 2 cs1), a ++ op, 2)) =
    cmap MR (' (cs1, a, alt) <~ h A o (grown (S o) cs) ;;
     let op := if alt : bool then match o_alt q with Some c => [AAlt c] | None => [] end else [AOp q x] in
     COk (push_to_stack (o - 1) (remove_at (o - 1) 2 cs1), a ++ op, 2))).
  { intros h E. rewrite E. apply cmap_bind. intros [[c a] alt]. cbn [M3 cmap MR]. rewrite remove_map, push_map, map_app. destruct alt; [destruct (o_alt q)|]; reflexivity. }
  destruct (o_type q).
  - rewrite grown_map. apply unary_map.
  - destruct (Nat.eqb o 0); [reflexivity|]. apply (two (fun L => binary_operands q)). rewrite grown_map. apply binary_map.
  - destruct (Nat.eqb o 0); [reflexivity|]. apply (two (fun L => commute_operands)). rewrite grown_map. apply commute_map.
  - destruct (Nat.eqb o 0); [reflexivity|]. apply unary_map.
Qed.
Lemma due_map p l e : due p l (emap e) = due p l e.
Proof. destruct e as [[] ?]; reflexivity. Qed.
Lemma first_map p l cs : forall i, find_first (due p l) i (M cs) = find_first (due p l) i cs.
Proof. induction cs; intros i; cbn [map find_first]; [reflexivity|]. rewrite due_map, IHcs. reflexivity. Qed.
Lemma last_map p l cs : forall i, find_last (due p l) i (M cs) = find_last (due p l) i cs.
Proof. induction cs; intros i; cbn [map find_last]; [reflexivity|]. rewrite due_map, IHcs. reflexivity. Qed.
Lemma phase_map n p l : forall cs a r, resolve_phase n p l (M cs) (MA a) r = cmap MR (resolve_phase n p l cs a r).
Proof.
  induction n; intros cs a r; cbn [resolve_phase].
  - replace ((if l then find_first else find_last) (due p l) O (M cs)) with ((if l then find_first else find_last) (due p l) O cs)
      by (destruct l; [now rewrite first_map|now rewrite last_map]).
    destruct ((if l then find_first else find_last) (due p l) O cs); reflexivity.
  - replace ((if l then find_first else find_last) (due p l) O (M cs)) with ((if l then find_first else find_last) (due p l) O cs)
      by (destruct l; [now rewrite first_map|now rewrite last_map]).
    destruct ((if l then find_first else find_last) (due p l) O cs); [|reflexivity].
    rewrite resolve_ex_map. apply cmap_bind. intros [[c a1] k]. cbn [MR]. rewrite <- map_app. apply IHn.
Qed.
Lemma levels_map n : forall p cs a r, resolve_levels n p (M cs) (MA a) r = cmap MR (resolve_levels n p cs a r).
Proof.
  induction n; intros p cs a r; cbn [resolve_levels]; [reflexivity|]. rewrite map_length. destruct (length cs <=? 1)%nat; [reflexivity|].
  rewrite phase_map. apply cmap_bind. intros [[c1 a1] r1]. cbn [MR]. rewrite map_length, phase_map. apply cmap_bind. intros [[c2 a2] r2]. cbn [MR]. apply IHn.
Qed.
Theorem resolve_map cs : resolve_expression (M cs) = cmap MA (resolve_expression cs).
Proof.
  unfold resolve_expression. destruct cs as [|e [|e2 cs]]; [reflexivity| |].
  - exact (f_equal COk (load_code_map [e] 0 0)).
  - cbn [map]. change (emap e :: emap e2 :: M cs) with (M (e :: e2 :: cs)). set (l := e :: e2 :: cs).
    replace (lenZ (M l)) with (lenZ l) by (unfold lenZ; now rewrite map_length).
    change (@nil (action B)) with (MA []). rewrite levels_map. apply cmap_bind. intros [[c a] r]. cbn [MR]. destruct (_ && _); reflexivity.
Qed.
Lemma found_map s (p : option (ectx A)) : operator_found s (option_map emap p) = operator_found s p.
Proof.
  unfold operator_found. induction c_operations as [|o l IH]; cbn [find]; [reflexivity|]. rewrite IH.
  destruct p as [[[] ?]|]; reflexivity.
Qed.
Theorem contexts_map l : forall p, contexts (map imap l) (option_map emap p) = cmap M (contexts l p).
Proof.
  induction l as [|i l IH]; intros p; cbn [map contexts]; [reflexivity|].
  assert (E : match imap i with
         | ISym s a => match operator_found s (option_map emap p) with Some q => COk (mkE (KOp q a) (-1)) | None => CErr E_bad_expression end
         | IAtom x => match option_map emap p with Some (mkE (KLeaf _) _) => CErr E_bad_expression | _ => COk (mkE (KLeaf x) (-1)) end
         end = cmap emap match i with
         | ISym s a => match operator_found s p with Some q => COk (mkE (KOp q a) (-1)) | None => CErr E_bad_expression end
         | IAtom x => match p with Some (mkE (KLeaf _) _) => CErr E_bad_expression | _ => COk (mkE (KLeaf x) (-1)) end
         end).
  { destruct i as [x|s a]; cbn [imap]; [destruct p as [[[] ?]|]; reflexivity|]. rewrite found_map. destruct (operator_found s p); reflexivity. }
  rewrite E. apply cmap_bind. intros e. change (Some (emap e)) with (option_map emap (Some e)). rewrite IH. apply cmap_bind. intros es. reflexivity.
Qed.
End Map.
