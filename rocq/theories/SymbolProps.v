(* C66: the debugger knows the functions and variables of the program. *)
From Coq Require Import String.
From Verif Require Import Base BaseLemmas.
From Verif Require TokenModel.
From Verif Require Import GCModel SymbolModel.
From Coq Require Import List.
Open Scope list_scope. Open Scope Z_scope.

(* names as a program has them: no spaces, no null *)
Definition name_ok (n : list Z) : Prop := forall c, In c n -> 0 < c < 256 /\ is_space c = false.
Definition unit_ok (u : symbols) : Prop := name_ok (y_name u) /\ Forall name_ok (y_vars u) /\ lenZ (y_vars u) < 256 /\ 0 <= y_args u < 256.
(* of a name the client keeps the first 63 characters *)
Definition shown (u : symbols) : symbols := mkSymbols (firstn 63 (y_name u)) (y_args u) (map (firstn 63) (y_vars u)).

Lemma word_spec : forall k n r, name_ok n -> word k (n ++ 0 :: r) = Some (firstn k n).
Proof.
  induction k as [|k IH]; intros n r OK; [reflexivity|]. destruct n as [|c n]; cbn [app word firstn]; [reflexivity|]. destruct (OK c (or_introl eq_refl)) as (R & S). rewrite S. destruct (Z.eqb_spec c 0); [lia|]. cbn [orb]. rewrite IH; [reflexivity|]. intros d I. apply OK. now right.
Qed.
Lemma after_spec : forall n r, name_ok n -> after_null (n ++ 0 :: r) = Some r.
Proof. induction n as [|c n IH]; intros r OK; [reflexivity|]. cbn [app after_null]. destruct (OK c (or_introl eq_refl)) as (R & S). destruct (Z.eqb_spec c 0); [lia|]. apply IH. intros d I. apply OK. now right. Qed.
Lemma name_spec n r : name_ok n -> read_name (name_bytes n ++ r) = Ok (firstn 63 n, r).
Proof.
  intros OK. unfold read_name, name_bytes. rewrite <- app_assoc. change ([0] ++ r) with (0 :: r). rewrite after_spec by exact OK.
  assert (SK : skip_space (n ++ 0 :: r) = n ++ 0 :: r). { destruct n as [|c n]; [reflexivity|]. cbn [app skip_space]. now rewrite (proj2 (OK c (or_introl eq_refl))). }
  now rewrite SK, word_spec.
Qed.
Lemma vars_spec : forall vs r, Forall name_ok vs -> read_vars (List.length vs) (concat (map name_bytes vs) ++ r) = Ok (map (firstn 63) vs, r).
Proof. induction vs as [|v vs IH]; intros r OK; [reflexivity|]. inversion OK as [|? ? O1 O2]; subst. cbn [List.length read_vars map concat]. rewrite <- app_assoc, name_spec, IH by assumption. reflexivity. Qed.
Lemma units_spec : forall us, Forall unit_ok us -> read_units (List.length us) (concat (map unit_bytes us)) = Ok (map shown us).
Proof.
  induction us as [|u us IH]; intros OK; [reflexivity|]. inversion OK as [|? ? (O1 & O2 & O3 & O4) O5]; subst. cbn [List.length read_units map concat]. unfold unit_bytes at 1. cbn [app]. rewrite <- !app_assoc, name_spec by exact O1.
  rewrite Z.mod_small by (unfold lenZ in *; lia). unfold lenZ at 1. rewrite Nat2Z.id, vars_spec by exact O2. rewrite IH by exact O5. unfold shown. now rewrite Z.mod_small.
Qed.
(* The client reads from the block every function with its arguments and its variables, in order, and never behind the
   block; names of at most 63 characters are complete. *)
Theorem c66_symbols us b : Forall unit_ok us -> lenZ us < 32768 -> symbol_block us = Some b -> populate b = Ok (map shown us).
Proof.
  intros OK LN E. unfold symbol_block in E. destruct (65535 <? _); [discriminate E|]. injection E as <-. cbn [app populate]. unfold lenZ in *.
  assert (X : Z.of_nat (List.length us) mod 256 + 256 * ((Z.of_nat (List.length us) / 256) mod 256) = Z.of_nat (List.length us)) by lia. cbv zeta. rewrite X. destruct (Z.ltb_spec (Z.of_nat (List.length us)) 32768); [|lia]. rewrite Nat2Z.id. now apply units_spec.
Qed.
Theorem c66_short_names u : lenZ (y_name u) <= 63 -> Forall (fun v => lenZ v <= 63) (y_vars u) -> shown u = u.
Proof.
  intros A B. destruct u as [n a vs]. unfold shown, lenZ in *. cbn [y_name y_args y_vars] in *. rewrite firstn_all2 by lia. f_equal. induction B as [|v vs V B IH]; [reflexivity|]. cbn [map]. rewrite IH, firstn_all2 by lia. reflexivity.
Qed.

(* ---------------------------------------------------------------- what does not hold *)
(* The number of variables is written in a byte, and the compiler checks it without the arguments (link.cpp:121-127): a
   function with one argument and 255 other variables is accepted, and the client believes it has none; the names of its
   variables are taken for the next function (link.cpp:160). *)
Definition accepted (us : list symbols) : Prop :=
  match us with
  | [] => False
  | g :: fs => lenZ (y_vars g) <= 255 /\ lenZ fs <= 255 /\ Forall (fun u => 0 <= lenZ (y_vars u) - y_args u <= 255) fs
  end.
Definition many : list symbols := [mkSymbols (TokenModel.text "::global"%string) 0 []; mkSymbols (TokenModel.text "f"%string) 1 (repeat (TokenModel.text "v"%string) (Z.to_nat 256)); mkSymbols (TokenModel.text "g"%string) 0 []].
Theorem c66_many_variables_refuted : ~ (forall us b, accepted us -> Forall (fun u => name_ok (y_name u) /\ Forall name_ok (y_vars u) /\ 0 <= y_args u < 256) us -> symbol_block us = Some b -> populate b = Ok (map shown us)).
Proof.
  intros H. destruct (symbol_block many) as [b|] eqn:E; [|vm_compute in E; discriminate E]. specialize (H many b).
  assert (N : forall n, forallb (fun c => (0 <? c) && (c <? 256) && negb (is_space c)) n = true -> name_ok n).
  { intros n F c I. rewrite forallb_forall in F. specialize (F c I). apply andb_prop in F as [F S]. apply andb_prop in F as [F1 F2]. split; [lia|]. now destruct (is_space c). }
  assert (NS : forall vs, forallb (forallb (fun c => (0 <? c) && (c <? 256) && negb (is_space c))) vs = true -> Forall name_ok vs) by (intros vs F; apply Forall_forall; intros v I; apply N; rewrite forallb_forall in F; now apply F).
  assert (X : populate b = Ok (map shown many)).
  { apply H; [| |exact E].
    - split; [vm_compute; discriminate|]. split; [vm_compute; discriminate|]. constructor; [split; vm_compute; discriminate|]. constructor; [split; vm_compute; discriminate|constructor].
    - constructor; [|constructor; [|constructor; [|constructor]]]; (split; [apply N; vm_compute; reflexivity|]; split; [apply NS; vm_compute; reflexivity|cbn [y_args]; lia]). }
  vm_compute in E. injection E as <-. vm_compute in X. discriminate X.
Qed.
(* Names that agree in 63 characters are shown as the same. *)
Definition long (c : Z) : list Z := repeat 97 63 ++ [c].
Theorem c66_long_names_refuted : exists b us, symbol_block [mkSymbols (TokenModel.text "f"%string) 0 [long 98; long 99]] = Some b /\ long 98 <> long 99 /\ populate b = Ok us /\ exists u v, us = [u] /\ y_vars u = [v; v].
Proof. eexists _, _. split; [vm_compute; reflexivity|]. split; [vm_compute; discriminate|]. split; [vm_compute; reflexivity|]. eexists _, _. split; reflexivity. Qed.

Example c66_example : let us := [mkSymbols (TokenModel.text "::global"%string) 0 [TokenModel.text "a"%string; TokenModel.text "counter"%string]; mkSymbols (TokenModel.text "f"%string) 2 [TokenModel.text "x"%string; TokenModel.text "y"%string; TokenModel.text "sum"%string]] in
  Forall unit_ok us /\ exists b, symbol_block us = Some b /\ populate b = Ok us.
Proof.
  cbv zeta. split; [|eexists; split; vm_compute; reflexivity].
  assert (N : forall n, forallb (fun c => (0 <? c) && (c <? 256) && negb (is_space c)) n = true -> name_ok n).
  { intros n F c I. rewrite forallb_forall in F. specialize (F c I). apply andb_prop in F as [F S]. apply andb_prop in F as [F1 F2]. split; [lia|]. now destruct (is_space c). }
  assert (NS : forall vs, forallb (forallb (fun c => (0 <? c) && (c <? 256) && negb (is_space c))) vs = true -> Forall name_ok vs) by (intros vs F; apply Forall_forall; intros v I; apply N; rewrite forallb_forall in F; now apply F).
  constructor; [|constructor; [|constructor]]; (split; [apply N; vm_compute; reflexivity|]; split; [apply NS; vm_compute; reflexivity|]; split; [vm_compute; reflexivity|cbn [y_args]; lia]).
Qed.

Print Assumptions c66_symbols.
Print Assumptions c66_short_names.
Print Assumptions c66_many_variables_refuted.
Print Assumptions c66_long_names_refuted.
