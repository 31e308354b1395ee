(* Independent specification of a script hash table: what a user expects of key [k] after a
   history of operations. *)
From Verif Require Import Base HashTableModel.

Section Spec.
Context {V : Type}.

Inductive status := Absent                 (* never created, or removed since *)
                  | PresentDefault         (* created by a read, not written since *)
                  | Present (v : V).       (* last written value *)

Definition spec_step (k : Z) (s : status) (o : op V) : status :=
  match o with
  | OpSet k' v => if k' =? k then Present v else s
  | OpGet k' => if k' =? k then match s with Absent => PresentDefault | _ => s end else s
  | OpRemove k' => if k' =? k then Absent else s
  end.
Definition spec_status (ops : list (op V)) (k : Z) : status := fold_left (spec_step k) ops Absent.

Definition op_key (o : op V) : Z := match o with OpSet k _ => k | OpGet k => k | OpRemove k => k end.
(* keys a user may use: any 32-bit hash except the marker of an empty slot *)
Definition key_ok (k : Z) : Prop := is_u32 k /\ k <> NULL_HASH.
Definition ops_ok (ops : list (op V)) : Prop := Forall (fun o => key_ok (op_key o)) ops.
Definition is_remove (o : op V) : bool := match o with OpRemove _ => true | _ => false end.

(* number of operations of the run that changed the capacity *)
Fixpoint growths (zero : V) (t : table V) (ops : list (op V)) : Z :=
  match ops with
  | [] => 0
  | o :: r => match ht_step zero t o with
              | None => 0
              | Some t' => (if t_mod t' =? t_mod t then 0 else 1) + growths zero t' r
              end
  end.
End Spec.
Arguments status : clear implicits.
