(** * SpecObjects: which objects an operator accepts, and what the keys of a dictionary stand for *)
From Verif Require Import Py Constraint Distribution Objects SpecDice.

(** The operators that Python writes between their operands; the others are called as methods *)
Definition infix (op : vop) : Prop := In op [VAdd; VSub; VMul; VDiv; VLt; VLe; VGt; VGe; VAnd; VOr].

Section Spec.
  Context (R : Runtime).
  Notation pyobj := (pyobj R).

  Definition is_distribution (x : pyobj) : Prop := exists d, x = PDist d.
  Definition is_outcome (x : pyobj) : Prop := exists o, x = POutcome o.
  (** isinstance(x, int) *)
  Definition is_int (x : pyobj) : Prop := (exists z, x = PInt z) \/ (exists b, x = PBool b).

  (** The value that a key of a dictionary stands for *)
  Definition key_value (k : pyobj) : option Z :=
    match k with
    | PInt z => Some z
    | PBool true => Some 1
    | PBool false => Some 0
    | POutcome o => Some (o_value o)
    | PDist _ | PElse => None
    end.
  Definition stands_for (v : Z) (k : pyobj) : bool := match key_value k with Some z => z =? v | None => false end.

  (** The counts of all keys that stand for [v] *)
  Definition entered (m : list (pyobj * Z)) (v : Z) : Z := zsum (map snd (filter (fun kc => stands_for v (fst kc)) m)).

  (** d.get_constraint_result_map() and d.get_result_map() as dictionaries that can be given to the constructor *)
  Definition outcome_keys (d : dist R) : list (pyobj * Z) := map (fun oc => (POutcome (fst oc), snd oc)) (d_map d).
  Definition int_keys (d : dist R) : list (pyobj * Z) := map (fun vc => (PInt (fst vc), snd vc)) (get_result_map R d).
End Spec.
