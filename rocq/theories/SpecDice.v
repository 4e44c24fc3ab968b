(** * SpecDice: rolling dice, as a player would describe it.  Nothing here refers to how the code computes. *)
From Verif Require Import Py Constraint Distribution.

(** ** Dice *)

(** The faces of a die given as a map from face to multiplicity: each face listed as often as it occurs *)
Definition faces (m : list (Z * Z)) : list Z := flat_map (fun vc => repeat (fst vc) (Z.to_nat (snd vc))) m.

(** All ordered results of rolling [n] dice with the given faces *)
Fixpoint tuples (n : nat) (fs : list Z) : list (list Z) :=
  match n with
  | O => [[]]
  | S n' => flat_map (fun x => map (cons x) (tuples n' fs)) fs
  end.

(** How many results of rolling [n] dice give [v] when scored by [score] *)
Definition ways (score : list Z -> Z) (n : nat) (fs : list Z) (v : Z) : Z :=
  Z.of_nat (length (filter (fun t => score t =? v) (tuples n fs))).

(** The dice from the highest to the lowest *)
Fixpoint insert_desc (x : Z) (l : list Z) : list Z :=
  match l with
  | [] => [x]
  | y :: l' => if y <=? x then x :: l else y :: insert_desc x l'
  end.
Definition sort_desc (l : list Z) : list Z := fold_right insert_desc [] l.

(** Scores: the sum of all dice, of the [k] highest, and of all but the [k] highest *)
Definition total (t : list Z) : Z := fold_right Z.add 0 t.
Definition keep_highest (k : nat) (t : list Z) : Z := total (firstn k (sort_desc t)).
Definition drop_highest (k : nat) (t : list Z) : Z := total (skipn k (sort_desc t)).

(** ** Reported counts *)

(** get_result_map().get(v, 0) *)
Definition reported (R : Runtime) (d : dist R) (v : Z) : Z :=
  match dget Z.eqb (get_result_map R d) v with Some c => c | None => 0 end.

(** v in get_result_map() *)
Definition listed (R : Runtime) (d : dist R) (v : Z) : Prop := In v (map fst (get_result_map R d)).

(** Multiplicities are natural numbers *)
Definition natural_counts (m : list (Z * Z)) : Prop := forall v c, In (v, c) m -> 0 <= c.
