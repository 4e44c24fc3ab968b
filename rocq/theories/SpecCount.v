(** * SpecCount: closed formulas for the number of ways *)
From Verif Require Import Py SpecDice.

(** Pascal's triangle *)
Fixpoint choose (n k : nat) : Z :=
  match n, k with
  | _, O => 1
  | O, S _ => 0
  | S n', S k' => choose n' k' + choose n' k
  end.
(** for an upper number that may be negative *)
Definition choose_z (m : Z) (k : nat) : Z := if m <? 0 then 0 else choose (Z.to_nat m) k.

(** The number of ways to roll [v] with [n] dice with the sides 1, ..., [sides]: by inclusion and exclusion over the dice above [sides] *)
Definition ways_to_roll (sides n : nat) (v : Z) : Z :=
  zsum (map (fun j => (if Nat.even j then 1 else -1) * choose n j * choose_z (v - Z.of_nat sides * Z.of_nat j - 1) (n - 1)) (seq 0 (S n))).

(** The number of ways to have [v] successes with [n] dice that have [no] blank sides and [yes] sides for a success *)
Definition ways_to_succeed (no yes n : nat) (v : Z) : Z :=
  if (0 <=? v) && (v <=? Z.of_nat n) then choose n (Z.to_nat v) * Z.of_nat yes ^ v * Z.of_nat no ^ (Z.of_nat n - v) else 0.

(** The number of ways to have [v] as the highest, or as the lowest, of [n] dice with the sides 1, ..., [sides] *)
Definition ways_highest (sides : nat) (n v : Z) : Z := if (1 <=? v) && (v <=? Z.of_nat sides) then v ^ n - (v - 1) ^ n else 0.
Definition ways_lowest (sides : nat) (n v : Z) : Z := if (1 <=? v) && (v <=? Z.of_nat sides) then (Z.of_nat sides - v + 1) ^ n - (Z.of_nat sides - v) ^ n else 0.
