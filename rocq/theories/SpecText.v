(** * SpecText: dice as lines of a program *)
From Verif Require Import Py PyFloat Constraint Distribution DiceModel Expr Interp SpecNotation SpecLexer SpecInterp.

(** The text of one die, its faces (as often as they occur) and the values written in it (also those with no copies) *)
Inductive die_text : text -> list Z -> list Z -> Prop :=
| dt_numbered : forall s, is_digits s -> die_text s (map Z.of_nat (seq 1 (Z.to_nat (decimal s)))) (map Z.of_nat (seq 1 (Z.to_nat (decimal s))))
| dt_percent : die_text $"%" (map Z.of_nat (seq 1 100)) (map Z.of_nat (seq 1 100))
| dt_fate : die_text $"F" [-1; 0; 1] [-1; 0; 1]
| dt_custom : forall s es, custom_text es false s -> die_text s (custom_faces es) (flat_map entry_values es).

(** The line [t] consists of [w], with white space around it *)
Definition alone (w t : text) : Prop := exists a b, blank a /\ blank b /\ t = a ++ w ++ b.

(** In every program the line [t1] can be replaced by [t2]: no call can tell the difference *)
Definition interchangeable (R : Runtime) (t1 t2 : text) : Prop := forall before after s,
  roll R (before ++ t1 :: after) s = roll R (before ++ t2 :: after) s /\
  max_call R (before ++ t1 :: after) s = max_call R (before ++ t2 :: after) s /\
  min_call R (before ++ t1 :: after) s = min_call R (before ++ t2 :: after) s /\
  get_probability_distributions R (before ++ t1 :: after) s = get_probability_distributions R (before ++ t2 :: after) s /\
  get_probability_distributions_dict R (before ++ t1 :: after) s = get_probability_distributions_dict R (before ++ t2 :: after) s /\
  get_average R (before ++ t1 :: after) s = get_average R (before ++ t2 :: after) s /\
  get_histogram R (before ++ t1 :: after) s = get_histogram R (before ++ t2 :: after) s /\
  get_at_least_histogram R (before ++ t1 :: after) s = get_at_least_histogram R (before ++ t2 :: after) s /\
  get_at_most_histogram R (before ++ t1 :: after) s = get_at_most_histogram R (before ++ t2 :: after) s /\
  get_estimated_cost R (before ++ t1 :: after) s = get_estimated_cost R (before ++ t2 :: after) s.

(** Every call with that line raises [x], unless an earlier line raises; it does so when it is the first line *)
Definition always_raises (R : Runtime) (t : text) (x : exn) : Prop := forall after s,
  roll R (t :: after) s = [(1, (s, Raise x))] /\
  max_call R (t :: after) s = (s, Raise x) /\ min_call R (t :: after) s = (s, Raise x) /\
  get_probability_distributions R (t :: after) s = (s, Raise x) /\
  get_probability_distributions_dict R (t :: after) s = (s, Raise x) /\
  get_average R (t :: after) s = (s, Raise x) /\
  get_histogram R (t :: after) s = (s, Raise x) /\
  get_at_least_histogram R (t :: after) s = (s, Raise x) /\
  get_at_most_histogram R (t :: after) s = (s, Raise x) /\
  get_estimated_cost R (t :: after) s = (s, Raise x).
