(** * Show: the printed forms of outcomes and distributions *)
From Verif Require Import Py PyFloat Constraint Distribution.

Section Model.
  Context (R : Runtime).

  (** probability_outcome.py:106-110 (str and repr) *)
  Definition o_str (o : outcome R) : text :=
    $"ProbabilityOutcome: value=" ++ text_of_Z (o_value o) ++ $", constraint_set=" ++ cset_str R (o_cs o).

  (** probability_distribution.py:376-380 (str and repr), with the printed form of a Python dict *)
  Definition d_str (d : dist R) : text :=
    $"ProbabilityDistribution, result_map={" ++
    join $", " (map (fun oc => o_str (fst oc) ++ $": " ++ text_of_Z (snd oc)) (d_map d)) ++ $"}".
End Model.
