(** * SpecOps: two expressions that no operation of the expression API distinguishes *)
From Verif Require Import Py Constraint Distribution DiceModel Expr.

(** roll, max, min, estimated_cost and get_probability_distribution agree, from every state *)
Definition same_operations (R : Runtime) (a b : expr) : Prop :=
  (forall s, roll_of R a s = roll_of R b s) /\ (forall mx s, ext_of R mx a s = ext_of R mx b s) /\
  (forall s, cost_of R a s = cost_of R b s) /\ (forall s, dist_of R a s = dist_of R b s).
