(** * Property C80 for roll(): closed formulas for the weights of its results *)
From Coq Require Import Permutation.
From Verif Require Import Py Constraint Distribution DiceModel Expr Parser Interp Instances SpecDice SpecProgram SpecInterp SpecAlgebra SpecCases SpecSame SpecPool SpecCount SpecRollCount
  Checks RollCountProofs.
Local Open Scope Z_scope.

(** roll() gives [v] with the weight that the formulas of C80 give to [v]: dice with the sides 1, ..., [sides], *)
Theorem C80_roll_dice : forall (R : Runtime) s m n sides t, Permutation (faces m) (consecutive 1 sides) -> dice_line m n t ->
  forall v, roll_weight R s [t] v = ways_to_roll sides (Z.to_nat n) v.
Proof. exact roll_dice_ways. Qed.
Print Assumptions C80_roll_dice.

(** dice with [no] sides 0 and [yes] sides 1, *)
Theorem C80_roll_successes : forall (R : Runtime) s m n no yes t, Permutation (faces m) (repeat 0 no ++ repeat 1 yes) -> dice_line m n t ->
  forall v, roll_weight R s [t] v = ways_to_succeed no yes (Z.to_nat n) v.
Proof. exact roll_success_ways. Qed.
Print Assumptions C80_roll_successes.

(** the highest and the lowest of [n] dice *)
Theorem C80_roll_highest : forall (R : Runtime) s m n sides t, Permutation (faces m) (consecutive 1 sides) -> pool_line true m n 1 t ->
  forall v, roll_weight R s [t] v = ways_highest sides n v.
Proof. exact roll_highest_ways. Qed.
Print Assumptions C80_roll_highest.

Theorem C80_roll_lowest : forall (R : Runtime) s m n sides t, Permutation (faces m) (consecutive 1 sides) -> pool_line false m n (n - 1) t ->
  forall v, roll_weight R s [t] v = ways_lowest sides n v.
Proof. exact roll_lowest_ways. Qed.
Print Assumptions C80_roll_lowest.

Example C80_roll_nonvacuous : exists m m', Permutation (faces m) (consecutive 1 3) /\ Permutation (faces m') (repeat 0 2 ++ repeat 1 1) /\
  dice_line m 2 $"2d3" /\ dice_line m' 2 $"2d[0*2,1]" /\ pool_line true m 2 1 $"2d3k1" /\ pool_line false m 2 (2 - 1) $"2d3d1" /\
  map (roll_weight rt_fwd (empty_state rt_fwd) [$"2d3"]) [1; 2; 3; 4] = [0; 1; 2; 3] /\ map (roll_weight rt_fwd (empty_state rt_fwd) [$"2d3k1"]) [1; 2; 3] = [1; 3; 5].
Proof.
  exists [(1, 1); (2, 1); (3, 1)], [(0, 2); (1, 1)]. split; [vm_compute; apply Permutation_refl|]. split; [vm_compute; apply Permutation_refl|].
  split; [show_dice_line $"2d3"|]. split; [show_dice_line $"2d[0*2,1]"|]. split; [show_pool_line $"2d3k1"|]. split; [show_pool_line $"2d3d1"|].
  split; vm_compute; reflexivity.
Qed.
