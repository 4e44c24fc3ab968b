(** * Property C80: closed formulas for the number of ways *)
From Coq Require Import Permutation.
From Verif Require Import Py Constraint Distribution DiceModel Expr Parser Interp Instances SpecDice SpecNotation SpecText SpecProgram SpecInterp SpecAlgebra SpecCases SpecSame SpecPool SpecCount
  Checks PoolProofs CountProofs.
Local Open Scope Z_scope.

(** [n] dice with the sides 1, ..., [sides], however written: the counts are those of the formula with binomial coefficients *)
Theorem C80_dice : forall (R : Runtime) m n sides (d : dist R), Permutation (faces m) (consecutive 1 sides) -> dice_report R m n d -> forall v, reported R d v = ways_to_roll sides (Z.to_nat n) v.
Proof. exact count_roll. Qed.
Print Assumptions C80_dice.

(** The line NdS gives them *)
Theorem C80_text : forall (R : Runtime) s t ct n st, count_notation ct n -> 1 <= n -> is_digits st -> SpecText.alone (ct ++ $"d" ++ st) t ->
  exists d, reports R s [t] d /\ forall v, reported R d v = ways_to_roll (Z.to_nat (decimal st)) (Z.to_nat n) v.
Proof. exact count_text. Qed.
Print Assumptions C80_text.

(** [n] dice with [no] sides 0 and [yes] sides 1: the binomial distribution *)
Theorem C80_successes : forall (R : Runtime) m n no yes (d : dist R), Permutation (faces m) (repeat 0 no ++ repeat 1 yes) -> dice_report R m n d ->
  forall v, reported R d v = ways_to_succeed no yes (Z.to_nat n) v.
Proof. exact count_succeed. Qed.
Print Assumptions C80_successes.

(** The highest and the lowest of [n] dice *)
Theorem C80_highest : forall (R : Runtime) m n sides (d : dist R), Permutation (faces m) (consecutive 1 sides) -> keep_report R m n 1 d -> forall v, reported R d v = ways_highest sides n v.
Proof. exact count_highest. Qed.
Print Assumptions C80_highest.
Theorem C80_lowest : forall (R : Runtime) m n sides (d : dist R), Permutation (faces m) (consecutive 1 sides) -> drop_report R m n (n - 1) d -> forall v, reported R d v = ways_lowest sides n v.
Proof. exact count_lowest. Qed.
Print Assumptions C80_lowest.

(** The formulas are the known ones: 3d6, ten coins, the highest and the lowest of 3d6 *)
Example C80_formulas : ways_to_roll 6 3 10 = 27 /\ ways_to_roll 6 3 18 = 1 /\ ways_to_roll 6 3 19 = 0 /\ ways_to_succeed 1 1 10 5 = 252 /\ ways_highest 6 3 6 = 91 /\ ways_lowest 6 3 1 = 91.
Proof. split; [vm_compute; reflexivity|]. split; [vm_compute; reflexivity|]. split; [vm_compute; reflexivity|]. split; [vm_compute; reflexivity|]. split; vm_compute; reflexivity. Qed.
Example C80_text_nonvacuous : count_notation $"3" 3 /\ is_digits $"6" /\ SpecText.alone ($"3" ++ $"d" ++ $"6") $" 3d6" /\ decimal $"6" = 6.
Proof. split; [right; split; [split; [discriminate|reflexivity]|reflexivity]|]. split; [split; [discriminate|reflexivity]|]. split; [exists $" ", []; repeat split | reflexivity]. Qed.
Example C80_nonvacuous : let R := rt_fwd in exists m m' da db dk dd, Permutation (faces m) (consecutive 1 3) /\ Permutation (faces m') (repeat 0 2 ++ repeat 1 1) /\
  dice_report R m 2 da /\ dice_report R m' 2 db /\ keep_report R m 2 1 dk /\ drop_report R m 2 1 dd /\
  get_result_map R da = [(2, 1); (3, 2); (4, 3); (5, 2); (6, 1)] /\ get_result_map R db = [(0, 4); (1, 4); (2, 1)] /\
  get_result_map R dk = [(1, 1); (2, 3); (3, 5)] /\ get_result_map R dd = [(1, 5); (2, 3); (3, 1)].
Proof.
  intros R.
  destruct (shown_reports rt_fwd (empty_state rt_fwd) [$"2d3"] [(2, 1); (3, 2); (4, 3); (5, 2); (6, 1)] ltac:(vm_compute; reflexivity)) as [da [A1 A2]].
  destruct (shown_reports rt_fwd (empty_state rt_fwd) [$"2d[0*2,1]"] [(0, 4); (1, 4); (2, 1)] ltac:(vm_compute; reflexivity)) as [db [B1 B2]].
  destruct (shown_reports rt_fwd (empty_state rt_fwd) [$"2d3k1"] [(1, 1); (2, 3); (3, 5)] ltac:(vm_compute; reflexivity)) as [dk [C1 C2]].
  destruct (shown_reports rt_fwd (empty_state rt_fwd) [$"2d3d1"] [(1, 5); (2, 3); (3, 1)] ltac:(vm_compute; reflexivity)) as [dd [D1 D2]].
  exists [(1, 1); (2, 1); (3, 1)], [(0, 2); (1, 1)], da, db, dk, dd.
  split; [vm_compute; apply Permutation_refl|]. split; [vm_compute; apply Permutation_refl|].
  split; [show_dice $"2d3" A1|]. split; [show_dice $"2d[0*2,1]" B1|]. split; [show_pool shown_keep $"2d3k1" C1|]. split; [show_pool shown_drop $"2d3d1" D1|].
  split; [exact A2|]. split; [exact B2|]. split; [exact C2 | exact D2].
Qed.
