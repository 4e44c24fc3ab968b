(** * Property C81: the average and the variance of several dice *)
From Coq Require Import QArith Permutation.
From Verif Require Import Py Constraint Distribution DiceModel Expr Parser Interp Instances SpecDice SpecProgram SpecInterp SpecAlgebra SpecProb SpecCases SpecSame SpecSplit SpecPool
  Checks PoolProofs MomentProofs.
Local Open Scope Z_scope.

(** [n] dice have [n] times the average and [n] times the variance of one, whatever their faces. *)
Theorem C81_dice : forall (R : Runtime) m n (d d1 : dist R), faces m <> [] -> dice_report R m n d -> dice_report R m 1 d1 ->
  (mean R d == inject_Z n * mean R d1)%Q /\ (variance R d == inject_Z n * variance R d1)%Q.
Proof. exact dice_scale. Qed.
Print Assumptions C81_dice.

(** For the sides 1, ..., [sides] they are n (sides + 1) / 2 and n (sides ^ 2 - 1) / 12; *)
Theorem C81_numbered : forall (R : Runtime) m n sides (d : dist R), (1 <= sides)%nat -> Permutation (faces m) (consecutive 1 sides) -> dice_report R m n d ->
  (mean R d == inject_Z n * (inject_Z (Z.of_nat sides) + 1) / 2)%Q /\ (variance R d == inject_Z n * (inject_Z (Z.of_nat sides) * inject_Z (Z.of_nat sides) - 1) / 12)%Q.
Proof. exact dice_moments_numbered. Qed.
Print Assumptions C81_numbered.

(** for dice with [no] sides 0 and [yes] sides 1 they are those of the binomial distribution. *)
Theorem C81_successes : forall (R : Runtime) m n no yes (d : dist R), (1 <= no + yes)%nat -> Permutation (faces m) (repeat 0 no ++ repeat 1 yes) -> dice_report R m n d ->
  let p := (inject_Z (Z.of_nat yes) / inject_Z (Z.of_nat (no + yes)))%Q in (mean R d == inject_Z n * p)%Q /\ (variance R d == inject_Z n * (p * (1 - p)))%Q.
Proof. exact dice_moments_successes. Qed.
Print Assumptions C81_successes.

(** 2d3 and d3, and two dice of which one side in three is a success *)
Example C81_nonvacuous : let R := rt_fwd in exists m m' da d1 db, faces m <> [] /\ Permutation (faces m) (consecutive 1 3) /\ Permutation (faces m') (repeat 0 2 ++ repeat 1 1) /\
  dice_report R m 2 da /\ dice_report R m 1 d1 /\ dice_report R m' 2 db /\
  get_result_map R da = [(2, 1); (3, 2); (4, 3); (5, 2); (6, 1)] /\ get_result_map R d1 = [(1, 1); (2, 1); (3, 1)] /\ get_result_map R db = [(0, 4); (1, 4); (2, 1)].
Proof.
  intros R.
  destruct (shown_reports rt_fwd (empty_state rt_fwd) [$"2d3"] [(2, 1); (3, 2); (4, 3); (5, 2); (6, 1)] ltac:(vm_compute; reflexivity)) as [da [A1 A2]].
  destruct (shown_reports rt_fwd (empty_state rt_fwd) [$"d3"] [(1, 1); (2, 1); (3, 1)] ltac:(vm_compute; reflexivity)) as [d1 [C1 C2]].
  destruct (shown_reports rt_fwd (empty_state rt_fwd) [$"2d[0*2,1]"] [(0, 4); (1, 4); (2, 1)] ltac:(vm_compute; reflexivity)) as [db [B1 B2]].
  exists [(1, 1); (2, 1); (3, 1)], [(0, 2); (1, 1)], da, d1, db. split; [vm_compute; discriminate|].
  split; [vm_compute; apply Permutation_refl|]. split; [vm_compute; apply Permutation_refl|].
  split; [show_dice $"2d3" A1|]. split; [show_dice $"d3" C1|]. split; [show_dice $"2d[0*2,1]" B1|].
  split; [exact A2|]. split; [exact C2 | exact B2].
Qed.
