(** * Property C78: pools of dice *)
From Coq Require Import QArith Qpower.
From Verif Require Import Py PyFloat Constraint Distribution DiceModel Expr Parser Interp Instances SpecDice SpecProgram SpecInterp SpecAlgebra SpecProb SpecCases SpecPool
  Checks PoolProofs.
Local Open Scope Z_scope.

(** Of [n] equal dice, what the highest [k] give and what the others give add up, on the average, to what all of them give. *)
Theorem C78_parts : forall (R : Runtime) m n k (da dk dd : dist R), dice_report R m n da -> keep_report R m n k dk -> drop_report R m n k dd ->
  (mean R dk + mean R dd == mean R da)%Q.
Proof. exact pool_parts. Qed.
Print Assumptions C78_parts.

(** The highest [k] of [n] give at least the [k]-th part of an [n]-th of the average of all, *)
Theorem C78_share : forall (R : Runtime) m n k (da dk : dist R), k <= n -> dice_report R m n da -> keep_report R m n k dk -> (inject_Z k * mean R da <= inject_Z n * mean R dk)%Q.
Proof. exact pool_share. Qed.
Print Assumptions C78_share.

(** and each further die that is kept adds at most as much as the one before. *)
Theorem C78_diminishing : forall (R : Runtime) m n k (d0 d1 d2 : dist R), k + 2 <= n -> keep_report R m n k d0 -> keep_report R m n (k + 1) d1 -> keep_report R m n (k + 2) d2 ->
  (mean R d2 - mean R d1 <= mean R d1 - mean R d0)%Q.
Proof. exact pool_diminishing. Qed.
Print Assumptions C78_diminishing.

(** The highest die is at most [v] if all of them are, independently; the lowest is at least [v] if all of them are. *)
Theorem C78_highest : forall (R : Runtime) m n (d d1 : dist R), keep_report R m n 1 d -> dice_report R m 1 d1 -> forall v, (probability_at_most R d v == probability_at_most R d1 v ^ n)%Q.
Proof. exact pool_highest. Qed.
Print Assumptions C78_highest.
Theorem C78_lowest : forall (R : Runtime) m n (d d1 : dist R), drop_report R m n (n - 1) d -> dice_report R m 1 d1 -> forall v, (probability_at_least R d v == probability_at_least R d1 v ^ n)%Q.
Proof. exact pool_lowest. Qed.
Print Assumptions C78_lowest.

(** Two dice with the faces 1, 1 and 3: all, none, one and two kept, one dropped, and one die *)
Example C78_nonvacuous : exists m da d0 d1 d2 dd di, let R := rt_fwd in m = [(1, 2); (3, 1)] /\
  dice_report R m 2 da /\ keep_report R m 2 0 d0 /\ keep_report R m 2 1 d1 /\ keep_report R m 2 2 d2 /\ drop_report R m 2 1 dd /\ dice_report R m 1 di /\
  get_result_map R da = [(2, 4); (4, 4); (6, 1)] /\ get_result_map R d0 = [(0, 1)] /\ get_result_map R d1 = [(1, 4); (3, 5)] /\ get_result_map R d2 = [(2, 4); (4, 4); (6, 1)] /\
  get_result_map R dd = [(1, 8); (3, 1)] /\ get_result_map R di = [(1, 2); (3, 1)].
Proof.
  destruct (shown_reports rt_fwd (empty_state rt_fwd) [$"2d[1*2,3]"] [(2, 4); (4, 4); (6, 1)] ltac:(vm_compute; reflexivity)) as [da [A1 A2]].
  destruct (shown_reports rt_fwd (empty_state rt_fwd) [$"2d[1*2,3]k0"] [(0, 1)] ltac:(vm_compute; reflexivity)) as [d0 [B1 B2]].
  destruct (shown_reports rt_fwd (empty_state rt_fwd) [$"2d[1*2,3]k1"] [(1, 4); (3, 5)] ltac:(vm_compute; reflexivity)) as [d1 [C1 C2]].
  destruct (shown_reports rt_fwd (empty_state rt_fwd) [$"2d[1*2,3]k2"] [(2, 4); (4, 4); (6, 1)] ltac:(vm_compute; reflexivity)) as [d2 [D1 D2]].
  destruct (shown_reports rt_fwd (empty_state rt_fwd) [$"2d[1*2,3]d1"] [(1, 8); (3, 1)] ltac:(vm_compute; reflexivity)) as [dd [E1 E2]].
  destruct (shown_reports rt_fwd (empty_state rt_fwd) [$"d[1*2,3]"] [(1, 2); (3, 1)] ltac:(vm_compute; reflexivity)) as [di [F1 F2]].
  exists [(1, 2); (3, 1)], da, d0, d1, d2, dd, di. split; [reflexivity|].
  split; [show_dice $"2d[1*2,3]" A1|].
  split; [show_pool shown_keep $"2d[1*2,3]k0" B1|].
  split; [show_pool shown_keep $"2d[1*2,3]k1" C1|].
  split; [show_pool shown_keep $"2d[1*2,3]k2" D1|].
  split; [show_pool shown_drop $"2d[1*2,3]d1" E1|].
  split; [show_dice $"d[1*2,3]" F1|].
  split; [exact A2|]. split; [exact B2|]. split; [exact C2|]. split; [exact D2|]. split; [exact E2 | exact F2].
Qed.
