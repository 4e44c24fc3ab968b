(** * Properties C15, C16 and C17: max() and min() *)
From Verif Require Import Py PyFloat Constraint Distribution DiceModel Expr Parser Interp Instances SpecDice SpecProgram SpecInterp SpecAlgebra SpecRoll SpecExtreme
  Checks ProgramProofs RollProofs ExtProofs ExtremeFacts.

(** ** C15 max() and min() are the extremes of the distribution: false for MAX and MIN of operands that depend on the
    same variable, and for zero dice *)
Theorem C15_related_operands_refuted : exists lines p d v, program_text lines p /\ good_program p /\ sided p /\
  reports rt_fwd (empty_state rt_fwd) lines d /\ extreme_is rt_fwd true (empty_state rt_fwd) lines v /\ ~ listed rt_fwd d v.
Proof.
  exists [$"VAR a = d2"; $"MIN(a, 3 - a)"]. eexists.
  destruct (example_program rt_fwd (empty_state rt_fwd) [$"VAR a = d2"; $"MIN(a, 3 - a)"] _ [(1, 2)]
    ltac:(vm_compute; reflexivity) ltac:(vm_compute; reflexivity) ltac:(vm_compute; reflexivity) ltac:(vm_compute; reflexivity)) as [d [H1 [H2 [H3 [H4 H5]]]]].
  exists d, 2. split; [exact H1|]. split; [exact H2|]. split; [now apply rollable_sided|]. split; [exact H4|]. split.
  - apply extreme_at_is. vm_compute. reflexivity.
  - unfold listed. rewrite H5. cbn. lia.
Qed.
Print Assumptions C15_related_operands_refuted.

Theorem C15_zero_dice_refuted : exists lines p d v, program_text lines p /\ runnable p /\ sided p /\
  reports rt_fwd (empty_state rt_fwd) lines d /\ extreme_is rt_fwd true (empty_state rt_fwd) lines v /\ ~ listed rt_fwd d v.
Proof.
  exists [$"0d2"]. eexists. destruct (shown_reports rt_fwd (empty_state rt_fwd) [$"0d2"] [(1, 1); (2, 1)] ltac:(vm_compute; reflexivity)) as [d [H1 H2]].
  exists d, 0. split; [apply program_of_text; vm_compute; reflexivity|]. split; [|split; [|split; [exact H1|split]]].
  - apply (checked_runnable [$"0d2"]); [apply program_of_text; vm_compute; reflexivity | vm_compute; reflexivity].
  - apply rollable_sided. apply rollableb_iff. vm_compute. reflexivity.
  - apply extreme_at_is. vm_compute. reflexivity.
  - unfold listed. rewrite H2. cbn. lia.
Qed.
Print Assumptions C15_zero_dice_refuted.

(** What holds: they are exact when the operands of each MIN in max() and of each MAX in min() are unrelated *)
Theorem C15_extremes_partial : forall (R : Runtime) mx s s1 lines p d, reachable R s -> reachable R s1 -> program_text lines p -> good_program p -> sided p ->
  program_extreme_exact mx p -> reports R s lines d ->
  forall v, extreme_is R mx s1 lines v <-> listed R d v /\ forall x, listed R d x -> if mx then x <= v else v <= x.
Proof. exact extreme_exactly. Qed.
Print Assumptions C15_extremes_partial.

(** ... and otherwise they still bound the distribution *)
Theorem C15_bounds : forall (R : Runtime) mx s s1 lines p d, reachable R s -> reachable R s1 -> program_text lines p -> good_program p -> sided p ->
  reports R s lines d -> exists v, (forall w, extreme_is R mx s1 lines w <-> w = v) /\ forall x, listed R d x -> if mx then x <= v else v <= x.
Proof. exact extreme_bounds. Qed.
Print Assumptions C15_bounds.

(** What they return for every program whose distribution is defined *)
Theorem C15_what_is_returned : forall (R : Runtime) mx s lines p v, reachable R s -> program_text lines p -> good_program p -> sided p ->
  extreme_is R mx s lines v -> program_extreme mx p v /\ forall w, program_extreme mx p w -> w = v.
Proof. exact extreme_worked_out. Qed.
Print Assumptions C15_what_is_returned.

Example C15_what_is_returned_nonvacuous : exists lines p d, program_text lines p /\ good_program p /\ sided p /\
  reports rt_fwd (empty_state rt_fwd) lines d /\ get_result_map rt_fwd d = [(1, 2)] /\ extreme_is rt_fwd true (empty_state rt_fwd) lines 2.
Proof.
  exists [$"VAR a = d2"; $"VAR b = MIN(a, 3 - a)"; $"MAX(b, 1)"]. eexists.
  destruct (example_program rt_fwd (empty_state rt_fwd) [$"VAR a = d2"; $"VAR b = MIN(a, 3 - a)"; $"MAX(b, 1)"] _ [(1, 2)]
    ltac:(vm_compute; reflexivity) ltac:(vm_compute; reflexivity) ltac:(vm_compute; reflexivity) ltac:(vm_compute; reflexivity)) as [d [H1 [H2 [H3 [H4 H5]]]]].
  exists d. split; [exact H1|]. split; [exact H2|]. split; [now apply rollable_sided|]. split; [exact H4|]. split; [exact H5|].
  apply extreme_at_is. vm_compute. reflexivity.
Qed.

Example C15_nonvacuous : exists lines1 p1 d1 lines2 p2 d2,
  program_text lines1 p1 /\ good_program p1 /\ sided p1 /\ program_extreme_exact true p1 /\ reports rt_fwd (empty_state rt_fwd) lines1 d1 /\
    get_result_map rt_fwd d1 = [(1, 33); (2, 27)] /\ extreme_is rt_fwd true (empty_state rt_fwd) lines1 2 /\
  program_text lines2 p2 /\ good_program p2 /\ sided p2 /\ program_extreme_exact false p2 /\ reports rt_fwd (empty_state rt_fwd) lines2 d2 /\
    get_result_map rt_fwd d2 = [(0, 56); (1, 4); (2, 108)] /\ extreme_is rt_fwd false (empty_state rt_fwd) lines2 0.
Proof.
  pose (pre := [$"VAR a = 2d2k1"; $"VAR c = MIN(a, d[0,2*2])"]).
  exists (pre ++ [$"MAX(MIN(a, d2), c - 1)"]). eexists. destruct (example_program rt_fwd (empty_state rt_fwd) (pre ++ [$"MAX(MIN(a, d2), c - 1)"]) _ [(1, 33); (2, 27)]
    ltac:(vm_compute; reflexivity) ltac:(vm_compute; reflexivity) ltac:(vm_compute; reflexivity) ltac:(vm_compute; reflexivity)) as [d1 [H1 [H2 [H3 [H4 H5]]]]].
  exists d1, (pre ++ [$"MIN(MAX(a, d2), a * c)"]). eexists.
  destruct (example_program rt_fwd (empty_state rt_fwd) (pre ++ [$"MIN(MAX(a, d2), a * c)"]) _ [(0, 56); (1, 4); (2, 108)]
    ltac:(vm_compute; reflexivity) ltac:(vm_compute; reflexivity) ltac:(vm_compute; reflexivity) ltac:(vm_compute; reflexivity)) as [d2 [G1 [G2 [G3 [G4 G5]]]]].
  exists d2. split; [exact H1|]. split; [exact H2|]. split; [now apply rollable_sided|]. split; [apply exactb_iff; vm_compute; reflexivity|]. split; [exact H4|].
  split; [exact H5|]. split; [apply extreme_at_is; vm_compute; reflexivity|].
  split; [exact G1|]. split; [exact G2|]. split; [now apply rollable_sided|]. split; [apply exactb_iff; vm_compute; reflexivity|]. split; [exact G4|].
  split; [exact G5|]. apply extreme_at_is; vm_compute; reflexivity.
Qed.

(** ** C16 max() and min() bound every roll: false for AND, OR and NOT of numbers, and for zero dice *)
Theorem C16_logic_refuted : exists lines p v x, program_text lines p /\ good_program p /\ drawable p /\
  extreme_is rt_fwd true (empty_state rt_fwd) lines v /\ can_roll rt_fwd (empty_state rt_fwd) lines x /\ v < x.
Proof.
  exists [$"(d2 - 2) OR 0"]. eexists.
  assert (T : program_text [$"(d2 - 2) OR 0"] ltac:(let p := eval vm_compute in (program_of [$"(d2 - 2) OR 0"]) in match p with Some ?p => exact p end))
    by (apply program_of_text; vm_compute; reflexivity).
  exists 0, 1. split; [exact T|]. split; [apply (checked_good _ _ T); vm_compute; reflexivity|]. split; [apply drawableb_iff; vm_compute; reflexivity|].
  split; [apply extreme_at_is; vm_compute; reflexivity|]. split; [|lia]. apply roll_weight_can. vm_compute. discriminate.
Qed.
Print Assumptions C16_logic_refuted.

Theorem C16_zero_dice_refuted : exists lines p v x, program_text lines p /\ runnable p /\ drawable p /\ program_logic_agrees no_values p /\
  extreme_is rt_fwd false (empty_state rt_fwd) lines v /\ can_roll rt_fwd (empty_state rt_fwd) lines x /\ x < v.
Proof.
  exists [$"0d2 + 0"]. eexists.
  assert (T : program_text [$"0d2 + 0"] ltac:(let p := eval vm_compute in (program_of [$"0d2 + 0"]) in match p with Some ?p => exact p end))
    by (apply program_of_text; vm_compute; reflexivity).
  exists 1, 0. split; [exact T|]. split; [apply (checked_runnable _ _ T); vm_compute; reflexivity|]. split; [apply drawableb_iff; vm_compute; reflexivity|].
  split; [apply logical_program; intros n e [X|[]]; injection X as <- <-; repeat split|].
  split; [apply extreme_at_is; vm_compute; reflexivity|]. split; [|lia]. apply roll_weight_can. vm_compute. discriminate.
Qed.
Print Assumptions C16_zero_dice_refuted.

Theorem C16_bounds_rolls_partial : forall (R : Runtime) mx s s1 lines p v x, reachable R s -> program_text lines p -> good_program p -> drawable p ->
  program_logic_agrees no_values p -> extreme_is R mx s lines v -> can_roll R s1 lines x -> if mx then x <= v else v <= x.
Proof. exact extreme_bounds_rolls. Qed.
Print Assumptions C16_bounds_rolls_partial.

(** ... and some roll reaches them when they are exact and no side has multiplicity zero *)
Theorem C16_some_roll_reaches_it : forall (R : Runtime) mx s s1 lines p v, reachable R s -> program_text lines p -> good_program p -> drawable p -> positive p ->
  program_logic_agrees no_values p -> program_extreme_exact mx p -> extreme_is R mx s lines v -> can_roll R s1 lines v.
Proof. exact extreme_rolled. Qed.
Print Assumptions C16_some_roll_reaches_it.

Example C16_nonvacuous : let lines := [$"VAR a = d3 - 2d2"; $"VAR b = MAX(a, d2)"; $"(a < b) * (a + MIN(b, 2d3d1)) - a // 2"] in
  exists p, program_text lines p /\ good_program p /\ drawable p /\ positive p /\ program_logic_agrees no_values p /\
    program_extreme_exact true p /\ program_extreme_exact false p /\
    extreme_is rt_rev true (empty_state rt_rev) lines 3 /\ extreme_is rt_rev false (empty_state rt_rev) lines 0 /\
    can_roll rt_rev (empty_state rt_rev) lines 3 /\ can_roll rt_rev (empty_state rt_rev) lines 0 /\ can_roll rt_rev (empty_state rt_rev) lines 1.
Proof.
  intros lines. eexists.
  assert (T : program_text lines ltac:(let p := eval vm_compute in (program_of lines) in match p with Some ?p => exact p end))
    by (apply program_of_text; vm_compute; reflexivity).
  split; [exact T|]. split; [apply (checked_good _ _ T); vm_compute; reflexivity|]. split; [apply drawableb_iff; vm_compute; reflexivity|].
  split; [apply positiveb_iff; vm_compute; reflexivity|].
  split; [apply logical_program, program_logicalb_iff; vm_compute; reflexivity|].
  split; [apply exactb_iff; vm_compute; reflexivity|]. split; [apply exactb_iff; vm_compute; reflexivity|].
  split; [apply extreme_at_is; vm_compute; reflexivity|]. split; [apply extreme_at_is; vm_compute; reflexivity|].
  repeat split; apply roll_weight_can; vm_compute; discriminate.
Qed.

(** ** C17 Division by zero: max() and min() raise exactly when some result of the program has no value *)
Theorem C17_extremes_raise_exactly : forall (R : Runtime) mx s lines p x, reachable R s -> program_text lines p -> good_program p -> sided p ->
  (extreme_raises R mx s lines x <-> x = ZeroDivisionError /\ In None (results (map fst) no_values p)).
Proof. exact extreme_raises_exactly. Qed.
Print Assumptions C17_extremes_raise_exactly.

Example C17_extremes_nonvacuous : let lines := [$"VAR a = d3 - 2"; $"MAX(1, d2 // a)"] in
  exists p, program_text lines p /\ good_program p /\ sided p /\ In None (results (map fst) no_values p) /\
    extreme_raises rt_fwd true (empty_state rt_fwd) lines ZeroDivisionError.
Proof.
  intros lines. eexists.
  assert (T : program_text lines ltac:(let p := eval vm_compute in (program_of lines) in match p with Some ?p => exact p end))
    by (apply program_of_text; vm_compute; reflexivity).
  split; [exact T|]. split; [apply (checked_good _ _ T); vm_compute; reflexivity|]. split; [apply positiveb_iff; vm_compute; reflexivity|].
  split; [vm_compute; tauto|]. apply raised_iff. vm_compute. reflexivity.
Qed.
