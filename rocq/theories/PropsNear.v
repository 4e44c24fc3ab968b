(** * Property C57: how likely the results of roll() are with the numbers of a random generator *)
From Verif Require Import Py PyFloat Constraint Distribution DiceModel Expr Parser Interp Instances SpecDice SpecProgram SpecInterp SpecFrame Random SpecRandom SpecNear Checks RollProofs NearProofs.

(** Of all sequences of [n] 53-bit numbers, the share of those for which roll() returns a dictionary with property [P] differs from its
    share of the weights by at most 7 / 2^53 for each side of each die *)
Theorem C57_share_of_sequences : forall (R : Runtime) lines s P n, (forall x, ~ can_raise R s lines x) -> (length (dice_thrown lines) <= n)%nat ->
  2 ^ 53 * Z.abs (count_draws n (drawn_event R s lines P) * roll_total R s lines - event_weight R P (roll R lines s) * 2 ^ (53 * Z.of_nat n))
    <= 7 * sides_thrown (dice_thrown lines) * roll_total R s lines * 2 ^ (53 * Z.of_nat n).
Proof. exact event_near. Qed.
Print Assumptions C57_share_of_sequences.

(** ... and so does the share for which stdout is [v] from the probability that is reported for [v] *)
Theorem C57_reported_probability : forall (R : Runtime) s s1 lines p d v n, reachable R s -> program_text lines p -> good_program p -> drawable p ->
  program_logic_agrees no_values p -> used_once_or_uniform p -> reports R s lines d -> (length (dice_thrown lines) <= n)%nat ->
  2 ^ 53 * Z.abs (count_draws n (drawn_event R s1 lines (stdout_is v)) * d_count d - reported R d v * 2 ^ (53 * Z.of_nat n))
    <= 7 * sides_thrown (dice_thrown lines) * d_count d * 2 ^ (53 * Z.of_nat n).
Proof. exact reported_near. Qed.
Print Assumptions C57_reported_probability.

Example C57_nonvacuous : let lines := [$"VAR a = 2d[1*2,3]"; $"VAR b = d2"; $"b * (a + 3d1d1)"] in
  exists p d, program_text lines p /\ good_program p /\ drawable p /\ program_logic_agrees no_values p /\ used_once_or_uniform p /\
    reports rt_fwd (empty_state rt_fwd) lines d /\ get_result_map rt_fwd d = [(4, 4); (6, 4); (8, 5); (12, 4); (16, 1)] /\
    (forall x, ~ can_raise rt_fwd (empty_state rt_fwd) lines x) /\ length (dice_thrown lines) = 6%nat /\ sides_thrown (dice_thrown lines) = 9 /\
    map (drawn_event rt_fwd (empty_state rt_fwd) lines (stdout_is 8)) [[0; 0; 2 ^ 53 - 1; 0; 0; 0]; [0; 0; 0; 0; 0; 0]] = [true; false].
Proof.
  intros lines. eexists. destruct (example_rolled rt_fwd (empty_state rt_fwd) lines _ _
    ltac:(vm_compute; reflexivity) ltac:(vm_compute; reflexivity) ltac:(vm_compute; reflexivity) ltac:(vm_compute; reflexivity)) as [d [H1 [H2 [H3 [H4 H5]]]]].
  exists d. split; [exact H1|]. split; [exact H2|]. split; [exact H3|]. split; [apply logical_program, program_logicalb_iff; vm_compute; reflexivity|].
  split; [split; [left; vm_compute; discriminate|]; split; [left; vm_compute; discriminate|exact I]|]. split; [exact H4|]. split; [rewrite H5; reflexivity|].
  split; [apply raises_none; vm_compute; reflexivity|]. repeat split; vm_compute; reflexivity.
Qed.
