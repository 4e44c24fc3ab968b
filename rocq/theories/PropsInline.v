(** * Property C60: a variable that is read once can be replaced by its definition *)
From Verif Require Import Py PyFloat Constraint Distribution DiceModel Expr Parser Interp Instances SpecDice SpecProgram SpecInterp SpecAlgebra SpecRoll SpecInline
  Checks InlineProofs.

(** The lines [VAR x = e] and [f], where [f] reads [x] once and later lines do not, against the line [f] with [(e)] for [x].
    The distributions are the same if what [f] assigns is used at most once for the last line ... *)
Theorem C60_distributions_partial : forall (R : Runtime) x before rest e n f lines lines' s s' d d',
  program_text lines (before ++ (Some x, e) :: (n, f) :: rest) -> program_text lines' (before ++ (n, put x e f) :: rest) ->
  good_program (before ++ (Some x, e) :: (n, f) :: rest) -> times_read x f = 1 -> n = Some x \/ not_read x rest ->
  match n with Some m => uses m rest <= 1 | None => True end ->
  reachable R s -> reachable R s' -> reports R s lines d -> reports R s' lines' d' -> forall v, reported R d v = reported R d' v.
Proof. exact inline_counts. Qed.
Print Assumptions C60_distributions_partial.

(** ... and not always otherwise: b is 1 with probability 2/3 in the first program and with probability 4/5 in the second *)
Theorem C60_used_twice_refuted : exists x before rest e n f lines lines' d d' v,
  program_text lines (before ++ (Some x, e) :: (n, f) :: rest) /\ program_text lines' (before ++ (n, put x e f) :: rest) /\
  good_program (before ++ (Some x, e) :: (n, f) :: rest) /\ times_read x f = 1 /\ (n = Some x \/ not_read x rest) /\
  reports rt_fwd (empty_state rt_fwd) lines d /\ reports rt_fwd (empty_state rt_fwd) lines' d' /\
  reported rt_fwd d v * d_count d' <> reported rt_fwd d' v * d_count d.
Proof.
  exists $"x", [], [(None, EAdd (EVar $"b") (EVar $"b"))].
  eexists. exists (Some $"b"). eexists. exists [$"VAR x = d3"; $"VAR b = x >= 2"; $"b + b"], [$"VAR b = (d3) >= 2"; $"b + b"].
  destruct (seen _ _ (fun d => (d_count d, get_result_map rt_fwd d)) (dist_at rt_fwd (empty_state rt_fwd) [$"VAR x = d3"; $"VAR b = x >= 2"; $"b + b"] stdout)
    (3, [(0, 1); (2, 2)]) ltac:(vm_compute; reflexivity)) as [d [H E]].
  destruct (seen _ _ (fun d => (d_count d, get_result_map rt_fwd d)) (dist_at rt_fwd (empty_state rt_fwd) [$"VAR b = (d3) >= 2"; $"b + b"] stdout)
    (5, [(0, 1); (2, 4)]) ltac:(vm_compute; reflexivity)) as [d' [H' E']].
  exists d, d', 2. injection E as E1 E2. injection E' as E1' E2'.
  assert (T : program_text [$"VAR x = d3"; $"VAR b = x >= 2"; $"b + b"]
    ltac:(let p := eval vm_compute in (program_of [$"VAR x = d3"; $"VAR b = x >= 2"; $"b + b"]) in match p with Some ?p => exact p end))
    by (apply program_of_text; vm_compute; reflexivity).
  split; [exact T|]. split; [apply program_of_text; vm_compute; reflexivity|]. split; [apply (checked_good _ _ T); vm_compute; reflexivity|].
  split; [vm_compute; reflexivity|]. split; [right; cbn; split; [|right; exact Logic.I]; intuition discriminate|].
  split; [now apply dist_at_reports|]. split; [now apply dist_at_reports|]. unfold reported. rewrite E1, E2, E1', E2'. vm_compute. discriminate.
Qed.
Print Assumptions C60_used_twice_refuted.

Theorem C60_errors : forall (R : Runtime) x before rest e n f lines lines' s s' err,
  program_text lines (before ++ (Some x, e) :: (n, f) :: rest) -> program_text lines' (before ++ (n, put x e f) :: rest) ->
  good_program (before ++ (Some x, e) :: (n, f) :: rest) -> sided (before ++ (Some x, e) :: (n, f) :: rest) ->
  times_read x f = 1 -> n = Some x \/ not_read x rest -> reachable R s -> reachable R s' ->
  (distribution_raises R s lines err <-> distribution_raises R s' lines' err).
Proof. exact inline_raises. Qed.
Print Assumptions C60_errors.

Theorem C60_max_min : forall (R : Runtime) x before rest e n f lines lines' mx s s' v,
  program_text lines (before ++ (Some x, e) :: (n, f) :: rest) -> program_text lines' (before ++ (n, put x e f) :: rest) ->
  good_program (before ++ (Some x, e) :: (n, f) :: rest) -> sided (before ++ (Some x, e) :: (n, f) :: rest) ->
  times_read x f = 1 -> n = Some x \/ not_read x rest -> reachable R s -> reachable R s' ->
  (extreme_is R mx s lines v <-> extreme_is R mx s' lines' v) /\ (forall err, extreme_raises R mx s lines err <-> extreme_raises R mx s' lines' err).
Proof. exact inline_extreme. Qed.
Print Assumptions C60_max_min.

Theorem C60_roll : forall (R : Runtime) x before rest e n f lines lines' s s',
  program_text lines (before ++ (Some x, e) :: (n, f) :: rest) -> program_text lines' (before ++ (n, put x e f) :: rest) ->
  runnable (before ++ (Some x, e) :: (n, f) :: rest) -> drawable (before ++ (Some x, e) :: (n, f) :: rest) ->
  times_read x f = 1 -> n = Some x \/ not_read x rest ->
  (forall v, roll_weight R s lines v = roll_weight R s' lines' v) /\ (forall err, can_raise R s lines err <-> can_raise R s' lines' err) /\
  ((forall err, ~ can_raise R s lines err) -> roll_total R s lines = roll_total R s' lines').
Proof. exact inline_roll. Qed.
Print Assumptions C60_roll.

Example C60_nonvacuous : let lines := [$"VAR a = d2"; $"VAR x = d2 + a"; $"VAR b = MAX(2, x) * a"; $"b - 1"] in
  let lines' := [$"VAR a = d2"; $"VAR b = MAX(2, (d2 + a)) * a"; $"b - 1"] in
  exists before rest e n f d d', let p := before ++ (Some $"x", e) :: (n, f) :: rest in
  program_text lines p /\ program_text lines' (before ++ (n, put $"x" e f) :: rest) /\ good_program p /\ sided p /\ runnable p /\ drawable p /\
  times_read $"x" f = 1 /\ not_read $"x" rest /\ n = Some $"b" /\ uses $"b" rest = 1 /\
  reports rt_fwd (empty_state rt_fwd) lines d /\ get_result_map rt_fwd d = [(1, 1); (5, 1); (2, 1); (7, 1)] /\
  reports rt_fwd (empty_state rt_fwd) lines' d' /\ get_result_map rt_fwd d' = [(1, 1); (5, 1); (2, 1); (7, 1)] /\
  extreme_is rt_fwd true (empty_state rt_fwd) lines 7 /\ roll_weight rt_fwd (empty_state rt_fwd) lines' 5 = 1.
Proof.
  intros lines lines'. assert (T : program_text lines ltac:(let p := eval vm_compute in (program_of lines) in match p with Some ?p => exact p end))
    by (apply program_of_text; vm_compute; reflexivity).
  match type of T with program_text _ [?l1; (Some _, ?e); (?n, ?f); ?l4] => exists [l1], [l4], e, n, f end.
  destruct (shown_reports rt_fwd (empty_state rt_fwd) lines [(1, 1); (5, 1); (2, 1); (7, 1)] ltac:(vm_compute; reflexivity)) as [d [H1 H2]].
  destruct (shown_reports rt_fwd (empty_state rt_fwd) lines' [(1, 1); (5, 1); (2, 1); (7, 1)] ltac:(vm_compute; reflexivity)) as [d' [H3 H4]].
  exists d, d'. intros p. assert (G : good_program p) by (apply (checked_good _ _ T); vm_compute; reflexivity).
  split; [exact T|]. split; [apply program_of_text; vm_compute; reflexivity|]. split; [exact G|].
  split; [apply positiveb_iff; vm_compute; reflexivity|]. split; [now apply RollProofs.good_runnable|]. split; [apply drawableb_iff; vm_compute; reflexivity|].
  split; [vm_compute; reflexivity|]. split; [cbn; split; [|right; exact Logic.I]; intuition discriminate|]. split; [reflexivity|]. split; [vm_compute; reflexivity|].
  split; [exact H1|]. split; [exact H2|]. split; [exact H3|]. split; [exact H4|]. split; [apply extreme_at_is; vm_compute; reflexivity | vm_compute; reflexivity].
Qed.
