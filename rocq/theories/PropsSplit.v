(** * Property C77: an operation on the results of two separate groups of lines *)
From Coq Require Import QArith.
From Verif Require Import Py PyFloat Constraint Distribution DiceModel Expr Parser Interp Instances SpecDice SpecProgram SpecRoll SpecInterp SpecAlgebra SpecProb SpecFormula SpecCases
  SpecCost SpecAfresh Checks SplitProofs SpecSplit.
Local Open Scope Z_scope.

(** The lines [q1], [e1] have the result [d1], the lines [q2], [e2] the result [d2]; no variable is assigned in both.  The lines [q1], [q2] followed by an operation on [e1] and
    [e2] have the result [d].  Each pair of values then has the product of their ways, however often variables are used in a group ... *)
Theorem C77_ways : forall (R : Runtime) E e1 e2 q1 q2 d d1 d2, combines R E e1 e2 q1 q2 d d1 d2 ->
  forall v, reported R d v = zsum (map (fun xc => zsum (map (fun yc => if gives E (fst xc) (fst yc) v then snd xc * snd yc else 0) (get_result_map R d2))) (get_result_map R d1)).
Proof. exact split_ways. Qed.
Print Assumptions C77_ways.

(** ... and the product of their probabilities *)
Theorem C77_probability : forall (R : Runtime) E e1 e2 q1 q2 d d1 d2, combines R E e1 e2 q1 q2 d d1 d2 -> sided (q1 ++ [(None, e1)]) -> sided (q2 ++ [(None, e2)]) ->
  forall v, (probability R d v == qtotal (map (fun x => qtotal (map (fun y => if gives E x y v then probability R d1 x * probability R d2 y else 0)
    (map fst (get_result_map R d2)))) (map fst (get_result_map R d1))))%Q.
Proof. exact split_probability. Qed.
Print Assumptions C77_probability.

(** The larger one is at most [v] if both are, the smaller one at least [v] if both are: these probabilities are multiplied *)
Theorem C77_max : forall (R : Runtime) e1 e2 q1 q2 d d1 d2, combines R (EMinMax $"MAX" e1 e2) e1 e2 q1 q2 d d1 d2 -> sided (q1 ++ [(None, e1)]) -> sided (q2 ++ [(None, e2)]) ->
  forall v, (probability_at_most R d v == probability_at_most R d1 v * probability_at_most R d2 v)%Q.
Proof. exact split_max. Qed.
Print Assumptions C77_max.

Theorem C77_min : forall (R : Runtime) e1 e2 q1 q2 d d1 d2, combines R (EMinMax $"MIN" e1 e2) e1 e2 q1 q2 d d1 d2 -> sided (q1 ++ [(None, e1)]) -> sided (q2 ++ [(None, e2)]) ->
  forall v, (probability_at_least R d v == probability_at_least R d1 v * probability_at_least R d2 v)%Q.
Proof. exact split_min. Qed.
Print Assumptions C77_min.

(** The mean of the product is the product of the means *)
Theorem C77_product : forall (R : Runtime) e1 e2 q1 q2 d d1 d2, combines R (EMul e1 e2) e1 e2 q1 q2 d d1 d2 -> sided (q1 ++ [(None, e1)]) -> sided (q2 ++ [(None, e2)]) ->
  (mean R d == mean R d1 * mean R d2)%Q.
Proof. exact split_product. Qed.
Print Assumptions C77_product.

(** The variances of sums and of differences are the sums of the variances *)
Theorem C77_sum : forall (R : Runtime) e1 e2 q1 q2 d d1 d2, combines R (EAdd e1 e2) e1 e2 q1 q2 d d1 d2 -> rollable (q1 ++ [(None, e1)]) -> rollable (q2 ++ [(None, e2)]) ->
  (mean R d == mean R d1 + mean R d2)%Q /\ (variance R d == variance R d1 + variance R d2)%Q.
Proof. exact split_add. Qed.
Print Assumptions C77_sum.

Theorem C77_difference : forall (R : Runtime) e1 e2 q1 q2 d d1 d2, combines R (ESub e1 e2) e1 e2 q1 q2 d d1 d2 -> rollable (q1 ++ [(None, e1)]) -> rollable (q2 ++ [(None, e2)]) ->
  (mean R d == mean R d1 - mean R d2)%Q /\ (variance R d == variance R d1 + variance R d2)%Q.
Proof. exact split_sub. Qed.
Print Assumptions C77_difference.

(** The values listed are those of the pairs of values listed for the two groups *)
Theorem C77_values : forall (R : Runtime) E e1 e2 q1 q2 d d1 d2, combines R E e1 e2 q1 q2 d d1 d2 -> sided (q1 ++ [(None, e1)]) -> sided (q2 ++ [(None, e2)]) ->
  forall v, listed R d v <-> exists x y, listed R d1 x /\ listed R d2 y /\ combined E x y = Some v.
Proof. exact split_values. Qed.
Print Assumptions C77_values.

(** An exception in one of the groups is raised by the whole; otherwise only a division raises, if 0 is listed for the second group *)
Theorem C77_errors : forall (R : Runtime) E e1 e2 q1 q2 s s1 s2 lines lines1 lines2 z, operands E = Some (e1, e2) -> simple E ->
  good_program (q1 ++ [(None, e1)]) -> good_program (q2 ++ [(None, e2)]) -> separate q1 q2 -> sided (q1 ++ [(None, e1)]) -> sided (q2 ++ [(None, e2)]) ->
  reachable R s -> reachable R s1 -> reachable R s2 ->
  program_text lines (q1 ++ q2 ++ [(None, E)]) -> program_text lines1 (q1 ++ [(None, e1)]) -> program_text lines2 (q2 ++ [(None, e2)]) ->
  (distribution_raises R s1 lines1 z \/ distribution_raises R s2 lines2 z -> distribution_raises R s lines z) /\
  (forall d1 d2, reports R s1 lines1 d1 -> reports R s2 lines2 d2 -> (distribution_raises R s lines z <-> z = ZeroDivisionError /\ E = EDiv e1 e2 /\ listed R d2 0)).
Proof. exact split_errors. Qed.
Print Assumptions C77_errors.

(** roll() on the three programs: the chances are multiplied as well *)
Theorem C77_roll : forall (R : Runtime) E e1 e2 q1 q2 s s1 s2 lines lines1 lines2, operands E = Some (e1, e2) -> well_formed E -> no_assignment E ->
  runnable (q1 ++ [(None, e1)]) -> runnable (q2 ++ [(None, e2)]) -> separate q1 q2 -> drawable (q1 ++ [(None, e1)]) -> drawable (q2 ++ [(None, e2)]) ->
  program_text lines (q1 ++ q2 ++ [(None, E)]) -> program_text lines1 (q1 ++ [(None, e1)]) -> program_text lines2 (q2 ++ [(None, e2)]) ->
  (forall v, can_roll R s lines v <-> exists x y, can_roll R s1 lines1 x /\ can_roll R s2 lines2 y /\ roll_combined E x y = Some v) /\
  (forall xs ys, NoDup xs -> NoDup ys -> (forall x, In x xs <-> can_roll R s1 lines1 x) -> (forall y, In y ys <-> can_roll R s2 lines2 y) ->
    forall v, roll_weight R s lines v = zsum (map (fun x => zsum (map (fun y => if roll_gives E x y v then roll_weight R s1 lines1 x * roll_weight R s2 lines2 y else 0) ys)) xs)).
Proof. exact split_roll. Qed.
Print Assumptions C77_roll.

Theorem C77_roll_errors : forall (R : Runtime) E e1 e2 q1 q2 s s1 s2 lines lines1 lines2 z, operands E = Some (e1, e2) -> well_formed E -> no_assignment E ->
  runnable (q1 ++ [(None, e1)]) -> runnable (q2 ++ [(None, e2)]) -> separate q1 q2 -> drawable (q1 ++ [(None, e1)]) -> drawable (q2 ++ [(None, e2)]) ->
  program_text lines (q1 ++ q2 ++ [(None, E)]) -> program_text lines1 (q1 ++ [(None, e1)]) -> program_text lines2 (q2 ++ [(None, e2)]) ->
  (can_raise R s lines z <-> can_raise R s1 lines1 z \/ can_raise R s2 lines2 z \/ (z = ZeroDivisionError /\ E = EDiv e1 e2 /\ can_roll R s2 lines2 0)).
Proof. exact split_roll_errors. Qed.
Print Assumptions C77_roll_errors.

(** A variable used twice in the first group *)
Example C77_nonvacuous : exists e1 e2 q1 q2 d d1 d2, combines rt_fwd (EMul e1 e2) e1 e2 q1 q2 d d1 d2 /\ rollable (q1 ++ [(None, e1)]) /\ rollable (q2 ++ [(None, e2)]) /\
  get_result_map rt_fwd d = [(2, 4); (4, 5); (8, 1)] /\ get_result_map rt_fwd d1 = [(2, 4); (4, 1)] /\ get_result_map rt_fwd d2 = [(1, 1); (2, 1)].
Proof. groups [$"VAR a = d[1*2,2]"; $"VAR b = d2"; $"(a + a) * b"] [$"VAR a = d[1*2,2]"; $"(a + a)"] [$"VAR b = d2"; $"b"] [(2, 4); (4, 5); (8, 1)] [(2, 4); (4, 1)] [(1, 1); (2, 1)]. Qed.

Example C77_max_nonvacuous : exists e1 e2 q1 q2 d d1 d2, combines rt_fwd (EMinMax $"MAX" e1 e2) e1 e2 q1 q2 d d1 d2 /\ rollable (q1 ++ [(None, e1)]) /\ rollable (q2 ++ [(None, e2)]) /\
  get_result_map rt_fwd d = [(2, 8); (4, 2)] /\ get_result_map rt_fwd d1 = [(2, 4); (4, 1)] /\ get_result_map rt_fwd d2 = [(1, 1); (2, 1)].
Proof. groups [$"VAR a = d[1*2,2]"; $"VAR b = d2"; $"MAX(a + a, b)"] [$"VAR a = d[1*2,2]"; $"a + a"] [$"VAR b = d2"; $"b"] [(2, 8); (4, 2)] [(2, 4); (4, 1)] [(1, 1); (2, 1)]. Qed.

Example C77_min_nonvacuous : exists e1 e2 q1 q2 d d1 d2, combines rt_fwd (EMinMax $"MIN" e1 e2) e1 e2 q1 q2 d d1 d2 /\ rollable (q1 ++ [(None, e1)]) /\ rollable (q2 ++ [(None, e2)]) /\
  get_result_map rt_fwd d = [(1, 5); (2, 5)] /\ get_result_map rt_fwd d1 = [(2, 4); (4, 1)] /\ get_result_map rt_fwd d2 = [(1, 1); (2, 1)].
Proof. groups [$"VAR a = d[1*2,2]"; $"VAR b = d2"; $"MIN(a + a, b)"] [$"VAR a = d[1*2,2]"; $"a + a"] [$"VAR b = d2"; $"b"] [(1, 5); (2, 5)] [(2, 4); (4, 1)] [(1, 1); (2, 1)]. Qed.

Example C77_sum_nonvacuous : exists e1 e2 q1 q2 d d1 d2, combines rt_fwd (EAdd e1 e2) e1 e2 q1 q2 d d1 d2 /\ rollable (q1 ++ [(None, e1)]) /\ rollable (q2 ++ [(None, e2)]) /\
  get_result_map rt_fwd d = [(3, 4); (4, 4); (5, 1); (6, 1)] /\ get_result_map rt_fwd d1 = [(2, 4); (4, 1)] /\ get_result_map rt_fwd d2 = [(1, 1); (2, 1)].
Proof. groups [$"VAR a = d[1*2,2]"; $"VAR b = d2"; $"a + a + b"] [$"VAR a = d[1*2,2]"; $"a + a"] [$"VAR b = d2"; $"b"] [(3, 4); (4, 4); (5, 1); (6, 1)] [(2, 4); (4, 1)] [(1, 1); (2, 1)]. Qed.

Example C77_difference_nonvacuous : exists e1 e2 q1 q2 d d1 d2, combines rt_fwd (ESub e1 e2) e1 e2 q1 q2 d d1 d2 /\ rollable (q1 ++ [(None, e1)]) /\ rollable (q2 ++ [(None, e2)]) /\
  get_result_map rt_fwd d = [(1, 4); (0, 4); (3, 1); (2, 1)] /\ get_result_map rt_fwd d1 = [(2, 4); (4, 1)] /\ get_result_map rt_fwd d2 = [(1, 1); (2, 1)].
Proof. groups [$"VAR a = d[1*2,2]"; $"VAR b = d2"; $"a + a - b"] [$"VAR a = d[1*2,2]"; $"a + a"] [$"VAR b = d2"; $"b"] [(1, 4); (0, 4); (3, 1); (2, 1)] [(2, 4); (4, 1)] [(1, 1); (2, 1)]. Qed.

(** roll() of bitwise operators: a one of the first die and a two of the second give 0 *)
Example C77_roll_nonvacuous : let lines := [$"VAR a = d2"; $"VAR b = d[1,2*2]"; $"a AND b"] in let lines1 := [$"VAR a = d2"; $"a"] in let lines2 := [$"VAR b = d[1,2*2]"; $"b"] in let s := empty_state rt_fwd in
  exists E e1 e2 q1 q2, operands E = Some (e1, e2) /\ good_program (q1 ++ q2 ++ [(None, E)]) /\ runnable (q1 ++ [(None, e1)]) /\ runnable (q2 ++ [(None, e2)]) /\ separate q1 q2 /\
  drawable (q1 ++ [(None, e1)]) /\ drawable (q2 ++ [(None, e2)]) /\
  program_text lines (q1 ++ q2 ++ [(None, E)]) /\ program_text lines1 (q1 ++ [(None, e1)]) /\ program_text lines2 (q2 ++ [(None, e2)]) /\
  map (roll_weight rt_fwd s lines) [0; 1] = [3; 3] /\ map (roll_weight rt_fwd s lines1) [1; 2] = [1; 1] /\ map (roll_weight rt_fwd s lines2) [1; 2] = [1; 2].
Proof.
  intros lines lines1 lines2 s.
  assert (T : program_text lines ltac:(let p := eval vm_compute in (program_of lines) in match p with Some ?p => exact p end)) by (apply program_of_text; vm_compute; reflexivity).
  assert (T1 : program_text lines1 ltac:(let p := eval vm_compute in (program_of lines1) in match p with Some ?p => exact p end)) by (apply program_of_text; vm_compute; reflexivity).
  assert (T2 : program_text lines2 ltac:(let p := eval vm_compute in (program_of lines2) in match p with Some ?p => exact p end)) by (apply program_of_text; vm_compute; reflexivity).
  assert (G := checked_good _ _ T ltac:(vm_compute; reflexivity)). assert (G1 := checked_good _ _ T1 ltac:(vm_compute; reflexivity)). assert (G2 := checked_good _ _ T2 ltac:(vm_compute; reflexivity)).
  match type of T with program_text _ [_; _; (_, ?E)] => match type of T1 with program_text _ [?b1; (_, ?e1)] => match type of T2 with program_text _ [?b2; (_, ?e2)] => exists E, e1, e2, [b1], [b2] end end end.
  split; [reflexivity|]. split; [exact G|]. split; [exact (RollProofs.good_runnable _ G1)|]. split; [exact (RollProofs.good_runnable _ G2)|].
  split; [intros n [f [I|[]]] [g [J|[]]]; injection I as <- _; discriminate J|]. split; [apply drawableb_iff; vm_compute; reflexivity|]. split; [apply drawableb_iff; vm_compute; reflexivity|].
  split; [exact T|]. split; [exact T1|]. split; [exact T2|]. split; [vm_compute; reflexivity|]. split; vm_compute; reflexivity.
Qed.

(** A division by a variable that can be 0 *)
Example C77_errors_nonvacuous : let lines := [$"VAR a = d2"; $"VAR b = d[0,1]"; $"a // b"] in let lines1 := [$"VAR a = d2"; $"a"] in let lines2 := [$"VAR b = d[0,1]"; $"b"] in let s := empty_state rt_fwd in
  exists e1 e2 q1 q2 d1 d2, good_program (q1 ++ q2 ++ [(None, EDiv e1 e2)]) /\ good_program (q1 ++ [(None, e1)]) /\ good_program (q2 ++ [(None, e2)]) /\ separate q1 q2 /\
  drawable (q1 ++ [(None, e1)]) /\ drawable (q2 ++ [(None, e2)]) /\
  program_text lines (q1 ++ q2 ++ [(None, EDiv e1 e2)]) /\ program_text lines1 (q1 ++ [(None, e1)]) /\ program_text lines2 (q2 ++ [(None, e2)]) /\
  reports rt_fwd s lines1 d1 /\ reports rt_fwd s lines2 d2 /\ listed rt_fwd d2 0 /\ distribution_raises rt_fwd s lines ZeroDivisionError /\ map (roll_weight rt_fwd s lines) [1; 2] = [1; 1].
Proof.
  intros lines lines1 lines2 s.
  assert (T : program_text lines ltac:(let p := eval vm_compute in (program_of lines) in match p with Some ?p => exact p end)) by (apply program_of_text; vm_compute; reflexivity).
  assert (T1 : program_text lines1 ltac:(let p := eval vm_compute in (program_of lines1) in match p with Some ?p => exact p end)) by (apply program_of_text; vm_compute; reflexivity).
  assert (T2 : program_text lines2 ltac:(let p := eval vm_compute in (program_of lines2) in match p with Some ?p => exact p end)) by (apply program_of_text; vm_compute; reflexivity).
  assert (G := checked_good _ _ T ltac:(vm_compute; reflexivity)). assert (G1 := checked_good _ _ T1 ltac:(vm_compute; reflexivity)). assert (G2 := checked_good _ _ T2 ltac:(vm_compute; reflexivity)).
  destruct (shown_reports rt_fwd s lines1 [(1, 1); (2, 1)] ltac:(vm_compute; reflexivity)) as [d1 [H1 H1']]. destruct (shown_reports rt_fwd s lines2 [(0, 1); (1, 1)] ltac:(vm_compute; reflexivity)) as [d2 [H2 H2']].
  match type of T1 with program_text _ [?b1; (_, ?e1)] => match type of T2 with program_text _ [?b2; (_, ?e2)] => exists e1, e2, [b1], [b2], d1, d2 end end.
  split; [exact G|]. split; [exact G1|]. split; [exact G2|]. split; [intros n [f [I|[]]] [g [J|[]]]; injection I as <- _; discriminate J|].
  split; [apply drawableb_iff; vm_compute; reflexivity|]. split; [apply drawableb_iff; vm_compute; reflexivity|].
  split; [exact T|]. split; [exact T1|]. split; [exact T2|]. split; [exact H1|]. split; [exact H2|]. split; [unfold listed; rewrite H2'; now left|].
  split; [apply raised_iff; vm_compute; reflexivity|]. vm_compute. reflexivity.
Qed.
