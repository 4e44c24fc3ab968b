(** * Properties C09, C13, C14, C17 and C48: roll() *)
From Verif Require Import Py PyFloat Constraint Distribution DiceModel Expr Parser Interp Instances SpecDice SpecProgram SpecInterp SpecAlgebra SpecRoll
  Checks RollProofs.

(** ** C09 Probabilities are those of the program: false when a variable that is not uniform is read twice *)
Theorem C09_read_twice_refuted : exists lines p d v, program_text lines p /\ good_program p /\ drawable p /\ program_logic_agrees no_values p /\
  reports rt_fwd (empty_state rt_fwd) lines d /\
  reported rt_fwd d v * roll_total rt_fwd (empty_state rt_fwd) lines <> roll_weight rt_fwd (empty_state rt_fwd) lines v * d_count d.
Proof.
  exists [$"VAR a = d[1*2,2]"; $"a + a"]. eexists.
  destruct (seen _ _ (fun d => (d_count d, get_result_map rt_fwd d)) (dist_at rt_fwd (empty_state rt_fwd) [$"VAR a = d[1*2,2]"; $"a + a"] stdout) _
    ltac:(vm_compute; reflexivity)) as [d [H E]].
  destruct (example_rolled rt_fwd (empty_state rt_fwd) [$"VAR a = d[1*2,2]"; $"a + a"] _ [(2, 4); (4, 1)]
    ltac:(vm_compute; reflexivity) ltac:(vm_compute; reflexivity) ltac:(vm_compute; reflexivity) ltac:(vm_compute; reflexivity)) as [_ [H1 [H2 [H3 _]]]].
  exists d, 2. split; [exact H1|]. split; [exact H2|]. split; [exact H3|]. split.
  - apply logical_program. intros n e [X|[X|[]]]; injection X as <- <-; repeat split.
  - split; [now apply dist_at_reports|]. unfold reported. pose proof (f_equal fst E) as E1. pose proof (f_equal snd E) as E2. cbn [fst snd] in E1, E2.
    rewrite E1, E2. vm_compute. discriminate.
Qed.
Print Assumptions C09_read_twice_refuted.

(** ... and for dice with so many sides that random.choices cannot make a float of their number *)
Theorem C09_heavy_dice_refuted : exists lines p d, program_text lines p /\ good_program p /\ rollable p /\ program_logic_agrees no_values p /\
  reports rt_fwd (empty_state rt_fwd) lines d /\ reported rt_fwd d 1 <> 0 /\
  (forall v, ~ can_roll rt_fwd (empty_state rt_fwd) lines v) /\ can_raise rt_fwd (empty_state rt_fwd) lines OverflowError.
Proof.
  exists [$"d[1*2" ++ repeat "0"%char 308 ++ $"]"]. eexists.
  destruct (shown_reports rt_fwd (empty_state rt_fwd) [$"d[1*2" ++ repeat "0"%char 308 ++ $"]"] _ ltac:(vm_compute; reflexivity)) as [d [H1 H2]].
  assert (T : program_text [$"d[1*2" ++ repeat "0"%char 308 ++ $"]"]
    ltac:(let p := eval vm_compute in (program_of [$"d[1*2" ++ repeat "0"%char 308 ++ $"]"]) in match p with Some ?p => exact p end))
    by (apply program_of_text; vm_compute; reflexivity).
  exists d. split; [exact T|]. split; [apply (checked_good _ _ T); vm_compute; reflexivity|].
  split; [apply positive_rollable, positiveb_iff; vm_compute; reflexivity|].
  split; [apply logical_program, program_logicalb_iff; vm_compute; reflexivity|]. split; [exact H1|].
  split; [unfold reported; rewrite H2; vm_compute; discriminate|]. apply raises_only. vm_compute. reflexivity.
Qed.
Print Assumptions C09_heavy_dice_refuted.

Theorem C09_probabilities_partial : forall (R : Runtime) s s1 lines p d, reachable R s -> program_text lines p -> good_program p -> drawable p ->
  program_logic_agrees no_values p -> used_once_or_uniform p -> reports R s lines d ->
  0 < roll_total R s1 lines /\ forall v, reported R d v * roll_total R s1 lines = roll_weight R s1 lines v * d_count d.
Proof. exact probabilities_agree. Qed.
Print Assumptions C09_probabilities_partial.

Example C09_nonvacuous : let lines := [$"VAR a = d[1*2,3]"; $"VAR b = d2"; $"b * (a + b)"] in
  exists p d, program_text lines p /\ good_program p /\ drawable p /\ program_logic_agrees no_values p /\ used_once_or_uniform p /\
    reports rt_fwd (empty_state rt_fwd) lines d /\ get_result_map rt_fwd d = [(2, 2); (4, 1); (6, 2); (10, 1)] /\
    map (roll_weight rt_fwd (empty_state rt_fwd) lines) [2; 4; 6; 10] = [2; 1; 2; 1] /\ roll_total rt_fwd (empty_state rt_fwd) lines = 6.
Proof.
  intros lines. eexists. destruct (example_rolled rt_fwd (empty_state rt_fwd) lines _ [(2, 2); (4, 1); (6, 2); (10, 1)]
    ltac:(vm_compute; reflexivity) ltac:(vm_compute; reflexivity) ltac:(vm_compute; reflexivity) ltac:(vm_compute; reflexivity)) as [d [H1 [H2 [H3 [H4 H5]]]]].
  exists d. split; [exact H1|]. split; [exact H2|]. split; [exact H3|]. split; [|split; [|split; [exact H4 | split; [exact H5 | split; vm_compute; reflexivity]]]].
  - apply logical_program. intros n e [X|[X|[X|[]]]]; injection X as <- <-; repeat split.
  - split; [left; vm_compute; discriminate|]. split; [right|exact I]. exists 1. split; [lia|]. intros env x.
    change (joint faces env _) with [Some 1; Some 2]. unfold occurrences. cbn [filter].
    destruct (1 =? x) eqn:E1, (2 =? x) eqn:E2; auto; rewrite ?Z.eqb_eq in *; lia.
Qed.

(** ** C13 Every roll is a reported outcome: false for AND, OR and NOT of numbers, and for zero dice *)
Theorem C13_logic_refuted : exists lines p d v, program_text lines p /\ good_program p /\ drawable p /\
  reports rt_fwd (empty_state rt_fwd) lines d /\ can_roll rt_fwd (empty_state rt_fwd) lines v /\ reported rt_fwd d v = 0.
Proof.
  exists [$"2 AND 1"]. eexists. destruct (example_rolled rt_fwd (empty_state rt_fwd) [$"2 AND 1"] _ [(1, 1)]
    ltac:(vm_compute; reflexivity) ltac:(vm_compute; reflexivity) ltac:(vm_compute; reflexivity) ltac:(vm_compute; reflexivity)) as [d [H1 [H2 [H3 [H4 H5]]]]].
  exists d, 0. split; [exact H1|]. split; [exact H2|]. split; [exact H3|]. split; [exact H4|]. split.
  - apply roll_weight_can. vm_compute. discriminate.
  - unfold reported. rewrite H5. reflexivity.
Qed.
Print Assumptions C13_logic_refuted.

Theorem C13_zero_dice_refuted : exists lines p d v, program_text lines p /\ runnable p /\ drawable p /\ program_logic_agrees no_values p /\
  reports rt_fwd (empty_state rt_fwd) lines d /\ can_roll rt_fwd (empty_state rt_fwd) lines v /\ reported rt_fwd d v = 0.
Proof.
  exists [$"0d2 + 0"]. eexists. destruct (shown_reports rt_fwd (empty_state rt_fwd) [$"0d2 + 0"] [(1, 1); (2, 1)] ltac:(vm_compute; reflexivity)) as [d [H1 H2]].
  exists d, 0. split; [apply program_of_text; vm_compute; reflexivity|]. split; [|split; [|split; [|split; [exact H1|split]]]].
  - apply (checked_runnable [$"0d2 + 0"]); [apply program_of_text; vm_compute; reflexivity | vm_compute; reflexivity].
  - apply drawableb_iff. vm_compute. reflexivity.
  - apply logical_program. intros n e [X|[]]; injection X as <- <-; repeat split.
  - apply roll_weight_can. vm_compute. discriminate.
  - unfold reported. rewrite H2. reflexivity.
Qed.
Print Assumptions C13_zero_dice_refuted.

Theorem C13_rolls_are_reported_partial : forall (R : Runtime) s s1 lines p d, reachable R s -> program_text lines p -> good_program p -> drawable p ->
  program_logic_agrees no_values p -> reports R s lines d -> forall v, can_roll R s1 lines v <-> reported R d v <> 0.
Proof. exact rolls_reported. Qed.
Print Assumptions C13_rolls_are_reported_partial.

Example C13_nonvacuous : let lines := [$"VAR a = 3d3k2"; $"VAR b = MAX(a, d3) - 4"; $"a * ((b == 1) OR !(b < a)) - b // 2"] in
  exists p d, program_text lines p /\ good_program p /\ drawable p /\ program_logic_agrees no_values p /\ reports rt_rev (empty_state rt_rev) lines d /\
    map fst (get_result_map rt_rev d) = [1; 0; 5; -1].
Proof.
  intros lines. eexists. destruct (seen _ _ (fun d => get_result_map rt_rev d) (dist_at rt_rev (empty_state rt_rev) lines stdout) _
    ltac:(vm_compute; reflexivity)) as [d [H E]].
  destruct (example_rolled rt_rev (empty_state rt_rev) lines _ _
    ltac:(vm_compute; reflexivity) ltac:(vm_compute; reflexivity) ltac:(vm_compute; reflexivity) ltac:(vm_compute; reflexivity)) as [_ [H1 [H2 [H3 _]]]].
  exists d. split; [exact H1|]. split; [exact H2|]. split; [exact H3|]. split; [|split; [now apply dist_at_reports | rewrite E; reflexivity]].
  apply logical_program. apply program_logicalb_iff. vm_compute. reflexivity.
Qed.

(** ** C14 AND, OR and NOT treat values above 0 as true: so in distributions, not in roll() *)
Theorem C14_distribution_and_or : forall (R : Runtime) s t a b d (op : text) (f : bool -> bool -> bool), (op = $"AND" /\ f = andb) \/ (op = $"OR" /\ f = orb) ->
  reachable R s -> parse t = Ok (EBin op a b) -> simple (EBin op a b) -> reads (EBin op a b) = [] -> reports R s [t] d ->
  (forall v, reported R d v <> 0 -> v = 0 \/ v = 1) /\
  reported R d 1 = Z.of_nat (length (filter (fun xy => match xy with (Some x, Some y) => f (0 <? x) (0 <? y) | _ => false end)
                                       (list_prod (joint faces no_values a) (joint faces no_values b)))).
Proof. exact logic_counts. Qed.
Print Assumptions C14_distribution_and_or.

Theorem C14_distribution_not : forall (R : Runtime) s t a d, reachable R s -> parse t = Ok (ENot a) -> simple a -> reads a = [] -> reports R s [t] d ->
  (forall v, reported R d v <> 0 -> v = 0 \/ v = 1) /\
  reported R d 1 = Z.of_nat (length (filter (fun x => match x with Some x => x <=? 0 | None => false end) (joint faces no_values a))).
Proof. exact not_counts. Qed.
Print Assumptions C14_distribution_not.

Theorem C14_roll_refuted : exists t1 t2 t3 e1 e2 e3, parse t1 = Ok (EBin $"AND" (EInt $"2") (EInt $"1")) /\ parse t2 = Ok (EBin $"OR" (EInt $"-1") (EInt $"0")) /\
  parse t3 = Ok (ENot (EInt $"-1")) /\ program_text [t1; t2; t3] [(None, e1); (None, e2); (None, e3)] /\
  can_roll rt_fwd (empty_state rt_fwd) [t1] 0 /\ can_roll rt_fwd (empty_state rt_fwd) [t2] 1 /\ can_roll rt_fwd (empty_state rt_fwd) [t3] 0.
Proof.
  exists $"2 AND 1", $"-1 OR 0", $"!-1". do 3 eexists. split; [vm_compute; reflexivity|]. split; [vm_compute; reflexivity|]. split; [vm_compute; reflexivity|].
  split; [apply program_of_text; vm_compute; reflexivity|]. split; [|split]; apply roll_weight_can; vm_compute; discriminate.
Qed.
Print Assumptions C14_roll_refuted.

(** where the two readings agree *)
Theorem C14_agreement : (forall x y, or_agrees x y <-> (0 < x \/ 0 < y) \/ (x = 0 /\ y = 0)) /\ (forall x, not_agrees x <-> 0 <= x) /\
  (forall x y, x <= 0 \/ y <= 0 -> 0 <= x \/ 0 <= y -> (and_agrees x y <-> Z.land x y = 0)).
Proof. exact or_not_agree. Qed.
Print Assumptions C14_agreement.

Theorem C14_roll_partial : forall (R : Runtime) s lines p v, program_text lines p -> runnable p -> drawable p -> (forall n e, In (n, e) p -> logical e) ->
  roll_weight R s lines v = occurrences v (results faces no_values p).
Proof. exact roll_logical. Qed.
Print Assumptions C14_roll_partial.

Example C14_nonvacuous : let t := $"(2d2 - 2) AND (d2 - 1)" in let lines := [$"VAR a = d3"; $"(!(a == 1)) AND ((a < 3) OR False)"] in
  (exists e p, parse t = Ok e /\ simple e /\ reads e = [] /\ match e with EBin op a b => op = $"AND" | _ => False end /\
     shown rt_fwd (empty_state rt_fwd) [t] = Some [(0, 5); (1, 3)] /\
     program_text lines p /\ runnable p /\ drawable p /\ (forall n e, In (n, e) p -> logical e) /\
     map (roll_weight rt_fwd (empty_state rt_fwd) lines) [0; 1] = [2; 1]).
Proof.
  intros t lines. do 2 eexists. split; [vm_compute; reflexivity|]. split.
  - apply simpleb_iff; [|reflexivity]. eapply WfFacts.parse_wf with (t := t). vm_compute. reflexivity.
  - split; [reflexivity|]. split; [reflexivity|]. split; [vm_compute; reflexivity|].
    assert (T : program_text lines ltac:(let p := eval vm_compute in (program_of lines) in match p with Some ?p => exact p end))
      by (apply program_of_text; vm_compute; reflexivity).
    split; [exact T|]. split; [apply (checked_runnable _ _ T); vm_compute; reflexivity|]. split; [apply drawableb_iff; vm_compute; reflexivity|].
    split; [apply program_logicalb_iff; vm_compute; reflexivity | vm_compute; reflexivity].
Qed.

(** ** C17 Division by zero, for roll(): it is raised on exactly the rolls that divide by zero, and nothing else is raised *)
Theorem C17_roll_raises_on_zero_divisors : forall (R : Runtime) s lines p x, program_text lines p -> runnable p -> drawable p ->
  (can_raise R s lines x <-> x = ZeroDivisionError /\ In None (rolled_program no_values p)).
Proof. exact roll_raises. Qed.
Print Assumptions C17_roll_raises_on_zero_divisors.

Example C17_roll_nonvacuous : let lines := [$"VAR a = d2 - 1"; $"2d3 // (a - 1)"] in
  exists p, program_text lines p /\ runnable p /\ drawable p /\
    Forall2 (fun x n => length (filter (fun y => match x, y with Some a, Some b => a =? b | None, None => true | _, _ => false end) (rolled_program no_values p)) = n)
      [None; Some (-2); Some (-6); Some (-4)] [9; 1; 1; 3]%nat.
Proof.
  intros lines. eexists. assert (T : program_text lines ltac:(let p := eval vm_compute in (program_of lines) in match p with Some ?p => exact p end))
    by (apply program_of_text; vm_compute; reflexivity).
  split; [exact T|]. split; [apply (checked_runnable _ _ T); vm_compute; reflexivity|]. split; [apply drawableb_iff; vm_compute; reflexivity|].
  repeat constructor.
Qed.

(** ** C48 A roll is one joint result of all dice, all of them equally likely, and a variable is rolled once *)
Theorem C48_roll_is_a_joint_result : forall (R : Runtime) s lines p, program_text lines p -> runnable p -> drawable p ->
  (forall v, can_roll R s lines v <-> In (Some v) (rolled_program no_values p)) /\
  (forall v, roll_weight R s lines v = occurrences v (rolled_program no_values p)) /\
  (~ In None (rolled_program no_values p) -> roll_total R s lines = Z.of_nat (length (rolled_program no_values p))).
Proof. exact roll_semantics. Qed.
Print Assumptions C48_roll_is_a_joint_result.

Example C48_nonvacuous : let lines := [$"VAR a = 3d[1*2,4]k2"; $"VAR b = 0d6 + d2"; $"a - b * (a AND 4)"] in
  exists p, program_text lines p /\ runnable p /\ drawable p /\ ~ In None (rolled_program no_values p) /\
    length (rolled_program no_values p) = 54%nat /\ map (roll_weight rt_rev (empty_state rt_rev) lines) [2; 3; 4; 6; 7; 8] = [16; 12; 12; 0; 0; 14].
Proof.
  intros lines. eexists. assert (T : program_text lines ltac:(let p := eval vm_compute in (program_of lines) in match p with Some ?p => exact p end))
    by (apply program_of_text; vm_compute; reflexivity).
  split; [exact T|]. split; [apply (checked_runnable _ _ T); vm_compute; reflexivity|]. split; [apply drawableb_iff; vm_compute; reflexivity|].
  split; [vm_compute; intuition discriminate|]. split; vm_compute; reflexivity.
Qed.
