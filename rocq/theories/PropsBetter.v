(** * Property C70: better dice never lower the chances *)
From Coq Require Import QArith.
From Verif Require Import Py PyFloat Constraint Distribution DiceModel Expr Parser Interp Instances SpecDice SpecProgram SpecInterp SpecAlgebra SpecProb SpecSame SpecExchange SpecBetter
  Checks BetterProofs.
Local Open Scope Z_scope.

(** Parts of the last line of a program are exchanged for better ones where the value of the line grows with them, and for worse ones where it
    falls: then every value is reached with at least the same probability, and the mean is at least as large. *)
Theorem C70_improved_partial : forall (R : Runtime) q m e e' s s' lines lines' d d', improved (better_alone R) steady true e e' ->
  reachable R s -> reachable R s' -> program_text lines (q ++ [(m, e)]) -> program_text lines' (q ++ [(m, e')]) -> good_program (q ++ [(m, e)]) ->
  sided (q ++ [(m, e)]) -> sided (q ++ [(m, e')]) -> reports R s lines d -> reports R s' lines' d' -> at_least_as_good R d d' /\ (mean R d <= mean R d')%Q.
Proof. exact improved_better. Qed.
Print Assumptions C70_improved_partial.

(** Parts of any line, if every variable is used once or its values are equally likely: the variables that are assigned better values are used where the
    value of the last line grows with them, and those that are assigned worse ones where it falls. *)
Theorem C70_programs : forall (R : Runtime) p p' s s' lines lines' d d', improved_program (better_alone R) steady p p' ->
  reachable R s -> reachable R s' -> program_text lines p -> program_text lines' p' -> good_program p -> rollable p -> rollable p' ->
  used_once_or_uniform p -> used_once_or_uniform p' -> reports R s lines d -> reports R s' lines' d' -> at_least_as_good R d d' /\ (mean R d <= mean R d')%Q.
Proof. exact program_better. Qed.
Print Assumptions C70_programs.

(** roll(): however often the variables are used *)
Theorem C70_roll : forall (R : Runtime) p p' s s' lines lines' v, improved_program (better_alone R) steady p p' ->
  program_text lines p -> program_text lines' p' -> good_program p -> drawable p -> drawable p' -> program_logic_agrees no_values p -> program_logic_agrees no_values p' ->
  (forall x, ~ can_raise R s lines x) -> (forall x, ~ can_raise R s' lines' x) ->
  roll_reaches R s lines v * roll_total R s' lines' <= roll_reaches R s' lines' v * roll_total R s lines.
Proof. exact roll_better. Qed.
Print Assumptions C70_roll.

(** Not so for what is reported: a variable that is read twice. *)
Theorem C70_variable_refuted : exists (R : Runtime) t t' e e' s d d', parse t = Ok e /\ parse t' = Ok e' /\ better_alone R e e' /\ reachable R s /\
  reports R s [$"VAR a = " ++ t; $"a + a"] d /\ reports R s [$"VAR a = " ++ t'; $"a + a"] d' /\ (probability_at_least R d' 4 < probability_at_least R d 4)%Q.
Proof. exact variable_refuted. Qed.
Print Assumptions C70_variable_refuted.

(** average() returns floats in the order of the means *)
Theorem C70_average : forall (R : Runtime) (d d' : dist R) f f', obtainable R d -> obtainable R d' -> (mean R d <= mean R d')%Q -> d_average R d = Ok f -> d_average R d' = Ok f' ->
  exists x x', fvalue f = Some x /\ fvalue f' = Some x' /\ (x <= x')%Q.
Proof. exact better_average. Qed.
Print Assumptions C70_average.

(** Better faces: sums, pools, MAX and MIN of the same number of dice *)
Theorem C70_faces : forall (R : Runtime) fs vs fs' vs' e e' s s' t t' d d', better_faces fs fs' -> pools_alike fs vs fs' vs' e e' -> reachable R s -> reachable R s' ->
  parse t = Ok e -> parse t' = Ok e' -> reports R s [t] d -> reports R s' [t'] d' -> at_least_as_good R d d' /\ (mean R d <= mean R d')%Q.
Proof. exact faces_better. Qed.
Print Assumptions C70_faces.

(** The highest of more dice: better *)
Theorem C70_more_to_keep : forall (R : Runtime) fs vs vs' k n n' e e' s s' t t' d d', fs <> [] -> highest_of fs vs k n e -> highest_of fs vs' k n' e' -> (n <= n')%nat ->
  reachable R s -> reachable R s' -> parse t = Ok e -> parse t' = Ok e' -> reports R s [t] d -> reports R s' [t'] d' ->
  at_least_as_good R d d' /\ (mean R d <= mean R d')%Q.
Proof. exact highest_better. Qed.
Print Assumptions C70_more_to_keep.

(** The lowest of more dice: worse *)
Theorem C70_more_to_drop : forall (R : Runtime) fs vs vs' k n n' e e' s s' t t' d d', fs <> [] -> lowest_of fs vs k n e -> lowest_of fs vs' k n' e' -> (n <= n')%nat ->
  reachable R s -> reachable R s' -> parse t = Ok e -> parse t' = Ok e' -> reports R s [t] d -> reports R s' [t'] d' ->
  at_least_as_good R d' d /\ (mean R d' <= mean R d)%Q.
Proof. exact lowest_worse. Qed.
Print Assumptions C70_more_to_drop.

(** More dice without negative faces: better *)
Theorem C70_more_dice : forall (R : Runtime) fs vs vs' n n' e e' s s' t t' d d', fs <> [] -> (forall x, In x fs -> 0 <= x) -> sum_of fs vs n e -> sum_of fs vs' n' e' -> (n <= n')%nat ->
  reachable R s -> reachable R s' -> parse t = Ok e -> parse t' = Ok e' -> reports R s [t] d -> reports R s' [t'] d' ->
  at_least_as_good R d d' /\ (mean R d <= mean R d')%Q.
Proof. exact more_better. Qed.
Print Assumptions C70_more_dice.

(** MAX(a, b) is at least as good as [a] and as [b], and both are at least as good as MIN(a, b) *)
Theorem C70_max_min : forall (R : Runtime) (up : bool) a b p s s' t t' d d', let mm := if up then $"MAX" else $"MIN" in
  p = a \/ p = b -> reads a = [] -> reads b = [] -> simple a -> simple b -> sided [(None, EMinMax mm a b)] -> reachable R s -> reachable R s' ->
  parse t = Ok p -> parse t' = Ok (EMinMax mm a b) -> reports R s [t] d -> reports R s' [t'] d' -> total_ways R d' <> 0 ->
  if up then at_least_as_good R d d' /\ (mean R d <= mean R d')%Q else at_least_as_good R d' d /\ (mean R d' <= mean R d)%Q.
Proof. exact pick_better. Qed.
Print Assumptions C70_max_min.

(** The chance to beat a drawn card: 2d2k1 for d2 *)
Example C70_nonvacuous : let lines := [$"VAR c = d2"; $"d2 > c"] in let lines' := [$"VAR c = d2"; $"2d2k1 > c"] in
  exists q e e' d d', program_text lines (q ++ [(None, e)]) /\ program_text lines' (q ++ [(None, e')]) /\ improved (better_alone rt_fwd) steady true e e' /\ e <> e' /\ good_program (q ++ [(None, e)]) /\
  sided (q ++ [(None, e)]) /\ sided (q ++ [(None, e')]) /\
  reports rt_fwd (empty_state rt_fwd) lines d /\ get_result_map rt_fwd d = [(0, 3); (1, 1)] /\
  reports rt_fwd (empty_state rt_fwd) lines' d' /\ get_result_map rt_fwd d' = [(0, 5); (1, 3)] /\
  (exists a a' fs vs, e = EBin $">" a (EVar $"c") /\ e' = EBin $">" a' (EVar $"c") /\ fs <> [] /\ highest_of fs vs 1 1 a /\ highest_of fs vs 1 2 a').
Proof.
  intros lines lines'. assert (T : program_text lines ltac:(let p := eval vm_compute in (program_of lines) in match p with Some ?p => exact p end))
    by (apply program_of_text; vm_compute; reflexivity).
  assert (T' : program_text lines' ltac:(let p := eval vm_compute in (program_of lines') in match p with Some ?p => exact p end))
    by (apply program_of_text; vm_compute; reflexivity).
  destruct (shown_reports rt_fwd (empty_state rt_fwd) lines [(0, 3); (1, 1)] ltac:(vm_compute; reflexivity)) as [d [H1 H2]].
  destruct (shown_reports rt_fwd (empty_state rt_fwd) lines' [(0, 5); (1, 3)] ltac:(vm_compute; reflexivity)) as [d' [H3 H4]].
  match type of T with program_text _ [?l; (_, EBin ?op ?a ?c)] => match type of T' with program_text _ [_; (_, EBin _ ?a' _)] =>
    assert (P : parse $"d2" = Ok a) by (vm_compute; reflexivity); assert (P' : parse $"2d2k1" = Ok a') by (vm_compute; reflexivity);
    assert (Hi : highest_of [1; 2] [1; 2] 1 1 a); [|assert (Hi' : highest_of [1; 2] [1; 2] 1 2 a')];
    [| |exists [l], (EBin op a c), (EBin op a' c), d, d'] end end.
  - apply hi_sum. match goal with |- sum_of _ _ _ (EDice ?d) => refine (so_dice [1; 2] [1; 2] d _ _) end; [split; [|intros v]; reflexivity | cbn; lia].
  - apply hi_pool; try reflexivity; [split; [|intros v]; reflexivity | lia].
  - split; [exact T|]. split; [exact T'|]. split.
    + apply im_above; [now left| |apply im_same; intros n _; reflexivity]. apply im_better.
      apply (better_one_two $"d2" $"2d2k1" _ _ 1 1 1 3 P P'); try (vm_compute; reflexivity); lia.
    + split; [discriminate|]. split; [exact (checked_good _ _ T ltac:(vm_compute; reflexivity))|].
      split; [apply ProgramProofs.rollable_sided, RollFacts.drawable_rollable, drawableb_iff; vm_compute; reflexivity|].
      split; [apply ProgramProofs.rollable_sided, RollFacts.drawable_rollable, drawableb_iff; vm_compute; reflexivity|].
      split; [exact H1|]. split; [exact H2|]. split; [exact H3|]. split; [exact H4|].
      eexists; eexists; exists [1; 2], [1; 2]. split; [reflexivity|]. split; [reflexivity|]. split; [discriminate|]. split; [exact Hi | exact Hi'].
Qed.

(** 2d2k1 for d2 in one variable, 2d2d1 for d2 in another, which the first has to beat *)
Example C70_programs_nonvacuous : let lines := [$"VAR a = d2"; $"VAR b = d2"; $"a > b"] in let lines' := [$"VAR a = 2d2k1"; $"VAR b = 2d2d1"; $"a > b"] in
  exists p p' d d', improved_program (better_alone rt_fwd) steady p p' /\ p <> p' /\ program_text lines p /\ program_text lines' p' /\ good_program p /\ drawable p /\ drawable p' /\
  used_once_or_uniform p /\ used_once_or_uniform p' /\ program_logic_agrees no_values p /\ program_logic_agrees no_values p' /\
  (forall x, ~ can_raise rt_fwd (empty_state rt_fwd) lines x) /\ (forall x, ~ can_raise rt_fwd (empty_state rt_fwd) lines' x) /\
  reports rt_fwd (empty_state rt_fwd) lines d /\ get_result_map rt_fwd d = [(0, 3); (1, 1)] /\
  reports rt_fwd (empty_state rt_fwd) lines' d' /\ get_result_map rt_fwd d' = [(0, 7); (1, 9)] /\
  roll_reaches rt_fwd (empty_state rt_fwd) lines 1 = 1 /\ roll_total rt_fwd (empty_state rt_fwd) lines = 4 /\
  roll_reaches rt_fwd (empty_state rt_fwd) lines' 1 = 9 /\ roll_total rt_fwd (empty_state rt_fwd) lines' = 16.
Proof.
  intros lines lines'. assert (T : program_text lines ltac:(let p := eval vm_compute in (program_of lines) in match p with Some ?p => exact p end))
    by (apply program_of_text; vm_compute; reflexivity).
  assert (T' : program_text lines' ltac:(let p := eval vm_compute in (program_of lines') in match p with Some ?p => exact p end))
    by (apply program_of_text; vm_compute; reflexivity).
  destruct (shown_reports rt_fwd (empty_state rt_fwd) lines [(0, 3); (1, 1)] ltac:(vm_compute; reflexivity)) as [d [H1 H2]].
  destruct (shown_reports rt_fwd (empty_state rt_fwd) lines' [(0, 7); (1, 9)] ltac:(vm_compute; reflexivity)) as [d' [H3 H4]].
  match type of T with program_text _ ?p => match type of T' with program_text _ ?p' => exists p, p', d, d' end end.
  split; [|split; [discriminate|]; split; [exact T|]; split; [exact T'|]; split; [exact (checked_good _ _ T ltac:(vm_compute; reflexivity))|];
    split; [apply drawableb_iff; vm_compute; reflexivity|]; split; [apply drawableb_iff; vm_compute; reflexivity|];
    split; [split; [left; vm_compute; discriminate|]; split; [left; vm_compute; discriminate|exact I]|];
    split; [split; [left; vm_compute; discriminate|]; split; [left; vm_compute; discriminate|exact I]|];
    split; [apply RollProofs.logical_program, program_logicalb_iff; vm_compute; reflexivity|]; split; [apply RollProofs.logical_program, program_logicalb_iff; vm_compute; reflexivity|];
    split; [apply raises_none; vm_compute; reflexivity|]; split; [apply raises_none; vm_compute; reflexivity|];
    split; [exact H1|]; split; [exact H2|]; split; [exact H3|]; split; [exact H4|]; repeat split; vm_compute; reflexivity].
  apply ip_rises; [apply im_better|apply ip_falls; [apply im_worse|apply ip_last, im_above; [now left|apply im_variable; reflexivity|apply im_variable; reflexivity]]].
  - apply (better_one_two $"d2" $"2d2k1" _ _ 1 1 1 3); try (vm_compute; reflexivity); lia.
  - apply (better_one_two $"2d2d1" $"d2" _ _ 3 1 1 1); try (vm_compute; reflexivity); lia.
Qed.

(** Dice with better faces, one die of two dropped, two dice for one, the larger of two *)
Example C70_pools_nonvacuous : exists e1 e2 e3 e4 a d1 d2 d3 d4 d5,
  parse $"d2" = Ok e1 /\ parse $"d[1*2,2,3]" = Ok e2 /\ parse $"2d2d1" = Ok e3 /\ parse $"2d2" = Ok e4 /\ parse $"MAX(d2, d2)" = Ok (EMinMax $"MAX" a a) /\ a = e1 /\
  (forall t d, In (t, d) [($"d2", d1); ($"d[1*2,2,3]", d2); ($"2d2d1", d3); ($"2d2", d4); ($"MAX(d2, d2)", d5)] -> reports rt_fwd (empty_state rt_fwd) [t] d) /\
  better_faces [1; 2] [1; 1; 2; 3] /\ pools_alike [1; 2] [1; 2] [1; 1; 2; 3] [1; 2; 3] e1 e2 /\
  lowest_of [1; 2] [1; 2] 1 1 e1 /\ lowest_of [1; 2] [1; 2] 1 2 e3 /\ sum_of [1; 2] [1; 2] 1 e1 /\ sum_of [1; 2] [1; 2] 2 e4 /\
  reads e1 = [] /\ simple e1 /\ sided [(None, EMinMax $"MAX" a a)] /\ total_ways rt_fwd d5 <> 0 /\
  get_result_map rt_fwd d1 = [(1, 1); (2, 1)] /\ get_result_map rt_fwd d3 = [(1, 3); (2, 1)] /\ get_result_map rt_fwd d5 = [(1, 1); (2, 3)].
Proof.
  assert (T1 : program_text [$"d2"] ltac:(let p := eval vm_compute in (program_of [$"d2"]) in match p with Some ?p => exact p end)) by (apply program_of_text; vm_compute; reflexivity).
  assert (T2 : program_text [$"d[1*2,2,3]"] ltac:(let p := eval vm_compute in (program_of [$"d[1*2,2,3]"]) in match p with Some ?p => exact p end)) by (apply program_of_text; vm_compute; reflexivity).
  assert (T3 : program_text [$"2d2d1"] ltac:(let p := eval vm_compute in (program_of [$"2d2d1"]) in match p with Some ?p => exact p end)) by (apply program_of_text; vm_compute; reflexivity).
  assert (T4 : program_text [$"2d2"] ltac:(let p := eval vm_compute in (program_of [$"2d2"]) in match p with Some ?p => exact p end)) by (apply program_of_text; vm_compute; reflexivity).
  destruct (shown_reports rt_fwd (empty_state rt_fwd) [$"d2"] [(1, 1); (2, 1)] ltac:(vm_compute; reflexivity)) as [d1 [H1 M1]].
  destruct (shown_reports rt_fwd (empty_state rt_fwd) [$"d[1*2,2,3]"] [(1, 2); (2, 1); (3, 1)] ltac:(vm_compute; reflexivity)) as [d2 [H2 M2]].
  destruct (shown_reports rt_fwd (empty_state rt_fwd) [$"2d2d1"] [(1, 3); (2, 1)] ltac:(vm_compute; reflexivity)) as [d3 [H3 M3]].
  destruct (shown_reports rt_fwd (empty_state rt_fwd) [$"2d2"] [(2, 1); (3, 2); (4, 1)] ltac:(vm_compute; reflexivity)) as [d4 [H4 M4]].
  destruct (shown_reports rt_fwd (empty_state rt_fwd) [$"MAX(d2, d2)"] [(1, 1); (2, 3)] ltac:(vm_compute; reflexivity)) as [d5 [H5 M5]].
  assert (G1 := checked_good _ _ T1 ltac:(vm_compute; reflexivity)).
  match type of T1 with program_text _ [(_, EDice ?a1)] => match type of T2 with program_text _ [(_, EDice ?a2)] => match type of T3 with program_text _ [(_, ?e3)] =>
    match type of T4 with program_text _ [(_, EDice ?a4)] =>
    assert (S1 : sum_of [1; 2] [1; 2] 1 (EDice a1)) by (refine (so_dice [1; 2] [1; 2] a1 _ _); [split; [|intros v]; reflexivity | cbn; lia]);
    assert (S2 : sum_of [1; 1; 2; 3] [1; 2; 3] 1 (EDice a2)) by (refine (so_dice [1; 1; 2; 3] [1; 2; 3] a2 _ _); [split; [|intros v]; reflexivity | cbn; lia]);
    assert (S3 : lowest_of [1; 2] [1; 2] 1 2 e3) by (apply lo_pool; try reflexivity; [split; [|intros v]; reflexivity | lia]);
    assert (S4 : sum_of [1; 2] [1; 2] 2 (EDice a4)) by (refine (so_dice [1; 2] [1; 2] a4 _ _); [split; [|intros v]; reflexivity | cbn; lia]);
    exists (EDice a1), (EDice a2), e3, (EDice a4), (EDice a1), d1, d2, d3, d4, d5 end end end end.
  split; [vm_compute; reflexivity|]. split; [vm_compute; reflexivity|]. split; [vm_compute; reflexivity|]. split; [vm_compute; reflexivity|]. split; [vm_compute; reflexivity|].
  split; [reflexivity|]. split; [intros t d I; cbn [In] in I; repeat (destruct I as [I|I]; [injection I as <- <-; assumption|]); destruct I|].
  split; [exact better_example|]. split; [exists 1%nat, 1%nat; left; split; apply hi_sum; assumption|]. split; [now apply lo_sum|]. split; [exact S3|]. split; [exact S1|]. split; [exact S4|].
  split; [reflexivity|]. split; [exact (proj1 (proj2 (proj2 G1) None _ (or_introl eq_refl)))|].
  split; [apply ProgramProofs.rollable_sided, RollFacts.drawable_rollable, drawableb_iff; vm_compute; reflexivity|].
  split; [unfold total_ways; rewrite M5; discriminate|]. split; [exact M1|]. split; [exact M3 | exact M5].
Qed.
