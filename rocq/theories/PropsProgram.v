(** * Properties C05 - C08, C10 - C12, C17, C20, C44 - C46: distributions of expressions and programs *)
From Coq Require Import QArith.
From Verif Require Import Py PyFloat Constraint Distribution DiceModel Expr Parser Interp Instances SpecDice SpecProgram SpecInterp SpecAlgebra
  Checks ProgramProofs.
Local Open Scope Z_scope.

(** ** C05 Variable-free expressions: reported counts are the number of ways *)
Theorem C05_counts_are_ways : forall (R : Runtime) s t e d, reachable R s -> parse t = Ok e -> simple e -> reads e = [] -> reports R s [t] d ->
  (forall v, reported R d v = occurrences v (joint faces no_values e)) /\
  (forall v, listed R d v <-> In (Some v) (joint (map fst) no_values e)).
Proof. exact expression_counts. Qed.
Print Assumptions C05_counts_are_ways.

Example C05_nonvacuous : let t := $"MAX(2d2, d[1*2,-1]) * (ABS(d2 - 3) + (d2 >= 2))" in
  exists e d, parse t = Ok e /\ simple e /\ reads e = [] /\ reports rt_fwd (empty_state rt_fwd) [t] d /\
    get_result_map rt_fwd d = [(4, 9); (6, 15); (2, 3); (9, 6); (3, 6); (8, 6); (12, 3)] /\
    map (fun v => occurrences v (joint faces no_values e)) [2; 3; 4; 5; 6; 8; 9; 12] = [3; 6; 9; 0; 15; 6; 6; 3].
Proof.
  intros t. eexists. destruct (shown_reports rt_fwd (empty_state rt_fwd) [t] [(4, 9); (6, 15); (2, 3); (9, 6); (3, 6); (8, 6); (12, 3)]) as [d [H1 H2]];
    [vm_compute; reflexivity|].
  exists d. assert (E : exists e, parse t = Ok e) by (eexists; vm_compute; reflexivity). split; [vm_compute; reflexivity|]. split.
  - apply simpleb_iff; [|reflexivity]. eapply WfFacts.parse_wf with (t := t). vm_compute. reflexivity.
  - split; [reflexivity|]. split; [exact H1|]. split; [exact H2 | vm_compute; reflexivity].
Qed.

(** ** C06 Each value in a distribution is counted once and nothing is lost *)
Theorem C06_counted_once : forall (R : Runtime) d, obtainable R d ->
  NoDup (map fst (get_result_map R d)) /\ (forall v c, In (v, c) (get_result_map R d) -> 0 <= c) /\
  zsum (map snd (get_result_map R d)) = d_count d /\
  (d_count d <> 0 -> (fold_right (fun vc q => inject_Z (snd vc) / inject_Z (d_count d) + q) 0 (get_result_map R d) == 1)%Q).
Proof. exact probability_total. Qed.
Print Assumptions C06_counted_once.

Example C06_nonvacuous : exists d, obtainable rt_rev d /\ d_count d = 6 /\ get_result_map rt_rev d = [(2, 1); (3, 2); (4, 2); (5, 1)].
Proof.
  destruct (seen _ _ (fun d => (d_count d, get_result_map rt_rev d)) (dist_at rt_rev (empty_state rt_rev) [$"VAR a = d2"; $"a + d3"] stdout)
    (6, [(2, 1); (3, 2); (4, 2); (5, 1)])) as [d [H E]]; [vm_compute; reflexivity|].
  exists d. injection E as E1 E2. split; [|split; [exact E1 | exact E2]].
  eapply reports_obtainable; [apply af_now | apply dist_at_reports; exact H].
Qed.

(** ** C07 Combining distributions without shared variables multiplies totals; with shared variables the total
    can only be smaller *)
Theorem C07_totals_multiply : forall (R : Runtime) op a b d, obtainable R a -> obtainable R b -> d_binop R op a b = Ok d ->
  (no_shared_variable R a b -> total_ways R d = total_ways R a * total_ways R b) /\ total_ways R d <= total_ways R a * total_ways R b.
Proof. exact totals_multiply. Qed.
Print Assumptions C07_totals_multiply.

Theorem C07_combined_independently : forall (R : Runtime) op a b d, obtainable R a -> obtainable R b -> no_shared_variable R a b ->
  d_binop R op a b = Ok d -> combined_independently R op a b d.
Proof. exact independent. Qed.
Print Assumptions C07_combined_independently.

Theorem C07_unary_totals : forall (R : Runtime) a, obtainable R a ->
  total_ways R (d_not R a) = total_ways R a /\ total_ways R (d_abs R a) = total_ways R a.
Proof. exact unary_totals. Qed.
Print Assumptions C07_unary_totals.

Example C07_nonvacuous : exists a b d,
  reports rt_fwd (empty_state rt_fwd) [$"VAR a = 2d2"; $"a * d2"] a /\ reports rt_fwd (empty_state rt_fwd) [$"VAR b = d3"; $"b"] b /\
  no_shared_variable rt_fwd a b /\ d_binop rt_fwd VLe a b = Ok d /\ get_result_map rt_fwd d = [(0, 20); (1, 4)] /\
  total_ways rt_fwd d = 24 /\ total_ways rt_fwd a = 8 /\ total_ways rt_fwd b = 3.
Proof.
  destruct (combined_seen rt_fwd VLe (dist_at rt_fwd (empty_state rt_fwd) [$"VAR a = 2d2"; $"a * d2"] stdout)
    (dist_at rt_fwd (empty_state rt_fwd) [$"VAR b = d3"; $"b"] stdout) _ _ _ _ _ ltac:(vm_compute; reflexivity)) as [a [b [d [Ha [Hb [E [Va [Vb [Ma [Mb Md]]]]]]]]]].
  exists a, b, d. split; [now apply dist_at_reports|]. split; [now apply dist_at_reports|]. split; [|split; [exact E|]].
  - apply view_disjoint. rewrite Va, Vb. cbn. intros n. intuition congruence.
  - split; [exact Md|]. unfold total_ways. rewrite Ma, Mb, Md. split; [reflexivity | split; reflexivity].
Qed.

(** ** C08 A variable keeps its value: reported outcomes are exactly the possible ones *)
Theorem C08_reported_are_possible : forall (R : Runtime) s lines p d, reachable R s -> program_text lines p -> good_program p -> rollable p ->
  reports R s lines d -> forall v,
  (reported R d v <> 0 <-> In (Some v) (results faces no_values p)) /\
  (listed R d v <-> In (Some v) (results (map fst) no_values p)).
Proof. exact results_possible. Qed.
Print Assumptions C08_reported_are_possible.

Theorem C08_minus_itself : forall (R : Runtime) s t1 t2 n e d, reachable R s -> parse t1 = Ok (EAssign n e) ->
  parse t2 = Ok (ESub (EVar n) (EVar n)) -> simple e -> reads e = [] -> var_name n -> reports R s [t1; t2] d ->
  forall v, listed R d v -> v = 0.
Proof. exact minus_itself. Qed.
Print Assumptions C08_minus_itself.

Example C08_nonvacuous : let lines := [$"VAR a = 2d2"; $"VAR b = a + d[1*2,3]"; $"VAR c = d3"; $"a * b - a"] in
  exists p d, program_text lines p /\ good_program p /\ rollable p /\ reports rt_rev (empty_state rt_rev) lines d /\
    get_result_map rt_rev d = [(4, 2); (8, 1); (9, 16); (15, 8); (16, 2); (24, 1)] /\
    nodup (fun a b : option Z => ltac:(decide equality; apply Z.eq_dec) : {a = b} + {a <> b}) (results faces no_values p) =
      [Some 4; Some 8; Some 9; Some 15; Some 16; Some 24].
Proof.
  intros lines. eexists. destruct (example_program rt_rev (empty_state rt_rev) lines _ [(4, 2); (8, 1); (9, 16); (15, 8); (16, 2); (24, 1)]
    ltac:(vm_compute; reflexivity) ltac:(vm_compute; reflexivity) ltac:(vm_compute; reflexivity) ltac:(vm_compute; reflexivity)) as [d [H1 [H2 [H3 [H4 H5]]]]].
  exists d. split; [exact H1|]. split; [exact H2|]. split; [exact H3|]. split; [exact H4|]. split; [exact H5 | vm_compute; reflexivity].
Qed.

(** ** C10 What is reported when a variable is read several times *)
Theorem C10_weighted_counts : forall (R : Runtime) s lines p d, reachable R s -> program_text lines p -> good_program p -> reports R s lines d ->
  forall v, reported R d v = weighted faces no_values p v.
Proof. exact weighted_counts. Qed.
Print Assumptions C10_weighted_counts.

Theorem C10_exact_when_used_once_or_uniform : forall (R : Runtime) s lines p d, reachable R s -> program_text lines p -> good_program p ->
  rollable p -> used_once_or_uniform p -> reports R s lines d -> forall v,
  reported R d v * Z.of_nat (length (results faces no_values p)) = occurrences v (results faces no_values p) * d_count d.
Proof. exact exact_when_uniform. Qed.
Print Assumptions C10_exact_when_used_once_or_uniform.

Example C10_nonvacuous :
  (let lines := [$"VAR a = d[1*2,3]"; $"a + a"] in
   exists p d, program_text lines p /\ good_program p /\ rollable p /\ reports rt_fwd (empty_state rt_fwd) lines d /\
     get_result_map rt_fwd d = [(2, 4); (6, 1)] /\ map (weighted faces no_values p) [2; 4; 6] = [4; 0; 1]) /\
  (let lines := [$"VAR a = d3"; $"VAR b = a + 2d2"; $"a * b - a"] in
   exists p d, program_text lines p /\ good_program p /\ rollable p /\ used_once_or_uniform p /\ reports rt_fwd (empty_state rt_fwd) lines d /\
     get_result_map rt_fwd d = [(2, 1); (3, 2); (4, 1); (6, 1); (8, 2); (10, 1); (12, 1); (15, 2); (18, 1)]).
Proof.
  split; intros lines.
  - eexists. destruct (example_program rt_fwd (empty_state rt_fwd) lines _ [(2, 4); (6, 1)]
      ltac:(vm_compute; reflexivity) ltac:(vm_compute; reflexivity) ltac:(vm_compute; reflexivity) ltac:(vm_compute; reflexivity)) as [d [H1 [H2 [H3 [H4 H5]]]]].
    exists d. split; [exact H1|]. split; [exact H2|]. split; [exact H3|]. split; [exact H4|]. split; [exact H5 | vm_compute; reflexivity].
  - eexists. destruct (example_program rt_fwd (empty_state rt_fwd) lines _ [(2, 1); (3, 2); (4, 1); (6, 1); (8, 2); (10, 1); (12, 1); (15, 2); (18, 1)]
      ltac:(vm_compute; reflexivity) ltac:(vm_compute; reflexivity) ltac:(vm_compute; reflexivity) ltac:(vm_compute; reflexivity)) as [d [H1 [H2 [H3 [H4 H5]]]]].
    exists d. split; [exact H1|]. split; [exact H2|]. split; [exact H3|]. split; [|split; [exact H4 | exact H5]].
    split; [right|split; [left; vm_compute; discriminate | exact I]].
    exists 1. split; [lia|]. intros env x.
    change (joint faces env _) with [Some 1; Some 2; Some 3]. unfold occurrences. cbn [filter].
    destruct (1 =? x) eqn:E1, (2 =? x) eqn:E2, (3 =? x) eqn:E3; auto; rewrite ?Z.eqb_eq in *; lia.
Qed.

(** ** C11 Reassigning a variable makes a fresh, independent one *)
Theorem C11_fresh_variable : forall (R : Runtime) s t n e s' d, reachable R s -> parse t = Ok (EAssign n e) -> n <> stdout -> gives R s [t] s' n d ->
  exists inst, tied_to R inst d /\
    forall s0 lines0 s1 m d0, reachable R s0 -> gives R s0 lines0 s1 m d0 -> after R s1 s -> ~ mentions R d0 inst.
Proof. exact fresh_instance. Qed.
Print Assumptions C11_fresh_variable.

Theorem C11_independent_of_earlier_ones : forall (R : Runtime) s t n e s' d, reachable R s -> parse t = Ok (EAssign n e) -> n <> stdout ->
  simple e -> reads e = [] -> gives R s [t] s' n d ->
  forall s0 lines0 s1 m d0, reachable R s0 -> gives R s0 lines0 s1 m d0 -> after R s1 s -> no_shared_variable R d d0.
Proof. exact fresh_independent. Qed.
Print Assumptions C11_independent_of_earlier_ones.

Theorem C11_other_variables_unchanged : forall (R : Runtime) s t n e s' d, reachable R s -> parse t = Ok (EAssign n e) -> n <> stdout ->
  simple e -> gives R s [t] s' n d ->
  forall m, m <> n -> m <> stdout -> dget text_eqb (st_var s') m = dget text_eqb (st_var s) m.
Proof. exact others_unchanged. Qed.
Print Assumptions C11_other_variables_unchanged.

Example C11_nonvacuous : let s := state_after rt_fwd [$"VAR a = d3"] (empty_state rt_fwd) in exists s1 d0 s' d,
  gives rt_fwd (empty_state rt_fwd) [$"VAR a = d3"] s1 $"a" d0 /\ reachable rt_fwd s /\ after rt_fwd s1 s /\
  gives rt_fwd s [$"VAR a = 2d2"] s' $"a" d /\
  view rt_fwd d0 = [(1, [($"a_1", [1])], 1); (2, [($"a_1", [2])], 1); (3, [($"a_1", [3])], 1)] /\
  view rt_fwd d = [(2, [($"a_2", [2])], 1); (3, [($"a_2", [3])], 2); (4, [($"a_2", [4])], 1)].
Proof.
  intros s.
  destruct (seen _ _ (view rt_fwd) (dist_at rt_fwd (empty_state rt_fwd) [$"VAR a = d3"] $"a") _ ltac:(vm_compute; reflexivity)) as [d0 [H0 V0]].
  destruct (seen _ _ (view rt_fwd) (dist_at rt_fwd s [$"VAR a = 2d2"] $"a") _ ltac:(vm_compute; reflexivity)) as [d [H V]].
  exists s, d0. eexists. exists d. split; [exact (dist_at_gives _ _ _ _ _ H0)|]. split; [apply after_lines, af_now|]. split; [apply af_now|].
  split; [exact (dist_at_gives _ _ _ _ _ H)|]. split; [exact V0 | exact V].
Qed.

(** ** C12 Storing a variable does not change its distribution *)
Theorem C12_stored_unchanged : forall (R : Runtime) s t n e s' d, reachable R s -> parse t = Ok (EAssign n e) -> n <> stdout -> gives R s [t] s' n d ->
  exists s1 de, dist_of R e s = (s1, Ok de) /\ dget text_eqb (st_var s') stdout = Some de /\
    get_result_map R d = get_result_map R de /\ d_count d = d_count de /\ length (d_map d) = length (d_map de) /\
    d_max R d = d_max R de /\ d_min R d = d_min R de /\ d_average R d = d_average R de /\ get_dict_form R d = get_dict_form R de.
Proof. exact stored_same. Qed.
Print Assumptions C12_stored_unchanged.

Theorem C12_stored_if_it_exists : forall (R : Runtime) s t n e s1 de, reachable R s -> parse t = Ok (EAssign n e) -> n <> stdout ->
  dist_of R e s = (s1, Ok de) -> exists s' d, gives R s [t] s' n d.
Proof. exact stored_exists. Qed.
Print Assumptions C12_stored_if_it_exists.

Example C12_nonvacuous : let s := state_after rt_rev [$"VAR a = d3"] (empty_state rt_rev) in exists s' d, reachable rt_rev s /\
  (exists e, parse $"VAR b = a + d2" = Ok (EAssign $"b" e)) /\ gives rt_rev s [$"VAR b = a + d2"] s' $"b" d /\
  length (d_map d) = 6%nat /\ get_result_map rt_rev d = [(2, 1); (3, 2); (4, 2); (5, 1)].
Proof.
  intros s.
  destruct (seen _ _ (fun d => (length (d_map d), get_result_map rt_rev d)) (dist_at rt_rev s [$"VAR b = a + d2"] $"b") _ ltac:(vm_compute; reflexivity)) as [d [H V]].
  injection V as V1 V2. eexists. exists d. split; [apply after_lines, af_now|]. split; [eexists; vm_compute; reflexivity|].
  split; [exact (dist_at_gives _ _ _ _ _ H)|]. split; [exact V1 | exact V2].
Qed.

(** ** C20 Averages are linear *)
Theorem C20_exact_means : forall (R : Runtime) a b, obtainable R a -> obtainable R b -> no_shared_variable R a b -> d_count a <> 0 -> d_count b <> 0 ->
  (exists d, d_binop R VAdd a b = Ok d /\ (mean R d == mean R a + mean R b)%Q) /\
  (exists d, d_binop R VSub a b = Ok d /\ (mean R d == mean R a - mean R b)%Q) /\
  (exists d, d_binop R VMul a b = Ok d /\ (mean R d == mean R a * mean R b)%Q).
Proof. exact means. Qed.
Print Assumptions C20_exact_means.

Example C20_nonvacuous : exists a b d, reports rt_fwd (empty_state rt_fwd) [$"d[1*2,3]"] a /\ reports rt_fwd (empty_state rt_fwd) [$"VAR b = 2d2"; $"b"] b /\
  no_shared_variable rt_fwd a b /\ d_binop rt_fwd VMul a b = Ok d /\ (mean rt_fwd a == 5 # 3)%Q /\ (mean rt_fwd b == 3)%Q /\ (mean rt_fwd d == 5)%Q.
Proof.
  destruct (combined_seen rt_fwd VMul (dist_at rt_fwd (empty_state rt_fwd) [$"d[1*2,3]"] stdout)
    (dist_at rt_fwd (empty_state rt_fwd) [$"VAR b = 2d2"; $"b"] stdout) _ _ _ _ _ ltac:(vm_compute; reflexivity)) as [a [b [d [Ha [Hb [E [Va [Vb [Ma [Mb Md]]]]]]]]]].
  exists a, b, d. split; [now apply dist_at_reports|]. split; [now apply dist_at_reports|]. split; [|split; [exact E|]].
  - apply view_disjoint. rewrite Va, Vb. cbn. intros n. intuition congruence.
  - unfold mean, sum_of_results, total_ways. rewrite Ma, Mb, Md. split; [reflexivity | split; reflexivity].
Qed.

(** ** C17 Division by zero is reported exactly when it can happen.

    For distributions: exactly when some joint result of the dice divides by zero (here sides count even when their
    multiplicity is zero; without such sides these are the joint results that can be rolled). *)
Theorem C17_distribution_raises_exactly : forall (R : Runtime) s lines p x, reachable R s -> program_text lines p -> good_program p -> sided p ->
  (distribution_raises R s lines x <-> x = ZeroDivisionError /\ In None (results (map fst) no_values p)).
Proof. exact raises_exactly. Qed.
Print Assumptions C17_distribution_raises_exactly.

Theorem C17_distribution_raises_when_possible_partial : forall (R : Runtime) s lines p x, reachable R s -> program_text lines p -> good_program p -> sided p ->
  positive p -> (distribution_raises R s lines x <-> x = ZeroDivisionError /\ In None (results faces no_values p)).
Proof. exact raises_positive. Qed.
Print Assumptions C17_distribution_raises_when_possible_partial.

Theorem C17_operators : forall (R : Runtime) op a b x, obtainable R a -> obtainable R b ->
  (d_binop R op a b = Raise x <-> op = VDiv /\ x = ZeroDivisionError /\ (exists v, listed R a v) /\ listed R b 0).
Proof. exact raises_division. Qed.
Print Assumptions C17_operators.

(** Without the condition on multiplicities: 1 // d[0*0,1] cannot divide by zero, yet raises *)
Theorem C17_impossible_division_refuted : exists lines p, program_text lines p /\ good_program p /\ rollable p /\
  ~ In None (results faces no_values p) /\ distribution_raises rt_fwd (empty_state rt_fwd) lines ZeroDivisionError.
Proof.
  exists [$"1 // d[0*0,1]"]. eexists. assert (H := program_of_text [$"1 // d[0*0,1]"] _ ltac:(vm_compute; reflexivity)). split; [exact H|].
  split; [exact (checked_good _ _ H ltac:(vm_compute; reflexivity))|]. split; [apply rollableb_iff; vm_compute; reflexivity|].
  split; [vm_compute; intuition discriminate | apply raised_iff; vm_compute; reflexivity].
Qed.
Print Assumptions C17_impossible_division_refuted.

Example C17_nonvacuous : let lines := [$"VAR a = d2"; $"VAR b = d3 - a"; $"a // b"] in
  exists p, program_text lines p /\ good_program p /\ sided p /\ positive p /\ In None (results faces no_values p) /\
    distribution_raises rt_fwd (empty_state rt_fwd) lines ZeroDivisionError.
Proof.
  intros lines. eexists. assert (H := program_of_text lines _ ltac:(vm_compute; reflexivity)). split; [exact H|].
  split; [exact (checked_good _ _ H ltac:(vm_compute; reflexivity))|].
  match type of H with program_text _ ?p => destruct (positiveb_iff p ltac:(vm_compute; reflexivity)) as [H1 H2] end.
  split; [exact H2|]. split; [exact H1|]. split; [vm_compute; tauto | apply raised_iff; vm_compute; reflexivity].
Qed.

(** ** C44 The value of an assignment is the variable's value.

    True when rolling; false of distributions, where the value of a nested assignment is not tied to the variable. *)
Theorem C44_roll_partial : forall (R : Runtime) n e s w s' x, In (w, (s', Ok x)) (roll_of R (EAssign n e) s) -> get_constant R n s' = Ok x.
Proof. exact assign_roll. Qed.
Print Assumptions C44_roll_partial.

Theorem C44_roll_minus_itself : forall (R : Runtime) t n e s run v, parse t = Ok (ESub (EParen (EAssign n e)) (EVar n)) ->
  In run (map snd (roll R [t] s)) -> stdout_of R run = Some v -> v = 0.
Proof. exact assign_then_read. Qed.
Print Assumptions C44_roll_minus_itself.

Theorem C44_distribution_refuted : exists t n e d, parse t = Ok (ESub (EParen (EAssign n e)) (EVar n)) /\
  reports rt_fwd (empty_state rt_fwd) [t] d /\ reported rt_fwd d 1 <> 0.
Proof.
  exists ($"(VAR a = d2) - a"), $"a". eexists. destruct (shown_reports rt_fwd (empty_state rt_fwd) [$"(VAR a = d2) - a"] [(0, 2); (-1, 1); (1, 1)]) as [d [H1 H2]];
    [vm_compute; reflexivity|].
  exists d. split; [vm_compute; reflexivity|]. split; [exact H1|]. unfold reported. rewrite H2. vm_compute. discriminate.
Qed.
Print Assumptions C44_distribution_refuted.

Example C44_nonvacuous : map (fun wr => (fst wr, stdout_of rt_fwd (snd wr))) (roll rt_fwd [$"(VAR a = 2d2) - a"] (empty_state rt_fwd)) =
  [(1, Some 0); (1, Some 0); (1, Some 0); (1, Some 0)].
Proof. vm_compute. reflexivity. Qed.

(** ** C45 Distributions of different interpreters are independent.

    False when both have given the same name to a variable: the instances of both are called a_1.  True when they have
    assigned different names, in particular when one of them has assigned none. *)
Theorem C45_different_variables_partial : forall (R : Runtime) lines1 p1 d1 lines2 p2 d2, program_text lines1 p1 -> good_program p1 ->
  program_text lines2 p2 -> good_program p2 -> reports R (empty_state R) lines1 d1 -> reports R (empty_state R) lines2 d2 ->
  (forall n, In (Some n) (map fst p1) -> ~ In (Some n) (map fst p2)) ->
  no_shared_variable R d1 d2 /\ forall op d, d_binop R op d1 d2 = Ok d -> combined_independently R op d1 d2 d.
Proof. exact different_variables. Qed.
Print Assumptions C45_different_variables_partial.

Theorem C45_variable_free_partial : forall (R : Runtime) s t e d x, reachable R s -> parse t = Ok e -> simple e -> reads e = [] -> reports R s [t] d ->
  no_shared_variable R d x /\ no_shared_variable R x d.
Proof. exact variable_free_shares_nothing. Qed.
Print Assumptions C45_variable_free_partial.

Theorem C45_two_interpreters_refuted : exists lines d1 d2 d, reports rt_fwd (empty_state rt_fwd) lines d1 /\ reports rt_fwd (empty_state rt_fwd) lines d2 /\
  d_binop rt_fwd VAdd d1 d2 = Ok d /\ ~ combined_independently rt_fwd VAdd d1 d2 d.
Proof.
  exists [$"VAR a = d2"; $"a"].
  destruct (combined_seen rt_fwd VAdd (dist_at rt_fwd (empty_state rt_fwd) [$"VAR a = d2"; $"a"] stdout)
    (dist_at rt_fwd (empty_state rt_fwd) [$"VAR a = d2"; $"a"] stdout) _ _ _ _ _ ltac:(vm_compute; reflexivity)) as [a [b [d [Ha [Hb [E [Va [Vb [Ma [Mb Md]]]]]]]]]].
  exists a, b, d. split; [now apply dist_at_reports|]. split; [now apply dist_at_reports|]. split; [exact E|].
  intros H. destruct (H 3) as [_ H3]. unfold reported in H3. rewrite Ma, Mb, Md in H3. vm_compute in H3. discriminate.
Qed.
Print Assumptions C45_two_interpreters_refuted.

Example C45_nonvacuous : let la := [$"VAR a = d2"; $"a"] in let lb := [$"VAR b = d2"; $"b * b"] in
  exists pa pb a b d, program_text la pa /\ good_program pa /\ program_text lb pb /\ good_program pb /\
    reports rt_fwd (empty_state rt_fwd) la a /\ reports rt_fwd (empty_state rt_fwd) lb b /\
    (forall n, In (Some n) (map fst pa) -> ~ In (Some n) (map fst pb)) /\
    d_binop rt_fwd VAdd a b = Ok d /\ get_result_map rt_fwd d = [(2, 1); (5, 1); (3, 1); (6, 1)].
Proof.
  intros la lb. eexists. eexists.
  destruct (combined_seen rt_fwd VAdd (dist_at rt_fwd (empty_state rt_fwd) la stdout)
    (dist_at rt_fwd (empty_state rt_fwd) lb stdout) _ _ _ _ _ ltac:(vm_compute; reflexivity)) as [a [b [d [Ha [Hb [E [Va [Vb [Ma [Mb Md]]]]]]]]]].
  exists a, b, d.
  assert (Ta := program_of_text la _ ltac:(vm_compute; reflexivity)). assert (Tb := program_of_text lb _ ltac:(vm_compute; reflexivity)).
  split; [exact Ta|]. split; [exact (checked_good _ _ Ta ltac:(vm_compute; reflexivity))|].
  split; [exact Tb|]. split; [exact (checked_good _ _ Tb ltac:(vm_compute; reflexivity))|].
  split; [now apply dist_at_reports|]. split; [now apply dist_at_reports|].
  split; [cbn; intros n [H|[H|[]]] [H'|[H'|[]]]; congruence|]. split; [exact E | exact Md].
Qed.

(** ** C46 Distribution arithmetic obeys the algebra of the numbers *)
Theorem C46_operands_swap : forall (R : Runtime) op a b, obtainable R a -> obtainable R b -> commutative op ->
  exists d d', d_binop R op a b = Ok d /\ d_binop R op b a = Ok d' /\ same_results R d d'.
Proof. exact swap_same. Qed.
Print Assumptions C46_operands_swap.

Theorem C46_comparisons_mirror : forall (R : Runtime) a b, obtainable R a -> obtainable R b ->
  (exists d d', d_binop R VLt a b = Ok d /\ d_binop R VGt b a = Ok d' /\ same_results R d d') /\
  (exists d d', d_binop R VLe a b = Ok d /\ d_binop R VGe b a = Ok d' /\ same_results R d d').
Proof. exact mirror_same. Qed.
Print Assumptions C46_comparisons_mirror.

Theorem C46_brackets_move : forall (R : Runtime) op a b c, obtainable R a -> obtainable R b -> obtainable R c -> associative op ->
  exists ab bc l r, d_binop R op a b = Ok ab /\ d_binop R op b c = Ok bc /\ d_binop R op ab c = Ok l /\ d_binop R op a bc = Ok r /\
    same_results R l r.
Proof. exact brackets_same. Qed.
Print Assumptions C46_brackets_move.

Theorem C46_neutral_numbers : forall (R : Runtime) a, obtainable R a ->
  (exists z d, mk_dist_ints R [(0, 1)] = Ok z /\ d_binop R VAdd a z = Ok d /\ same_results R d a) /\
  (exists z d, mk_dist_ints R [(0, 1)] = Ok z /\ d_binop R VSub a z = Ok d /\ same_results R d a) /\
  (exists z d, mk_dist_ints R [(1, 1)] = Ok z /\ d_binop R VMul a z = Ok d /\ same_results R d a) /\
  (exists z d, mk_dist_ints R [(1, 1)] = Ok z /\ d_binop R VDiv a z = Ok d /\ same_results R d a).
Proof. exact neutral_same. Qed.
Print Assumptions C46_neutral_numbers.

Theorem C46_not_and_abs : forall (R : Runtime) a, obtainable R a ->
  same_results R (d_abs R (d_abs R a)) (d_abs R a) /\
  same_results R (d_not R (d_not R (d_not R a))) (d_not R a) /\
  same_results R (d_abs R (d_not R a)) (d_not R a).
Proof. exact unary_same. Qed.
Print Assumptions C46_not_and_abs.

Example C46_nonvacuous : exists a b d,
  reports rt_fwd (empty_state rt_fwd) [$"VAR a = d3"; $"a - 2"] a /\ reports rt_fwd (empty_state rt_fwd) [$"VAR a = d3"; $"a * d2"] b /\
  d_binop rt_fwd VMul a b = Ok d /\ get_result_map rt_fwd d = [(-1, 1); (-2, 1); (0, 2); (3, 1); (6, 1)].
Proof.
  destruct (combined_seen rt_fwd VMul (dist_at rt_fwd (empty_state rt_fwd) [$"VAR a = d3"; $"a - 2"] stdout)
    (dist_at rt_fwd (empty_state rt_fwd) [$"VAR a = d3"; $"a * d2"] stdout) _ _ _ _ _ ltac:(vm_compute; reflexivity)) as [a [b [d [Ha [Hb [E [Va [Vb [Ma [Mb Md]]]]]]]]]].
  exists a, b, d. split; [now apply dist_at_reports|]. split; [now apply dist_at_reports|]. split; [exact E | exact Md].
Qed.
