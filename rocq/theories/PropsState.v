(** * Properties C32 to C37: one call after another *)
From Verif Require Import Py PyFloat Constraint Distribution DiceModel Expr Parser Interp Instances SpecDice SpecProgram SpecInterp SpecRoll SpecCalls
  Checks RollProofs CallFacts CallProofs ReadProofs StateProofs CheckCalls.

(** ** C32 Running a program in pieces is the same as running it at once *)
Theorem C32_roll : forall (R : Runtime) l1 l2 s, l2 <> [] -> roll R (l1 ++ l2) s = then_rolls R (roll R l1 s) (roll R l2).
Proof. exact roll_pieces. Qed.
Print Assumptions C32_roll.

Theorem C32_max_min : forall (R : Runtime) mx l1 l2 s, l2 <> [] ->
  extreme R mx (l1 ++ l2) s = then_call R (extreme R mx l1 s) (fun s1 _ => extreme R mx l2 s1).
Proof. exact extreme_pieces. Qed.
Print Assumptions C32_max_min.

Theorem C32_distributions : forall (R : Runtime) l1 l2 s, l2 <> [] -> get_probability_distributions R (l1 ++ l2) s =
  then_call R (get_probability_distributions R l1 s) (fun s1 _ => get_probability_distributions R l2 s1).
Proof. exact distribution_pieces. Qed.
Print Assumptions C32_distributions.

Theorem C32_cost : forall (R : Runtime) l1 l2 s, get_estimated_cost R (l1 ++ l2) s =
  then_call R (get_estimated_cost R l1 s) (fun s1 c1 => then_call R (get_estimated_cost R l2 s1) (fun s2 c2 => (s2, Ok (c1 + c2)))).
Proof. exact cost_pieces. Qed.
Print Assumptions C32_cost.

(** When a line fails, no later line takes effect (and by the theorems above, the lines before it have) *)
Theorem C32_failing_line : forall (R : Runtime) l1 l2 s s1 x,
  (forall w, In (w, (s1, Raise x)) (roll R l1 s) -> In (w, (s1, Raise x)) (roll R (l1 ++ l2) s)) /\
  (forall mx, extreme R mx l1 s = (s1, Raise x) -> extreme R mx (l1 ++ l2) s = (s1, Raise x)) /\
  (get_probability_distributions R l1 s = (s1, Raise x) -> get_probability_distributions R (l1 ++ l2) s = (s1, Raise x)) /\
  (get_estimated_cost R l1 s = (s1, Raise x) -> get_estimated_cost R (l1 ++ l2) s = (s1, Raise x)).
Proof. exact stops. Qed.
Print Assumptions C32_failing_line.

Example C32_nonvacuous : exists l1 l2 l3 s1, l2 <> [] /\ reachable rt_fwd s1 /\ l1 = [$"VAR a = d2"; $"VAR b = a + d2"] /\
  In (1, (s1, Raise KeyError)) (roll rt_fwd (l1 ++ [$"c"]) (empty_state rt_fwd)) /\
  map fst (roll rt_fwd (l1 ++ l2) (empty_state rt_fwd)) = [1; 1; 1; 1] /\
  map (fun run => stdout_of rt_fwd (snd run)) (roll rt_fwd (l1 ++ l2) (empty_state rt_fwd)) = [Some 2; Some 3; Some 6; Some 8] /\
  constant rt_fwd s1 $"b" = Some 2 /\ In (1, (s1, Raise KeyError)) (roll rt_fwd ((l1 ++ [$"c"]) ++ l3) (empty_state rt_fwd)) /\
  constant rt_fwd s1 $"d" = None /\ assigns l3 $"d".
Proof.
  pose (l1 := [$"VAR a = d2"; $"VAR b = a + d2"]).
  exists l1, [$"a * b"], [$"VAR d = 1"], (rolled_state rt_fwd (l1 ++ [$"c"]) (empty_state rt_fwd)).
  assert (H : In (1, (rolled_state rt_fwd (l1 ++ [$"c"]) (empty_state rt_fwd), Raise KeyError)) (roll rt_fwd (l1 ++ [$"c"]) (empty_state rt_fwd)))
    by (apply first_run_parts; vm_compute; reflexivity).
  split; [discriminate|]. split; [apply reachable_rolled, af_now|]. split; [reflexivity|]. split; [exact H|].
  split; [vm_compute; reflexivity|]. split; [vm_compute; reflexivity|]. split; [vm_compute; reflexivity|].
  split; [now apply C32_failing_line|]. split; [vm_compute; reflexivity|]. apply assigns_list_iff. vm_compute. auto.
Qed.

(** ** C33 Results already returned do not change: false, the dictionary is the interpreter's own *)
Theorem C33_live_refuted : exists s1 s2 d1 d2, In (1, (s1, Ok d1)) (roll rt_fwd [$"1"] (empty_state rt_fwd)) /\
  In (1, (s2, Ok d2)) (roll rt_fwd [$"2"] s1) /\
  dget text_eqb (read_dict rt_fwd s1 d1) stdout = Some 1 /\ dget text_eqb (read_dict rt_fwd s2 d1) stdout = Some 2.
Proof.
  exists (rolled_state rt_fwd [$"1"] (empty_state rt_fwd)), (rolled_state rt_fwd [$"2"] (rolled_state rt_fwd [$"1"] (empty_state rt_fwd))), LiveConstants, LiveConstants.
  split; [apply first_run_parts; vm_compute; reflexivity|]. split; [apply first_run_parts; vm_compute; reflexivity|].
  split; vm_compute; reflexivity.
Qed.
Print Assumptions C33_live_refuted.

(** What holds: the dictionary keeps the entries that no later call assigns, and all of them when later calls only ask for
    distributions; no entry disappears *)
Theorem C33_returned_partial : forall (R : Runtime) s cs s' d, history R s cs s' ->
  (Forall asks_distribution cs -> read_dict R s' d = read_dict R s d) /\
  (forall n, n <> stdout -> (forall c, In c cs -> ~ assigns (call_lines c) n) ->
     dget text_eqb (read_dict R s' d) n = dget text_eqb (read_dict R s d) n) /\
  (forall n, dget text_eqb (read_dict R s d) n <> None -> dget text_eqb (read_dict R s' d) n <> None).
Proof. exact returned_kept. Qed.
Print Assumptions C33_returned_partial.

Example C33_nonvacuous : exists s1 s2 s3,
  In (1, (s1, Ok LiveConstants)) (roll rt_fwd [$"VAR a = d2"] (empty_state rt_fwd)) /\
  history rt_fwd s1 [CRoll [$"VAR b = a + 1"; $"7"]; CMax [$"9"]] s2 /\ $"a" <> stdout /\
  (forall c, In c [CRoll [$"VAR b = a + 1"; $"7"]; CMax [$"9"]] -> ~ assigns (call_lines c) $"a") /\
  dget text_eqb (read_dict rt_fwd s1 LiveConstants) $"a" = Some 1 /\ dget text_eqb (read_dict rt_fwd s2 LiveConstants) $"b" = Some 2 /\
  dget text_eqb (read_dict rt_fwd s2 LiveConstants) stdout = Some 9 /\
  history rt_fwd s2 [CAverage [$"VAR a = d6"; $"a + a"]] s3 /\ Forall asks_distribution [CAverage [$"VAR a = d6"; $"a + a"]].
Proof.
  pose (s1 := rolled_state rt_fwd [$"VAR a = d2"] (empty_state rt_fwd)). pose (s2 := max_state rt_fwd [$"9"] (rolled_state rt_fwd [$"VAR b = a + 1"; $"7"] s1)).
  exists s1, s2, (fst (get_average rt_fwd [$"VAR a = d6"; $"a + a"] s2)).
  split; [apply first_run_parts; vm_compute; reflexivity|].
  split; [eapply hi_call; [apply does_rolled|]; eapply hi_call; [apply do_max|apply hi_start]|].
  split; [vm_compute; discriminate|].
  split; [intros c [<-|[<-|[]]]; apply not_assigned_iff; vm_compute; reflexivity|].
  split; [vm_compute; reflexivity|]. split; [vm_compute; reflexivity|]. split; [vm_compute; reflexivity|].
  split; [eapply hi_call; [apply do_average|apply hi_start]|]. constructor; [exact Logic.I|constructor].
Qed.

(** ** C34 The name stdout is not a user variable: false, every call of roll, max and min overwrites the variable stdout *)
Theorem C34_stdout_refuted : exists s1, In (1, (s1, Ok LiveConstants)) (roll rt_fwd [$"VAR stdout = 1"; $"5"] (empty_state rt_fwd)) /\
  ~ assigns [$"5"] stdout /\ constant rt_fwd s1 stdout = Some 5 /\
  roll_weight rt_fwd (empty_state rt_fwd) [$"VAR stdout = 1"; $"5"; $"stdout + 1"] 6 = 1 /\
  roll_weight rt_fwd (empty_state rt_fwd) [$"5"; $"stdout + 1"] 6 = 1.
Proof.
  exists (rolled_state rt_fwd [$"VAR stdout = 1"; $"5"] (empty_state rt_fwd)). split; [apply first_run_parts; vm_compute; reflexivity|].
  split; [apply not_assigned_iff; vm_compute; reflexivity|]. split; [|split]; vm_compute; reflexivity.
Qed.
Print Assumptions C34_stdout_refuted.

(** What holds: no other variable is touched *)
Theorem C34_others_partial : forall (R : Runtime) c s s' n, does R c s s' -> n <> stdout -> ~ assigns (call_lines c) n ->
  constant R s' n = constant R s n /\ variable R s' n = variable R s n.
Proof. exact others_kept. Qed.
Print Assumptions C34_others_partial.

Example C34_nonvacuous : exists c s s', does rt_fwd c s s' /\ $"a" <> stdout /\ ~ assigns (call_lines c) $"a" /\ reachable rt_fwd s /\
  constant rt_fwd s $"a" = Some 2 /\ option_map (get_result_map rt_fwd) (variable rt_fwd s $"a") = Some [(1, 1); (2, 1)] /\
  constant rt_fwd s' $"b" = Some 3 /\ option_map (get_result_map rt_fwd) (variable rt_fwd s' $"b") = Some [(2, 1); (3, 1)].
Proof.
  pose (s := max_state rt_fwd [$"VAR a = d2"] (empty_state rt_fwd)).
  exists (CMax [$"VAR b = a + 1"; $"9"]), s, (max_state rt_fwd [$"VAR b = a + 1"; $"9"] s).
  split; [apply do_max|]. split; [vm_compute; discriminate|]. split; [apply not_assigned_iff; vm_compute; reflexivity|].
  split; [apply af_max, af_now|]. split; [vm_compute; reflexivity|]. split; [vm_compute; reflexivity|]. split; vm_compute; reflexivity.
Qed.

(** ** C35 Operations of one kind do not disturb another: false, the estimated cost and max() overwrite the values that rolls read *)
Theorem C35_cost_refuted : exists s1 s2, In (1, (s1, Ok LiveConstants)) (roll rt_fwd [$"VAR a = 1"] (empty_state rt_fwd)) /\
  get_estimated_cost rt_fwd [$"VAR a = 1"] s1 = (s2, Ok 4) /\
  (forall v, can_roll rt_fwd s1 [$"a"] v -> v = 1) /\ can_roll rt_fwd s2 [$"a"] 2.
Proof.
  pose (s1 := rolled_state rt_fwd [$"VAR a = 1"] (empty_state rt_fwd)).
  exists s1, (cost_state rt_fwd [$"VAR a = 1"] s1). split; [apply first_run_parts; vm_compute; reflexivity|]. split; [|split].
  - assert (E : snd (get_estimated_cost rt_fwd [$"VAR a = 1"] s1) = Ok 4) by (vm_compute; reflexivity).
    rewrite <- E. unfold cost_state. now destruct (get_estimated_cost rt_fwd [$"VAR a = 1"] s1).
  - intros v [w [run [I [_ E]]]]. apply (in_map (fun run => stdout_of rt_fwd (snd run))) in I. cbn [snd] in I. rewrite E in I.
    assert (M : map (fun run => stdout_of rt_fwd (snd run)) (roll rt_fwd [$"a"] s1) = [Some 1]) by (vm_compute; reflexivity).
    rewrite M in I. destruct I as [I|[]]. now inversion I.
  - apply roll_weight_can. vm_compute. discriminate.
Qed.
Print Assumptions C35_cost_refuted.

Theorem C35_max_refuted : exists s1, In (1, (s1, Ok LiveConstants)) (roll rt_fwd [$"VAR a = d2"] (empty_state rt_fwd)) /\
  roll_weight rt_fwd s1 [$"a"] 1 = roll_total rt_fwd s1 [$"a"] /\
  roll_weight rt_fwd (fst (max_call rt_fwd [$"VAR a = d2"] s1)) [$"a"] 2 = roll_total rt_fwd (fst (max_call rt_fwd [$"VAR a = d2"] s1)) [$"a"] /\
  roll_total rt_fwd s1 [$"a"] = 1.
Proof.
  exists (rolled_state rt_fwd [$"VAR a = d2"] (empty_state rt_fwd)). split; [apply first_run_parts; vm_compute; reflexivity|].
  split; [|split]; vm_compute; reflexivity.
Qed.
Print Assumptions C35_max_refuted.

(** What holds: asking for distributions leaves all later rolls the same, with the same dictionaries *)
Theorem C35_distributions_partial : forall (R : Runtime) s cs s' lines, history R s cs s' -> Forall asks_distribution cs ->
  map (seen_run R) (roll R lines s') = map (seen_run R) (roll R lines s).
Proof. exact rolls_after_distributions. Qed.
Print Assumptions C35_distributions_partial.

(** ... all other calls leave rolls the same that read none of the variables they assign *)
Theorem C35_others_partial : forall (R : Runtime) s cs s' lines, history R s cs s' ->
  (forall n, mentions_name lines n -> n <> stdout /\ forall c, In c cs -> ~ assigns (call_lines c) n) ->
  (forall v, roll_weight R s' lines v = roll_weight R s lines v) /\ roll_total R s' lines = roll_total R s lines /\
  (forall x, can_raise R s' lines x <-> can_raise R s lines x).
Proof. exact rolls_after_others. Qed.
Print Assumptions C35_others_partial.

(** ... rolls and costs leave the distributions of all variables the same *)
Theorem C35_rolls_partial : forall (R : Runtime) s cs s', history R s cs s' -> Forall (fun c => exists lines, c = CRoll lines \/ c = CCost lines) cs ->
  st_var s' = st_var s.
Proof. exact history_rolls. Qed.
Print Assumptions C35_rolls_partial.

(** ... and the cost of a program without assignments leaves everything the same *)
Theorem C35_cost_partial : forall (R : Runtime) lines s s', does R (CCost lines) s s' -> (forall n, ~ assigns lines n) -> s' = s.
Proof. exact cost_keeps. Qed.
Print Assumptions C35_cost_partial.

Example C35_nonvacuous : exists s s1 s2 s3, reachable rt_fwd s /\ constant rt_fwd s $"a" = Some 1 /\
  history rt_fwd s [CDistributions [$"VAR a = 2"; $"a"]; CAtMost [$"VAR a = d2"]] s1 /\
    Forall asks_distribution [CDistributions [$"VAR a = 2"; $"a"]; CAtMost [$"VAR a = d2"]] /\
    option_map (get_result_map rt_fwd) (variable rt_fwd s1 $"a") = Some [(1, 1); (2, 1)] /\
  history rt_fwd s [CMin [$"VAR b = 2"; $"b + a"]; CCost [$"VAR b = 5"]] s2 /\
    (forall n, mentions_name [$"a + d2"] n -> n <> stdout /\ forall c, In c [CMin [$"VAR b = 2"; $"b + a"]; CCost [$"VAR b = 5"]] -> ~ assigns (call_lines c) n) /\
    roll_weight rt_fwd s [$"a + d2"] 3 = 1 /\
  history rt_fwd s1 [CRoll [$"VAR a = 2"]; CCost [$"a"]] s3 /\
    Forall (fun c => exists lines, c = CRoll lines \/ c = CCost lines) [CRoll [$"VAR a = 2"]; CCost [$"a"]] /\
    forall n, ~ assigns [$"a"] n.
Proof.
  pose (s := rolled_state rt_fwd [$"VAR a = d2"] (empty_state rt_fwd)).
  pose (s1 := fst (get_at_most_histogram rt_fwd [$"VAR a = d2"] (fst (get_probability_distributions rt_fwd [$"VAR a = 2"; $"a"] s)))).
  exists s, s1, (cost_state rt_fwd [$"VAR b = 5"] (min_state rt_fwd [$"VAR b = 2"; $"b + a"] s)), (cost_state rt_fwd [$"a"] (rolled_state rt_fwd [$"VAR a = 2"] s1)).
  split; [apply reachable_rolled, af_now|]. split; [vm_compute; reflexivity|].
  split; [eapply hi_call; [apply do_distributions|]; eapply hi_call; [apply do_at_most|apply hi_start]|].
  split; [repeat constructor|]. split; [vm_compute; reflexivity|].
  split; [eapply hi_call; [apply do_min|]; eapply hi_call; [apply do_cost|apply hi_start]|].
  split.
  { intros n M. apply reads_list_iff in M. assert (E : reads_list [$"a + d2"] = [$"a"]) by (vm_compute; reflexivity). rewrite E in M. destruct M as [<-|[]].
    split; [vm_compute; discriminate|]. intros c [<-|[<-|[]]]; apply not_assigned_iff; vm_compute; reflexivity. }
  split; [vm_compute; reflexivity|].
  split; [eapply hi_call; [apply does_rolled|]; eapply hi_call; [apply do_cost|apply hi_start]|].
  split; [constructor; [eauto|constructor; [eauto|constructor]]|].
  intros n A. apply assigns_list_iff in A. vm_compute in A. contradiction.
Qed.

(** ** C36 Reading an undefined variable is a KeyError *)
(** A program that reads a variable that is neither stored nor assigned by an earlier line fails, with a KeyError unless it has other faults *)
Theorem C36_roll_unset : forall (R : Runtime) lines n s, reads_unassigned lines n -> n <> stdout -> constant R s n = None ->
  (forall w s' r, In (w, (s', r)) (roll R lines s) -> exists x, r = Raise x) /\
  ((forall t, In t lines -> exists e, parse t = Ok e /\ ~ divides e /\ forall m, In m (dice_of e) -> can_choose m) ->
   forall w s' r, In (w, (s', r)) (roll R lines s) -> r = Raise KeyError).
Proof. exact unset_roll. Qed.
Print Assumptions C36_roll_unset.

(** (roll always has some run) *)
Theorem C36_roll_runs : forall (R : Runtime) lines s, roll R lines s <> [].
Proof. exact roll_nonempty. Qed.
Print Assumptions C36_roll_runs.

Theorem C36_distribution_unset : forall (R : Runtime) lines n s, reachable R s -> reads_unassigned lines n -> n <> stdout -> variable R s n = None ->
  (exists x, distribution_raises R s lines x) /\
  ((forall t, In t lines -> exists e, parse t = Ok e /\ ~ divides e) -> distribution_raises R s lines KeyError).
Proof. exact unset_distribution. Qed.
Print Assumptions C36_distribution_unset.

Theorem C36_max_min_unset : forall (R : Runtime) mx lines n s, reads_unassigned lines n -> n <> stdout -> constant R s n = None -> variable R s n = None ->
  exists x, extreme_raises R mx s lines x.
Proof. exact unset_extreme. Qed.
Print Assumptions C36_max_min_unset.

Theorem C36_cost_unset : forall (R : Runtime) lines n s, reads_unassigned lines n -> constant R s n = None ->
  exists x, snd (get_estimated_cost R lines s) = Raise x.
Proof. exact cost_unset. Qed.
Print Assumptions C36_cost_unset.

(** A KeyError is always due to a variable that is not stored and that no earlier line assigns *)
Theorem C36_roll_keyerror : forall (R : Runtime) lines s w s', In (w, (s', Raise KeyError)) (roll R lines s) ->
  exists n, reads_first assigned lines n /\ constant R s n = None.
Proof. exact roll_keyerror. Qed.
Print Assumptions C36_roll_keyerror.

Theorem C36_distribution_keyerror : forall (R : Runtime) lines s, reachable R s -> distribution_raises R s lines KeyError ->
  exists n, reads_first assigned lines n /\ variable R s n = None.
Proof. exact distribution_keyerror. Qed.
Print Assumptions C36_distribution_keyerror.

Theorem C36_max_min_keyerror : forall (R : Runtime) mx lines s, reachable R s -> extreme_raises R mx s lines KeyError ->
  exists n, reads_first assigned_outside lines n /\ (constant R s n = None \/ variable R s n = None).
Proof. exact extreme_keyerror. Qed.
Print Assumptions C36_max_min_keyerror.

Theorem C36_cost_keyerror : forall (R : Runtime) lines s, snd (get_estimated_cost R lines s) = Raise KeyError ->
  exists n, reads_first assigned lines n /\ constant R s n = None.
Proof. exact cost_keyerror. Qed.
Print Assumptions C36_cost_keyerror.

(** Which variables are stored: those assigned by a call that succeeds ... *)
Theorem C36_set : forall (R : Runtime) s s' lines n, assigns lines n ->
  (forall w d, In (w, (s', Ok d)) (roll R lines s) -> constant R s' n <> None) /\
  (forall c, get_estimated_cost R lines s = (s', Ok c) -> constant R s' n <> None) /\
  (forall dict, get_probability_distributions R lines s = (s', Ok dict) -> variable R s' n <> None) /\
  (forall mx d, extreme R mx lines s = (s', Ok d) -> variable R s' n <> None /\
     (some_line lines (fun e => In n (assigned_outside e)) -> constant R s' n <> None)).
Proof. exact successful_sets. Qed.
Print Assumptions C36_set.

(** ... for as long as the interpreter lives ... *)
Theorem C36_stays_set : forall (R : Runtime) s cs s' n, history R s cs s' ->
  (constant R s n <> None -> constant R s' n <> None) /\ (variable R s n <> None -> variable R s' n <> None).
Proof. exact history_stays_set. Qed.
Print Assumptions C36_stays_set.

(** ... and no others *)
Theorem C36_only_set : forall (R : Runtime) cs s n, history R (empty_state R) cs s -> n <> stdout ->
  (constant R s n <> None -> exists c, In c cs /\ ~ asks_distribution c /\ assigns (call_lines c) n) /\
  (variable R s n <> None -> exists c, In c cs /\ (forall lines, c <> CRoll lines /\ c <> CCost lines) /\ assigns (call_lines c) n).
Proof. exact only_assigned_set. Qed.
Print Assumptions C36_only_set.

Example C36_nonvacuous : exists s, reachable rt_fwd s /\ history rt_fwd (empty_state rt_fwd) [CRoll [$"VAR a = d2"]] s /\
  constant rt_fwd s $"a" = Some 1 /\ constant rt_fwd s $"b" = None /\ variable rt_fwd s $"a" = None /\ variable rt_fwd s $"b" = None /\
  reads_unassigned [$"VAR c = a"; $"c + b"] $"b" /\ reads_first assigned [$"VAR c = a"; $"c + b"] $"b" /\
  (forall t, In t [$"VAR c = a"; $"c + b"] -> exists e, parse t = Ok e /\ ~ divides e /\ forall m, In m (dice_of e) -> can_choose m) /\
  (exists w s', In (w, (s', Raise KeyError)) (roll rt_fwd [$"VAR c = a"; $"c + b"] s)) /\
  distribution_raises rt_fwd s [$"VAR c = a"; $"c + b"] KeyError /\ extreme_raises rt_fwd true s [$"VAR c = a"; $"c + b"] KeyError /\
  snd (get_estimated_cost rt_fwd [$"VAR c = a"; $"c + b"] s) = Raise KeyError /\
  assigns [$"VAR c = a"; $"c"] $"c" /\ some_line [$"VAR c = a"; $"c"] (fun e => In $"c" (assigned_outside e)) /\
  snd (get_estimated_cost rt_fwd [$"VAR c = a"; $"c"] s) = Ok 4.
Proof.
  exists (rolled_state rt_fwd [$"VAR a = d2"] (empty_state rt_fwd)).
  assert (U : ~ assigns [$"VAR c = a"] $"b") by (apply not_assigned_iff; vm_compute; reflexivity).
  split; [apply reachable_rolled, af_now|]. split; [eapply hi_call; [apply does_rolled|apply hi_start]|].
  split; [vm_compute; reflexivity|]. split; [vm_compute; reflexivity|]. split; [apply option_none; vm_compute; reflexivity|].
  split; [apply option_none; vm_compute; reflexivity|].
  split. { exists [$"VAR c = a"], $"c + b", []. eexists. split; [reflexivity|]. split; [vm_compute; reflexivity|].
    split; [cbn; auto|]. split; [cbn; tauto|exact U]. }
  split. { exists [$"VAR c = a"], $"c + b", []. eexists. split; [reflexivity|]. split; [vm_compute; reflexivity|]. split; [cbn; auto|exact U]. }
  split. { intros t [<-|[<-|[]]]; eexists; (split; [vm_compute; reflexivity|]); (split; [cbn; tauto|]); intros m M; cbn in M; contradiction. }
  split. { eexists. eexists. apply first_run_parts; vm_compute; reflexivity. }
  split; [apply raised_iff; vm_compute; reflexivity|]. split; [apply raised_iff; vm_compute; reflexivity|]. split; [vm_compute; reflexivity|].
  split; [apply assigns_list_iff; vm_compute; auto|].
  split; [exists $"VAR c = a"; eexists; split; [now left|]; split; [vm_compute; reflexivity|]; cbn; auto|]. vm_compute. reflexivity.
Qed.

(** ** C37 get_contained_variables lists what an expression depends on: false for assignments, which report no variables *)
Theorem C37_assignment_refuted : exists e s s', parse $"VAR b = a" = Ok e /\ reachable rt_fwd s /\ reachable rt_fwd s' /\ alike rt_fwd e s s' /\
  map (fun run => (fst run, snd (snd run))) (roll_of rt_fwd e s) = [(1, Ok 1)] /\
  map (fun run => (fst run, snd (snd run))) (roll_of rt_fwd e s') = [(1, Ok 2)].
Proof.
  exists (EAssign $"b" (EVar $"a")), (rolled_state rt_fwd [$"VAR a = 1"] (empty_state rt_fwd)), (rolled_state rt_fwd [$"VAR a = 2"] (empty_state rt_fwd)).
  split; [vm_compute; reflexivity|]. split; [apply reachable_rolled, af_now|]. split; [apply reachable_rolled, af_now|].
  split; [intros n []|]. split; vm_compute; reflexivity.
Qed.
Print Assumptions C37_assignment_refuted.

(** What holds: all four operations on an expression without assignments depend on the contained variables only *)
Theorem C37_contained_partial : forall (R : Runtime) e s s', no_assignment e -> alike R e s s' ->
  map (fun run => (fst run, snd (snd run))) (roll_of R e s) = map (fun run => (fst run, snd (snd run))) (roll_of R e s') /\
  snd (dist_of R e s) = snd (dist_of R e s') /\ (forall mx, snd (ext_of R mx e s) = snd (ext_of R mx e s')) /\ snd (cost_of R e s) = snd (cost_of R e s').
Proof. exact depends_on_contained. Qed.
Print Assumptions C37_contained_partial.

(** ... and the variables that occur in an expression, those in an assigned expression included, are enough for rolls and costs *)
Theorem C37_roll_reads : forall (R : Runtime) e s s', (forall n, In n (reads e) -> constant R s n = constant R s' n) ->
  map (fun run => (fst run, snd (snd run))) (roll_of R e s) = map (fun run => (fst run, snd (snd run))) (roll_of R e s').
Proof. exact roll_of_same. Qed.
Print Assumptions C37_roll_reads.

Theorem C37_cost_reads : forall (R : Runtime) e s s', (forall n, In n (reads e) -> constant R s n = constant R s' n) ->
  snd (cost_of R e s) = snd (cost_of R e s').
Proof. exact cost_of_same. Qed.
Print Assumptions C37_cost_reads.

Example C37_nonvacuous : exists e s s', parse $"MAX(a, 2) + d2" = Ok e /\ no_assignment e /\ alike rt_fwd e s s' /\
  contained_variables e = [$"a"] /\ constant rt_fwd s $"a" = Some 3 /\ constant rt_fwd s $"b" = None /\ constant rt_fwd s' $"b" = Some 2 /\
  map (fun run => (fst run, snd (snd run))) (roll_of rt_fwd e s') = [(1, Ok 4); (1, Ok 5)].
Proof.
  pose (s := rolled_state rt_fwd [$"VAR a = 3"] (empty_state rt_fwd)).
  assert (P : parse $"MAX(a, 2) + d2" = Ok ltac:(let p := eval vm_compute in (parse $"MAX(a, 2) + d2") in match p with Ok ?e => exact e end)) by (vm_compute; reflexivity).
  eexists. exists s, (rolled_state rt_fwd [$"VAR b = 2"] s). split; [exact P|]. split; [apply no_assignmentb_iff; vm_compute; reflexivity|].
  split.
  { intros n M. cbn in M. destruct M as [<-|[]].
    destruct (C34_others_partial rt_fwd (CRoll [$"VAR b = 2"]) s (rolled_state rt_fwd [$"VAR b = 2"] s) $"a" (does_rolled _ _ _)) as [A B].
    - vm_compute. discriminate.
    - apply not_assigned_iff. vm_compute. reflexivity.
    - split; symmetry; [exact A|exact B]. }
  split; [vm_compute; reflexivity|]. split; [vm_compute; reflexivity|]. split; [vm_compute; reflexivity|]. split; vm_compute; reflexivity.
Qed.
