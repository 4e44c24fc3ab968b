(** * Properties C54 and C55: lines that do not depend on each other *)
From Verif Require Import Py PyFloat Constraint Distribution DiceModel Expr Parser Interp Instances SpecDice SpecProgram SpecInterp SpecRoll SpecCalls SpecFrame
  Checks CheckCalls FrameProofs.

(** ** C54 Lines that do not depend on each other can be exchanged *)
Theorem C54_roll : forall (R : Runtime) P l1 l2 rest s, about (fun _ => True) P -> separate l1 l2 -> ~ touches (l1 ++ l2 ++ rest) stdout -> rest <> [] ->
  event_weight R P (roll R (l1 ++ l2 ++ rest) s) = event_weight R P (roll R (l2 ++ l1 ++ rest) s).
Proof. exact exchange_roll. Qed.
Print Assumptions C54_roll.

Theorem C54_distributions : forall (R : Runtime) l1 l2 rest s, separate l1 l2 -> ~ touches (l1 ++ l2 ++ rest) stdout -> rest <> [] ->
  exchanged same_entries (snd (get_probability_distributions R l1 s)) (snd (get_probability_distributions R l2 s))
    (snd (get_probability_distributions R (l1 ++ l2 ++ rest) s)) (snd (get_probability_distributions R (l2 ++ l1 ++ rest) s)).
Proof. exact exchange_distributions. Qed.
Print Assumptions C54_distributions.

Theorem C54_max_min : forall (R : Runtime) mx l1 l2 rest s, separate l1 l2 -> ~ touches (l1 ++ l2 ++ rest) stdout -> rest <> [] ->
  exchanged same_entries (returned R (extreme R mx l1 s)) (returned R (extreme R mx l2 s))
    (returned R (extreme R mx (l1 ++ l2 ++ rest) s)) (returned R (extreme R mx (l2 ++ l1 ++ rest) s)).
Proof. exact exchange_extreme. Qed.
Print Assumptions C54_max_min.

Theorem C54_cost : forall (R : Runtime) l1 l2 rest s, separate l1 l2 ->
  exchanged eq (snd (get_estimated_cost R l1 s)) (snd (get_estimated_cost R l2 s))
    (snd (get_estimated_cost R (l1 ++ l2 ++ rest) s)) (snd (get_estimated_cost R (l2 ++ l1 ++ rest) s)).
Proof. exact exchange_cost. Qed.
Print Assumptions C54_cost.

Theorem C54_figures : forall (R : Runtime) l1 l2 rest s, reachable R s -> separate l1 l2 -> ~ touches (l1 ++ l2 ++ rest) stdout -> rest <> [] ->
  (forall a, snd (get_average R (l1 ++ l2 ++ rest) s) = Ok a -> exists a', snd (get_average R (l2 ++ l1 ++ rest) s) = Ok a' /\ same_entries a a') /\
  (forall a, snd (get_probability_distributions_dict R (l1 ++ l2 ++ rest) s) = Ok a ->
     exists a', snd (get_probability_distributions_dict R (l2 ++ l1 ++ rest) s) = Ok a' /\ same_entries a a') /\
  (forall h, snd (get_histogram R (l1 ++ l2 ++ rest) s) = Ok h -> snd (get_histogram R (l2 ++ l1 ++ rest) s) = Ok h) /\
  (forall h, snd (get_at_least_histogram R (l1 ++ l2 ++ rest) s) = Ok h -> snd (get_at_least_histogram R (l2 ++ l1 ++ rest) s) = Ok h) /\
  (forall h, snd (get_at_most_histogram R (l1 ++ l2 ++ rest) s) = Ok h -> snd (get_at_most_histogram R (l2 ++ l1 ++ rest) s) = Ok h).
Proof. exact exchange_figures. Qed.
Print Assumptions C54_figures.

Example C54_nonvacuous : exists l1 l2 rest s P, reachable rt_fwd s /\ constant rt_fwd s $"a" = Some 3 /\ separate l1 l2 /\ ~ touches (l1 ++ l2 ++ rest) stdout /\ rest <> [] /\
  l1 = [$"VAR a = d2"; $"VAR c = a"] /\ l2 = [$"VAR b = d2"] /\ about (fun _ => True) P /\
  event_weight rt_fwd P (roll rt_fwd (l1 ++ l2 ++ rest) s) = 1 /\
  map fst (roll rt_fwd (l2 ++ l1 ++ rest) s) = [1; 1; 1; 1] /\
  snd (get_estimated_cost rt_fwd (l1 ++ l2 ++ rest) s) = Ok 16 /\
  (exists d, reports rt_fwd s (l1 ++ l2 ++ rest) d /\ get_result_map rt_fwd d = [(0, 2); (-1, 1); (1, 1)]) /\
  (exists d, reports rt_fwd s (l2 ++ l1 ++ rest) d /\ get_result_map rt_fwd d = [(0, 2); (-1, 1); (1, 1)]).
Proof.
  exists [$"VAR a = d2"; $"VAR c = a"], [$"VAR b = d2"], [$"c - b"], (rolled_state rt_fwd [$"VAR a = 3"] (empty_state rt_fwd)).
  exists (fun f => match f stdout with Some v => v =? 1 | None => false end).
  split; [apply reachable_rolled; constructor|]. split; [vm_compute; reflexivity|]. split; [apply separateb_iff; vm_compute; reflexivity|].
  split; [apply not_touched_iff; vm_compute; reflexivity|]. split; [discriminate|]. split; [reflexivity|]. split; [reflexivity|]. split; [intros f g E; now rewrite (E stdout Logic.I)|].
  split; [vm_compute; reflexivity|]. split; [vm_compute; reflexivity|]. split; [vm_compute; reflexivity|].
  split; apply shown_reports; vm_compute; reflexivity.
Qed.

(** ** C55 Lines whose assignments are not used can be left out *)
Theorem C55_roll : forall (R : Runtime) P l rest s, about (fun n => n = stdout \/ ~ assigns l n) P -> (forall n, assigns l n -> ~ touches rest n) -> ~ touches rest stdout -> rest <> [] ->
  event_weight R P (roll R (l ++ rest) s) = event_weight R (fun _ => true) (roll R l s) * event_weight R P (roll R rest s).
Proof. exact omit_roll. Qed.
Print Assumptions C55_roll.

Theorem C55_distributions : forall (R : Runtime) l rest s s1 dict, (forall n, assigns l n -> ~ touches rest n) -> ~ touches rest stdout -> rest <> [] ->
  get_probability_distributions R l s = (s1, Ok dict) ->
  unaffected (fun a b => forall n, n = stdout \/ ~ assigns l n -> dget text_eqb a n = dget text_eqb b n)
    (snd (get_probability_distributions R (l ++ rest) s)) (snd (get_probability_distributions R rest s)).
Proof. exact omit_distributions. Qed.
Print Assumptions C55_distributions.

Theorem C55_max_min : forall (R : Runtime) mx l rest s s1 dict, (forall n, assigns l n -> ~ touches rest n) -> ~ touches rest stdout -> rest <> [] ->
  extreme R mx l s = (s1, Ok dict) ->
  unaffected (fun a b => forall n, n = stdout \/ ~ assigns l n -> dget text_eqb a n = dget text_eqb b n)
    (returned R (extreme R mx (l ++ rest) s)) (returned R (extreme R mx rest s)).
Proof. exact omit_extreme. Qed.
Print Assumptions C55_max_min.

Theorem C55_cost : forall (R : Runtime) l rest s s1 c, (forall n, assigns l n -> ~ touches rest n) -> get_estimated_cost R l s = (s1, Ok c) ->
  unaffected (fun a b => a = c + b) (snd (get_estimated_cost R (l ++ rest) s)) (snd (get_estimated_cost R rest s)).
Proof. exact omit_cost. Qed.
Print Assumptions C55_cost.

Theorem C55_tables : forall (R : Runtime) l rest s, reachable R s -> (forall n, assigns l n -> ~ touches rest n) -> ~ touches rest stdout -> rest <> [] ->
  (forall n, assigns l n -> variable R s n = None) ->
  (forall a, snd (get_average R (l ++ rest) s) = Ok a ->
     exists a', snd (get_average R rest s) = Ok a' /\ forall n, n = stdout \/ ~ assigns l n -> dget text_eqb a n = dget text_eqb a' n) /\
  (forall a, snd (get_probability_distributions_dict R (l ++ rest) s) = Ok a ->
     exists a', snd (get_probability_distributions_dict R rest s) = Ok a' /\ forall n, n = stdout \/ ~ assigns l n -> dget text_eqb a n = dget text_eqb a' n).
Proof. exact omit_tables. Qed.
Print Assumptions C55_tables.

Theorem C55_plots : forall (R : Runtime) l rest s, (forall n, assigns l n -> ~ touches rest n) -> ~ touches rest stdout -> rest <> [] ->
  (forall h, snd (get_histogram R (l ++ rest) s) = Ok h -> snd (get_histogram R rest s) = Ok h) /\
  (forall h, snd (get_at_least_histogram R (l ++ rest) s) = Ok h -> snd (get_at_least_histogram R rest s) = Ok h) /\
  (forall h, snd (get_at_most_histogram R (l ++ rest) s) = Ok h -> snd (get_at_most_histogram R rest s) = Ok h).
Proof. exact omit_plots. Qed.
Print Assumptions C55_plots.

Example C55_nonvacuous : exists l l' rest s P, reachable rt_fwd s /\ constant rt_fwd s $"b" = Some 3 /\ l = [$"VAR a = 5 // (d3 - 1)"; $"VAR c = a"] /\ l' = [$"VAR a = d2"] /\
  (forall n, assigns l n -> ~ touches rest n) /\ (forall n, assigns l' n -> ~ touches rest n) /\ assigns l' $"a" /\ variable rt_fwd s $"a" = None /\
  ~ touches rest stdout /\ rest <> [] /\ about (fun n => n = stdout \/ ~ assigns l n) P /\
  event_weight rt_fwd P (roll rt_fwd (l ++ rest) s) = 2 /\ event_weight rt_fwd (fun _ => true) (roll rt_fwd l s) = 2 /\ event_weight rt_fwd P (roll rt_fwd rest s) = 1 /\
  length (roll rt_fwd (l ++ rest) s) = 5%nat /\
  (exists d, reports rt_fwd s l' d /\ get_result_map rt_fwd d = [(1, 1); (2, 1)]) /\
  (exists d, reports rt_fwd s (l' ++ rest) d /\ get_result_map rt_fwd d = [(2, 1); (3, 1)]) /\
  (exists s2, get_estimated_cost rt_fwd l s = (s2, Ok 18)).
Proof.
  exists [$"VAR a = 5 // (d3 - 1)"; $"VAR c = a"], [$"VAR a = d2"], [$"VAR b = d2"; $"b + 1"], (rolled_state rt_fwd [$"VAR b = 3"] (empty_state rt_fwd)).
  exists (fun f => match f stdout with Some v => v =? 3 | None => false end).
  split; [apply reachable_rolled; constructor|]. split; [vm_compute; reflexivity|]. split; [reflexivity|]. split; [reflexivity|].
  split; [intros n; apply (separateb_iff [$"VAR a = 5 // (d3 - 1)"; $"VAR c = a"] [$"VAR b = d2"; $"b + 1"] ltac:(vm_compute; reflexivity) n)|].
  split; [intros n; apply (separateb_iff [$"VAR a = d2"] [$"VAR b = d2"; $"b + 1"] ltac:(vm_compute; reflexivity) n)|].
  split; [apply assigns_list_iff; vm_compute; tauto|]. split; [apply option_none; vm_compute; reflexivity|].
  split; [apply not_touched_iff; vm_compute; reflexivity|]. split; [discriminate|]. split; [intros f g E; now rewrite (E stdout (or_introl eq_refl))|].
  split; [vm_compute; reflexivity|]. split; [vm_compute; reflexivity|]. split; [vm_compute; reflexivity|]. split; [vm_compute; reflexivity|].
  split; [apply shown_reports; vm_compute; reflexivity|]. split; [apply shown_reports; vm_compute; reflexivity|].
  eexists. apply cost_parts. vm_compute. reflexivity.
Qed.
