(** * Property C68: str() of a distribution tells everything about it *)
From Verif Require Import Py PyFloat Constraint Distribution DiceModel Expr Parser Interp Random Show Instances SpecDice SpecInterp SpecCalls SpecRandom SpecSeed Checks ShowProofs.

(** Two distributions print the same exactly if they have the same outcomes in the same order: equal values, equal constraint sets, equal counts *)
Theorem C68_text : forall (R : Runtime) d d', obtainable R d -> obtainable R d' ->
  (d_str R d = d_str R d' <->
   Forall2 (fun oc oc' => o_value (fst oc) = o_value (fst oc') /\ cset_eqb R (o_cs (fst oc)) (o_cs (fst oc')) = true /\ snd oc = snd oc') (d_map d) (d_map d')).
Proof. exact printed_same. Qed.
Print Assumptions C68_text.

(** Two outcomes print the same exactly if they are == *)
Theorem C68_outcomes : forall (R : Runtime) d d' o c o' c', obtainable R d -> obtainable R d' -> In (o, c) (d_map d) -> In (o', c') (d_map d') ->
  (o_str R o = o_str R o' <-> o_eqb R o o' = true).
Proof. exact outcome_printed. Qed.
Print Assumptions C68_outcomes.

(** Distributions that print the same cannot be told apart, whatever is done with them afterwards *)
Theorem C68_sessions : forall (R : Runtime) G (w : world R G) ds ds' acts, (forall i, reachable R (interpreter R G w i)) -> (forall d, In d (held R G w) -> obtainable R d) ->
  Forall2 (fun d d' => obtainable R d /\ obtainable R d' /\ d_str R d = d_str R d') ds ds' ->
  session R G acts (hold R G ds w) = session R G acts (hold R G ds' w).
Proof. exact printed_sessions. Qed.
Print Assumptions C68_sessions.

(** d2 and a variable of d2, and another way to write d2 *)
Example C68_nonvacuous : exists d d' d'', obtainable rt_fwd d /\ obtainable rt_fwd d' /\ obtainable rt_fwd d'' /\
  d_str rt_fwd d = $"ProbabilityDistribution, result_map={ProbabilityOutcome: value=1, constraint_set=ConstraintSet: {NullConstraint}: 1, ProbabilityOutcome: value=2, constraint_set=ConstraintSet: {NullConstraint}: 1}" /\
  d_str rt_fwd d' = d_str rt_fwd d /\
  d_str rt_fwd d'' = $"ProbabilityDistribution, result_map={ProbabilityOutcome: value=1, constraint_set=ConstraintSet: {VarValueConstraint: name=a_1, values={1}}: 1, ProbabilityOutcome: value=2, constraint_set=ConstraintSet: {VarValueConstraint: name=a_1, values={2}}: 1}".
Proof.
  destruct (seen _ _ (d_str rt_fwd) (dist_at rt_fwd (empty_state rt_fwd) [$"d2"] stdout) _ ltac:(vm_compute; reflexivity)) as [d [H E]].
  destruct (seen _ _ (d_str rt_fwd) (dist_at rt_fwd (empty_state rt_fwd) [$"MAX(d[1-2], 0)"] stdout) _ ltac:(vm_compute; reflexivity)) as [d' [H' E']].
  destruct (seen _ _ (d_str rt_fwd) (dist_at rt_fwd (empty_state rt_fwd) [$"VAR a = d2"; $"a"] stdout) _ ltac:(vm_compute; reflexivity)) as [d'' [H'' E'']].
  exists d, d', d''. apply dist_at_reports in H. apply dist_at_reports in H'. apply dist_at_reports in H''.
  split; [eapply reports_obtainable; [apply af_now | exact H]|]. split; [eapply reports_obtainable; [apply af_now | exact H']|]. split; [eapply reports_obtainable; [apply af_now | exact H'']|].
  split; [rewrite E; reflexivity|]. split; [rewrite E, E'; reflexivity | rewrite E''; reflexivity].
Qed.
