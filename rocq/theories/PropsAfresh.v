(** * Property C76: what a self-contained program gives does not depend on what was done before *)
From Coq Require Import Permutation.
From Verif Require Import Py PyFloat Constraint Distribution DiceModel Expr Parser Interp SpecDice SpecProgram SpecInterp SpecRoll Instances Checks CheckCalls RollProofs
  SpecAfresh AfreshProofs.

(** The states may be those of two interpreters with different hash seeds, or of one interpreter at different times.
    get_probability_distributions: for stdout and for every variable that the program assigns the same is shown. *)
Theorem C76_distributions : forall (R1 R2 : Runtime) s1 s2 lines p, reachable R1 s1 -> reachable R2 s2 -> program_text lines p -> good_program p -> sided p ->
  same_answer (fun dict1 dict2 => forall n, n = stdout \/ assigned p n ->
    exists d1 d2, dget text_eqb dict1 n = Some d1 /\ dget text_eqb dict2 n = Some d2 /\ shows_same R1 R2 d1 d2)
    (snd (get_probability_distributions R1 lines s1)) (snd (get_probability_distributions R2 lines s2)).
Proof. exact same_distributions. Qed.
Print Assumptions C76_distributions.

Theorem C76_histograms : forall (R1 R2 : Runtime) s1 s2 lines p, reachable R1 s1 -> reachable R2 s2 -> program_text lines p -> good_program p -> sided p ->
  snd (get_histogram R1 lines s1) = snd (get_histogram R2 lines s2) /\
  snd (get_at_least_histogram R1 lines s1) = snd (get_at_least_histogram R2 lines s2) /\
  snd (get_at_most_histogram R1 lines s1) = snd (get_at_most_histogram R2 lines s2).
Proof. exact same_histograms. Qed.
Print Assumptions C76_histograms.

Theorem C76_extremes : forall (R1 R2 : Runtime) mx s1 s2 lines p, reachable R1 s1 -> reachable R2 s2 -> program_text lines p -> good_program p -> sided p ->
  (forall v, extreme_is R1 mx s1 lines v <-> extreme_is R2 mx s2 lines v) /\ (forall x, extreme_raises R1 mx s1 lines x <-> extreme_raises R2 mx s2 lines x).
Proof. exact same_extremes. Qed.
Print Assumptions C76_extremes.

Theorem C76_cost : forall (R1 R2 : Runtime) s1 s2 lines p, program_text lines p -> runnable p -> snd (get_estimated_cost R1 lines s1) = snd (get_estimated_cost R2 lines s2).
Proof. exact same_cost. Qed.
Print Assumptions C76_cost.

(** (With the same random numbers: C75_no_memory) *)
Theorem C76_roll : forall (R1 R2 : Runtime) s1 s2 lines p, program_text lines p -> runnable p -> drawable p ->
  (forall v, roll_weight R1 s1 lines v = roll_weight R2 s2 lines v) /\ (forall v, can_roll R1 s1 lines v <-> can_roll R2 s2 lines v) /\
  (forall x, can_raise R1 s1 lines x <-> can_raise R2 s2 lines x).
Proof. exact same_roll. Qed.
Print Assumptions C76_roll.

(** get_average and get_probability_distributions_dict go through all variables of the interpreter: after VAR b = d[1*0] they raise ZeroDivisionError
    for every program *)
Theorem C76_tables_refuted : let lines := [$"d2"] in exists s p f m, reachable rt_fwd s /\ program_text lines p /\ good_program p /\ sided p /\
  snd (get_average rt_fwd lines (empty_state rt_fwd)) = Ok [(stdout, f)] /\ snd (get_average rt_fwd lines s) = Raise ZeroDivisionError /\
  snd (get_probability_distributions_dict rt_fwd lines (empty_state rt_fwd)) = Ok [(stdout, m)] /\ snd (get_probability_distributions_dict rt_fwd lines s) = Raise ZeroDivisionError.
Proof.
  intros lines. assert (T : exists p, program_text lines p /\ checked p = true /\ positiveb p = true)
    by (eexists; split; [apply program_of_text; vm_compute; reflexivity|split; vm_compute; reflexivity]).
  destruct T as [p [T [C P]]]. exists (state_after rt_fwd [$"VAR b = d[1*0]"] (empty_state rt_fwd)), p. do 2 eexists.
  split; [apply after_lines, af_now|]. split; [exact T|]. split; [exact (checked_good _ p T C)|]. split; [exact (proj2 (positiveb_iff p P))|].
  split; [vm_compute; reflexivity|]. split; [vm_compute; reflexivity|]. split; vm_compute; reflexivity.
Qed.
Print Assumptions C76_tables_refuted.

(** When they do not raise, the entries are the same *)
Theorem C76_tables_partial : forall (R1 R2 : Runtime) s1 s2 lines p n, reachable R1 s1 -> reachable R2 s2 -> program_text lines p -> good_program p -> sided p ->
  n = stdout \/ assigned p n ->
  (forall a1 a2, snd (get_average R1 lines s1) = Ok a1 -> snd (get_average R2 lines s2) = Ok a2 ->
     exists f, dget text_eqb a1 n = Some f /\ dget text_eqb a2 n = Some f) /\
  (forall m1 m2, snd (get_probability_distributions_dict R1 lines s1) = Ok m1 -> snd (get_probability_distributions_dict R2 lines s2) = Ok m2 ->
     exists t1 t2, dget text_eqb m1 n = Some t1 /\ dget text_eqb m2 n = Some t2 /\ Permutation t1 t2).
Proof. exact same_tables. Qed.
Print Assumptions C76_tables_partial.

(** A program run again, after other values of its variables and on an interpreter with another hash seed: the instances of [a] differ, what is shown
    does not *)
Example C76_nonvacuous : let lines := [$"VAR a = d[1*2,2]"; $"a + a"] in let s := state_after rt_rev ($"VAR c = d2" :: lines) (empty_state rt_rev) in
  reachable rt_rev s /\ (exists p, program_text lines p /\ good_program p /\ sided p /\ drawable p /\ assigned p $"a") /\
  (exists d1 d2, reports rt_fwd (empty_state rt_fwd) lines d1 /\ reports rt_rev s lines d2 /\
     view rt_fwd d1 = [(2, [($"a_1", [1])], 4); (4, [($"a_1", [2])], 1)] /\ view rt_rev d2 = [(2, [($"a_2", [1])], 4); (4, [($"a_2", [2])], 1)]) /\
  snd (get_estimated_cost rt_rev lines s) = Ok 8 /\ roll_weight rt_rev s lines 2 = 2.
Proof.
  intros lines s. split; [apply after_lines, af_now|]. split.
  - assert (T : exists p, program_text lines p /\ checked p = true /\ positiveb p = true /\ drawableb p = true /\ map fst p = [Some $"a"; None])
      by (eexists; split; [apply program_of_text; vm_compute; reflexivity|repeat split; vm_compute; reflexivity]).
    destruct T as [p [T [C [P [D A]]]]]. exists p. split; [exact T|]. split; [exact (checked_good _ p T C)|]. split; [exact (proj2 (positiveb_iff p P))|].
    split; [now apply drawableb_iff|]. destruct p as [|[n e] p]; [discriminate|]. injection A as -> _. exists e. now left.
  - destruct (seen _ _ (view rt_fwd) (dist_at rt_fwd (empty_state rt_fwd) lines stdout) _ ltac:(vm_compute; reflexivity)) as [d1 [H1 V1]].
    destruct (seen _ _ (view rt_rev) (dist_at rt_rev s lines stdout) _ ltac:(vm_compute; reflexivity)) as [d2 [H2 V2]].
    split; [|split; vm_compute; reflexivity]. exists d1, d2. split; [exact (dist_at_reports _ _ _ _ H1)|]. split; [exact (dist_at_reports _ _ _ _ H2)|]. split; [exact V1|exact V2].
Qed.
