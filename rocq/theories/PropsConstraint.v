(** * Properties C27 - C31 and C47: constraint sets *)
From Verif Require Import Py Constraint Distribution SpecConstraint ConstraintProofs Instances.

(** Values for the examples: constraints on two variables, in a runtime [R] *)
Definition on (R : Runtime) (n : text) (l : list Z) : constraint (rt_z R) := CVar n (z_of (rt_z R) l).
Definition sample (R : Runtime) : build R :=
  BCombine (BAdd (BNew [on R $"a" [1; 2; 3]; CNull]) (on R $"b" [5])) (BNew [on R $"a" [2; 3; 4]]).
Definition clash (R : Runtime) : build R := BAdd (BNew [on R $"a" [1]]) (on R $"a" [2]).

(** ** C27 Constraint merging terminates (and raises nothing but the ValueError for an empty set) *)
Theorem C27_constraint_merging_terminates : forall R : Runtime,
  (forall b, (nonempty_build R b -> exists s, run_build R b = Ok s) /\
             (~ nonempty_build R b -> run_build R b = Raise ValueError)) /\
  (forall s c, exists r, merge_new_constraints R s c = Ok r) /\
  (forall s, exists r, merge_constraints R s = Ok r).
Proof. exact merging_finishes. Qed.
Print Assumptions C27_constraint_merging_terminates.

Example C27_nonvacuous : nonempty_build rt_fwd (sample rt_fwd) /\
  match run_build rt_fwd (sample rt_fwd) with Ok s => length (cs_iter (rt_c rt_fwd) s) = 2%nat | Raise _ => False end.
Proof. split; [repeat split; discriminate | vm_compute; reflexivity]. Qed.

(** ** C28 A constraint set is possible exactly when its constraints are jointly satisfiable *)
Theorem C28_possible_iff_satisfiable : forall (R : Runtime) b s, run_build R b = Ok s ->
  (cset_is_possible R s = true <-> satisfiable R (given R b)).
Proof. exact possible_iff. Qed.
Print Assumptions C28_possible_iff_satisfiable.

Example C28_nonvacuous :
  match run_build rt_rev (sample rt_rev) with Ok s => cset_is_possible rt_rev s = true | Raise _ => False end /\
  match run_build rt_rev (clash rt_rev) with Ok s => cset_is_possible rt_rev s = false | Raise _ => False end.
Proof. vm_compute. auto. Qed.

(** ** C29 complies() of a constraint set agrees with the constraints added.
    False: contradictory constraints merge into one that every assignment complies with. *)
Theorem C29_complies_refuted : exists (R : Runtime) b s d, run_build R b = Ok s /\
  cset_complies R s d = true /\ exists c, In c (given R b) /\ c_complies R c d = false.
Proof.
  exists rt_fwd, (clash rt_fwd). eexists. exists [($"a", 1)]. split; [vm_compute; reflexivity|].
  split; [reflexivity|]. exists (on rt_fwd $"a" [2]). split; [simpl; auto | reflexivity].
Qed.
Print Assumptions C29_complies_refuted.

(** It holds when the constraints added can be satisfied together. *)
Theorem C29_complies_partial : forall (R : Runtime) b s d, run_build R b = Ok s -> satisfiable R (given R b) ->
  (cset_complies R s d = true <-> forall c, In c (given R b) -> c_complies R c d = true).
Proof. exact complies_iff. Qed.
Print Assumptions C29_complies_partial.

(** When they cannot (and no empty value set was given), every assignment complies. *)
Theorem C29_impossible_always_complies : forall (R : Runtime) b s d, run_build R b = Ok s ->
  no_empty_values R (given R b) -> ~ satisfiable R (given R b) -> cset_complies R s d = true.
Proof. exact impossible_complies. Qed.
Print Assumptions C29_impossible_always_complies.

Example C29_nonvacuous : satisfiable rt_fwd (given rt_fwd (sample rt_fwd)) /\
  match run_build rt_fwd (sample rt_fwd) with
  | Ok s => cset_complies rt_fwd s [($"a", 2)] = true /\ cset_complies rt_fwd s [($"a", 1)] = false
  | Raise _ => False end.
Proof.
  split; [|vm_compute; auto]. exists (fun n => if text_eqb n $"a" then 2 else 5).
  intros c H. simpl in H. intuition; subst; simpl; tauto.
Qed.

Example C29_impossible_nonvacuous :
  no_empty_values rt_fwd (given rt_fwd (clash rt_fwd)) /\ ~ satisfiable rt_fwd (given rt_fwd (clash rt_fwd)).
Proof.
  split.
  - intros n vs H. destruct H as [H|[H|[]]]; injection H as <- <-; vm_compute; discriminate.
  - intros [h H]. assert (H1 := H (on rt_fwd $"a" [1])). assert (H2 := H (on rt_fwd $"a" [2])). simpl in H1, H2.
    destruct H1 as [H1|[]]; auto. destruct H2 as [H2|[]]; auto. congruence.
Qed.

(** ** C30 Constraint sets do not depend on the order of adding: the members are determined by the
    constraints given *)
Theorem C30_members_determined : forall (R : Runtime) b s, run_build R b = Ok s -> no_empty_values R (given R b) ->
  members_of R (given R b) (cs_iter (rt_c R) s).
Proof. exact describes. Qed.
Print Assumptions C30_members_determined.

Theorem C30_order_independent : forall (R : Runtime) b b' s s', run_build R b = Ok s -> run_build R b' = Ok s' ->
  no_empty_values R (given R b) -> (forall c, In c (given R b) <-> In c (given R b')) ->
  same_members R (cs_iter (rt_c R) s) (cs_iter (rt_c R) s').
Proof. exact order_independent. Qed.
Print Assumptions C30_order_independent.

(** The hypothesis on empty value sets is needed: {c} combined with {c} keeps c, adding c to {c} does not. *)
Theorem C30_empty_values_refuted : exists (R : Runtime) b b' s s', run_build R b = Ok s /\ run_build R b' = Ok s' /\
  (forall c, In c (given R b) <-> In c (given R b')) /\ ~ same_members R (cs_iter (rt_c R) s) (cs_iter (rt_c R) s').
Proof.
  exists rt_fwd, (BCombine (BNew [on rt_fwd $"a" []]) (BNew [on rt_fwd $"a" []])),
    (BAdd (BNew [on rt_fwd $"a" []]) (on rt_fwd $"a" [])),
    (py_set rt_fwd [on rt_fwd $"a" []]), (py_set rt_fwd [CImpossible]).
  split; [vm_compute; reflexivity|]. split; [vm_compute; reflexivity|]. split; [intros c; simpl; tauto|].
  intros [H _]. destruct (H (on rt_fwd $"a" [])) as [d [[E|[]] Hd]]; [left; reflexivity |].
  subst d. exact Hd.
Qed.
Print Assumptions C30_empty_values_refuted.

Example C30_nonvacuous : no_empty_values rt_fwd (given rt_fwd (sample rt_fwd)) /\
  (exists s, run_build rt_fwd (sample rt_fwd) = Ok s).
Proof.
  split; [|eexists; vm_compute; reflexivity].
  intros n vs H. destruct H as [H|[H|[H|[H|[]]]]]; try discriminate; injection H as <- <-; vm_compute; discriminate.
Qed.

(** ** C31 Equality and hashing of outcomes agree, for every string hash function *)
Theorem C31_equal_outcomes_equal_hashes : forall (R : Runtime) (a b : outcome R),
  comma_free R (o_cs a) -> comma_free R (o_cs b) -> o_eqb R a b = true ->
  o_hash R a = o_hash R b /\ o_value a = o_value b /\
  (forall h, (forall c, In c (cs_iter (rt_c R) (o_cs a)) -> holds R h c) <->
             (forall c, In c (cs_iter (rt_c R) (o_cs b)) -> holds R h c)).
Proof. exact equal_outcomes. Qed.
Print Assumptions C31_equal_outcomes_equal_hashes.

Theorem C31_equality_is_equivalence : forall (R : Runtime) (a b c : outcome R),
  o_eqb R a a = true /\ (o_eqb R a b = true -> o_eqb R b a = true) /\
  (o_eqb R a b = true -> o_eqb R b c = true -> o_eqb R a c = true).
Proof. exact outcome_equivalence. Qed.
Print Assumptions C31_equality_is_equivalence.

(** A name with a comma in it (which the language cannot produce, but the classes accept) breaks it. *)
Theorem C31_comma_names_refuted : exists (R : Runtime) (a b : outcome R), o_eqb R a b = true /\ o_hash R a <> o_hash R b.
Proof.
  exists rt_fwd,
    {| o_value := 0; o_cs := py_set rt_fwd [on rt_fwd $"a" [1]; on rt_fwd $"b" [2]] |},
    {| o_value := 0; o_cs := py_set rt_fwd [on rt_fwd $"a, values={1}, VarValueConstraint: name=b" [2]] |}.
  split; [vm_compute; reflexivity | vm_compute; discriminate].
Qed.
Print Assumptions C31_comma_names_refuted.

Example C31_nonvacuous :
  let o := {| o_value := 3; o_cs := py_set rt_fwd [on rt_fwd $"a" [1]; on rt_fwd $"b" [2]] |} in
  comma_free rt_fwd (o_cs o) /\ o_eqb rt_fwd o {| o_value := 3; o_cs := py_set rt_fwd [on rt_fwd $"a" [1; 1]; on rt_fwd $"b" [2]] |} = true.
Proof.
  split; [|vm_compute; reflexivity]. intros n [c [Hc A]]. simpl in Hc.
  destruct Hc as [<-|[<-|[]]]; simpl in A; subst n; simpl; intuition discriminate.
Qed.

(** ** C47 Constraint sets with the same members are equal.  False: the printed order decides. *)
Theorem C47_same_members_equal_refuted : exists (R : Runtime) b b' s s', run_build R b = Ok s /\ run_build R b' = Ok s' /\
  no_empty_values R (given R b) /\ (forall c, In c (given R b) <-> In c (given R b')) /\
  same_members R (cs_iter (rt_c R) s) (cs_iter (rt_c R) s') /\ cset_eqb R s s' = false.
Proof.
  exists rt_fwd, (BNew [on rt_fwd $"a" [1]; on rt_fwd $"b" [2]]), (BNew [on rt_fwd $"b" [2]; on rt_fwd $"a" [1]]),
    (py_set rt_fwd [on rt_fwd $"a" [1]; on rt_fwd $"b" [2]]), (py_set rt_fwd [on rt_fwd $"b" [2]; on rt_fwd $"a" [1]]).
  split; [vm_compute; reflexivity|]. split; [vm_compute; reflexivity|].
  assert (NE : no_empty_values rt_fwd (given rt_fwd (BNew [on rt_fwd $"a" [1]; on rt_fwd $"b" [2]]))).
  { intros n vs H. destruct H as [H|[H|[]]]; injection H as <- <-; vm_compute; discriminate. }
  split; [exact NE|]. split; [simpl; tauto|]. split; [|vm_compute; reflexivity].
  apply (order_independent rt_fwd (BNew [on rt_fwd $"a" [1]; on rt_fwd $"b" [2]]) (BNew [on rt_fwd $"b" [2]; on rt_fwd $"a" [1]]));
    [vm_compute; reflexivity | vm_compute; reflexivity | exact NE | simpl; tauto].
Qed.
Print Assumptions C47_same_members_equal_refuted.

(** Their hashes do agree: xor ignores the order. *)
Theorem C47_same_members_same_hash_partial : forall (R : Runtime) (s s' : cset (rt_c R)),
  (forall c, In c (cs_iter (rt_c R) s) <-> In c (cs_iter (rt_c R) s')) -> cset_hash R s = cset_hash R s'.
Proof. exact hash_order. Qed.
Print Assumptions C47_same_members_same_hash_partial.

Example C47_nonvacuous :
  let s := py_set rt_fwd [on rt_fwd $"a" [1]; on rt_fwd $"b" [2]] in
  let s' := py_set rt_fwd [on rt_fwd $"b" [2]; on rt_fwd $"a" [1]] in
  cs_iter (rt_c rt_fwd) s <> cs_iter (rt_c rt_fwd) s' /\
  (forall c, In c (cs_iter (rt_c rt_fwd) s) <-> In c (cs_iter (rt_c rt_fwd) s')).
Proof. split; [discriminate | simpl; tauto]. Qed.
