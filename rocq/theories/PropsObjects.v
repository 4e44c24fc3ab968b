(** * Properties C62 and C63: distributions and outcomes handled directly *)
From Verif Require Import Py Constraint Distribution Expr Interp Objects SpecDice SpecProgram SpecInterp SpecAlgebra SpecObjects Instances Checks ObjectProofs.

(** ** C62 An operand of the wrong kind is refused with a TypeError.

    False of the values of outcomes: the message of the constructor says that a bool is refused, but it is accepted. *)
Theorem C62_distribution_operators : forall (R : Runtime) op d x, infix op -> ~ is_distribution R x ->
  py_operator R op (PDist d) x = Raise TypeError /\ py_operator R op x (PDist d) = Raise TypeError.
Proof. exact dist_operator_refuses. Qed.
Print Assumptions C62_distribution_operators.

Theorem C62_distribution_methods : forall (R : Runtime) op d x, ~ is_distribution R x -> dist_method R op d x = Raise TypeError.
Proof. exact dist_method_refuses. Qed.
Print Assumptions C62_distribution_methods.

Theorem C62_outcome_operators : forall (R : Runtime) op o x, infix op -> ~ is_outcome R x ->
  py_operator R op (POutcome o) x = Raise TypeError /\ py_operator R op x (POutcome o) = Raise TypeError.
Proof. exact outcome_operator_refuses. Qed.
Print Assumptions C62_outcome_operators.

Theorem C62_outcome_methods : forall (R : Runtime) op o x, ~ is_outcome R x -> outcome_method R op o x = Raise TypeError.
Proof. exact outcome_method_refuses. Qed.
Print Assumptions C62_outcome_methods.

Theorem C62_outcome_equality : forall (R : Runtime) o x, ~ is_outcome R x ->
  py_equal R (POutcome o) x = Raise TypeError /\ py_equal R x (POutcome o) = Raise TypeError.
Proof. exact outcome_eq_refuses. Qed.
Print Assumptions C62_outcome_equality.

(** Two distributions are never refused *)
Theorem C62_two_distributions : forall (R : Runtime) op a b, obtainable R a -> obtainable R b ->
  match dist_method R op a (PDist b) with
  | Ok d => obtainable R d /\ ~ (op = VDiv /\ (exists v, listed R a v) /\ listed R b 0)
  | Raise x => x = ZeroDivisionError /\ op = VDiv /\ (exists v, listed R a v) /\ listed R b 0
  end.
Proof. exact dist_operator_accepts. Qed.
Print Assumptions C62_two_distributions.

Theorem C62_outcome_value_partial : forall (R : Runtime) x cs, ~ is_int R x <-> new_outcome R x cs = Raise TypeError.
Proof. exact new_outcome_refuses. Qed.
Print Assumptions C62_outcome_value_partial.

Theorem C62_bool_refuted : exists b cs o, new_outcome rt_fwd (PBool b) cs = Ok o.
Proof. exists true, (cs_empty (rt_c rt_fwd)). eexists. reflexivity. Qed.
Print Assumptions C62_bool_refuted.

Example C62_nonvacuous : ~ is_distribution rt_fwd (PInt 3) /\ infix VAdd /\
  exists a b d, mk_dist_ints rt_fwd [(0, 1); (2, 3)] = Ok a /\ mk_dist_ints rt_fwd [(1, 1)] = Ok b /\ obtainable rt_fwd a /\ obtainable rt_fwd b /\
    py_operator rt_fwd VAdd (PDist a) (PDist b) = Ok (PDist d) /\ get_result_map rt_fwd d = [(1, 1); (3, 3)] /\
    dist_method rt_fwd VDiv b (PDist a) = Raise ZeroDivisionError.
Proof. exact operands_example. Qed.

(** ** C63 A distribution made of a dictionary holds what the dictionary says.

    Keys are ints or outcomes.  A key of another kind is not refused: its entry is lost. *)
Theorem C63_counts : forall (R : Runtime) m, exists d, new_dist R (Some m) = Ok d /\ forall v,
  reported R d v = entered R m v /\ (listed R d v <-> exists k c, In (k, c) m /\ key_value R k = Some v).
Proof. exact made_counts. Qed.
Print Assumptions C63_counts.

Theorem C63_other_keys_refuted : exists m d, new_dist rt_fwd (Some m) = Ok d /\ total_ways rt_fwd d <> zsum (map snd m).
Proof. exact other_keys_lost. Qed.
Print Assumptions C63_other_keys_refuted.

Theorem C63_total : forall (R : Runtime) m d, (forall k c, In (k, c) m -> is_int R k \/ is_outcome R k) -> new_dist R (Some m) = Ok d ->
  total_ways R d = zsum (map snd m).
Proof. exact made_total. Qed.
Print Assumptions C63_total.

(** The dictionary of outcomes of a distribution gives the distribution back; the one of its results gives one with
    the same results that is independent of everything *)
Theorem C63_copy : forall (R : Runtime) d, obtainable R d -> new_dist R (Some (outcome_keys R d)) = Ok d.
Proof. exact made_copy. Qed.
Print Assumptions C63_copy.

Theorem C63_independent : forall (R : Runtime) d, obtainable R d -> exists d', new_dist R (Some (int_keys R d)) = Ok d' /\ obtainable R d' /\
  get_result_map R d' = get_result_map R d /\ forall x, no_shared_variable R d' x /\ no_shared_variable R x d'.
Proof. exact made_independent. Qed.
Print Assumptions C63_independent.

Theorem C63_nothing : forall (R : Runtime), exists d, new_dist R None = Ok d /\ get_result_map R d = [].
Proof. exact made_from_nothing. Qed.
Print Assumptions C63_nothing.

Example C63_nonvacuous : exists o m d, create_empty rt_fwd 2 = Ok o /\ m = [(PInt 2, 5); (POutcome o, 7); (PBool true, 1); (PElse, 9)] /\
  new_dist rt_fwd (Some m) = Ok d /\ get_result_map rt_fwd d = [(2, 12); (1, 1)].
Proof. exact dictionary_example. Qed.

Example C63_copy_nonvacuous : exists d, reports rt_fwd (empty_state rt_fwd) [$"VAR a = d2"; $"a + 1"] d /\ obtainable rt_fwd d /\ get_result_map rt_fwd d = [(2, 1); (3, 1)].
Proof. exact copy_example. Qed.
