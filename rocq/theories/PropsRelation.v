(** * Property C79: relations between what is calculated with the same operands *)
From Coq Require Import QArith Qabs.
From Verif Require Import Py PyFloat Constraint Distribution DiceModel Expr Parser Interp Instances SpecDice SpecProgram SpecRoll SpecInterp SpecAlgebra SpecProb SpecFormula SpecCases SpecCost SpecRelation
  Checks RelationProofs SpecSplit.
Local Open Scope Z_scope.

(** Programs have the same assignments and, as the last line, different calculations with the same two operands, which may read the same variables.  If the values of the calculations,
    with factors, add up to at most [k] for all values that the operands can have, then so do the means; *)
Theorem C79_at_most : forall (R : Runtime) q a b (l : results_of R) k, calculated R q a b l -> l <> [] -> (forall x y, possible_pair R a b l x y -> sum_at R l x y <= k) ->
  (sum_of_means R l <= inject_Z k)%Q.
Proof. exact relation_le. Qed.
Print Assumptions C79_at_most.
(** if they always add up to [k], then so do the means. *)
Theorem C79_equal : forall (R : Runtime) q a b (l : results_of R) k, calculated R q a b l -> l <> [] -> (forall x y, possible_pair R a b l x y -> sum_at R l x y = k) ->
  (sum_of_means R l == inject_Z k)%Q.
Proof. exact relation_eq. Qed.
Print Assumptions C79_equal.

(** One of [a < b], [a == b] and [a > b] is true. *)
Theorem C79_compare : forall (R : Runtime) q a b (dlt deq dgt : dist R), calculates R q a b (combined (EBin $"<" a b)) dlt -> calculates R q a b (combined (EBin $"==" a b)) deq ->
  calculates R q a b (combined (EBin $">" a b)) dgt -> (probability R dlt 1 + probability R deq 1 + probability R dgt 1 == 1)%Q.
Proof. exact relation_compare. Qed.
Print Assumptions C79_compare.
Theorem C79_compare_both : forall (R : Runtime) q a b (dlt deq dgt dle dge dne : dist R), calculates R q a b (combined (EBin $"<" a b)) dlt -> calculates R q a b (combined (EBin $"==" a b)) deq ->
  calculates R q a b (combined (EBin $">" a b)) dgt -> calculates R q a b (combined (EBin $"<=" a b)) dle -> calculates R q a b (combined (EBin $">=" a b)) dge ->
  calculates R q a b (combined (EBin $"!=" a b)) dne ->
  (probability R dle 1 == probability R dlt 1 + probability R deq 1)%Q /\ (probability R dge 1 == probability R dgt 1 + probability R deq 1)%Q /\
  (probability R dne 1 == probability R dlt 1 + probability R dgt 1)%Q.
Proof. exact relation_compare_both. Qed.
Print Assumptions C79_compare_both.

(** The larger and the smaller are the two operands, *)
Theorem C79_minmax : forall (R : Runtime) q a b (dmax dmin dadd : dist R), calculates R q a b (combined (EMinMax $"MAX" a b)) dmax -> calculates R q a b (combined (EMinMax $"MIN" a b)) dmin ->
  calculates R q a b (combined (EAdd a b)) dadd -> (mean R dmax + mean R dmin == mean R dadd)%Q.
Proof. exact relation_minmax. Qed.
Print Assumptions C79_minmax.
(** ABS(a - b) is their distance, which is on the average not less than the difference of the averages. *)
Theorem C79_distance : forall (R : Runtime) q a b (dmax dmin dabs dsub : dist R), calculates R q a b (combined (EMinMax $"MAX" a b)) dmax -> calculates R q a b (combined (EMinMax $"MIN" a b)) dmin ->
  calculates R q a b (fun x y => option_map Z.abs (combined (ESub a b) x y)) dabs -> calculates R q a b (combined (ESub a b)) dsub ->
  (mean R dmax - mean R dmin == mean R dabs)%Q /\ (Qabs (mean R dsub) <= mean R dabs)%Q.
Proof. exact relation_distance. Qed.
Print Assumptions C79_distance.

(** For operands that are true or false, AND and OR together are true as often as the operands. *)
Theorem C79_logic : forall (R : Runtime) q a b (dand dor dadd : dist R), (forall x, can_be a (Some x) -> x = 0 \/ x = 1) -> (forall y, can_be b (Some y) -> y = 0 \/ y = 1) ->
  calculates R q a b (combined (EBin $"AND" a b)) dand -> calculates R q a b (combined (EBin $"OR" a b)) dor -> calculates R q a b (combined (EAdd a b)) dadd ->
  (probability R dand 1 + probability R dor 1 == mean R dadd)%Q.
Proof. exact relation_logic. Qed.
Print Assumptions C79_logic.

(** Both operands depend on the variable *)
Example C79_nonvacuous : let R := rt_fwd in
  let with_var t := [$"VAR a = d[1*2,3]"; t] in
  exists q a b dlt deq dgt dmax dmin dadd dabs dsub, q <> [] /\ parse $"a" = Ok a /\ parse $"(d2 * 2 - a)" = Ok b /\
  calculates R q a b (combined (EBin $"<" a b)) dlt /\ calculates R q a b (combined (EBin $"==" a b)) deq /\ calculates R q a b (combined (EBin $">" a b)) dgt /\
  calculates R q a b (combined (EMinMax $"MAX" a b)) dmax /\ calculates R q a b (combined (EMinMax $"MIN" a b)) dmin /\ calculates R q a b (combined (EAdd a b)) dadd /\
  calculates R q a b (fun x y => option_map Z.abs (combined (ESub a b) x y)) dabs /\ calculates R q a b (combined (ESub a b)) dsub /\
  reports R (empty_state R) (with_var $"a < (d2 * 2 - a)") dlt /\ reports R (empty_state R) (with_var $"ABS(a - (d2 * 2 - a))") dabs /\
  get_result_map R dlt = [(0, 6); (1, 4)] /\ get_result_map R deq = [(1, 4); (0, 6)] /\ get_result_map R dgt = [(0, 8); (1, 2)] /\
  get_result_map R dmax = [(1, 4); (3, 6)] /\ get_result_map R dmin = [(1, 9); (-1, 1)] /\ get_result_map R dadd = [(2, 5); (4, 5)] /\ get_result_map R dabs = [(0, 4); (2, 5); (4, 1)] /\
  get_result_map R dsub = [(0, 4); (-2, 4); (4, 1); (2, 1)].
Proof.
  intros R with_var.
  destruct (shown_reports rt_fwd (empty_state rt_fwd) [$"VAR a = d[1*2,3]"; $"a < (d2 * 2 - a)"] [(0, 6); (1, 4)] ltac:(vm_compute; reflexivity)) as [dlt [A1 A2]].
  destruct (shown_reports rt_fwd (empty_state rt_fwd) [$"VAR a = d[1*2,3]"; $"a == (d2 * 2 - a)"] [(1, 4); (0, 6)] ltac:(vm_compute; reflexivity)) as [deq [B1 B2]].
  destruct (shown_reports rt_fwd (empty_state rt_fwd) [$"VAR a = d[1*2,3]"; $"a > (d2 * 2 - a)"] [(0, 8); (1, 2)] ltac:(vm_compute; reflexivity)) as [dgt [C1 C2]].
  destruct (shown_reports rt_fwd (empty_state rt_fwd) [$"VAR a = d[1*2,3]"; $"MAX(a, (d2 * 2 - a))"] [(1, 4); (3, 6)] ltac:(vm_compute; reflexivity)) as [dmax [D1 D2]].
  destruct (shown_reports rt_fwd (empty_state rt_fwd) [$"VAR a = d[1*2,3]"; $"MIN(a, (d2 * 2 - a))"] [(1, 9); (-1, 1)] ltac:(vm_compute; reflexivity)) as [dmin [E1 E2]].
  destruct (shown_reports rt_fwd (empty_state rt_fwd) [$"VAR a = d[1*2,3]"; $"a + (d2 * 2 - a)"] [(2, 5); (4, 5)] ltac:(vm_compute; reflexivity)) as [dadd [F1 F2]].
  destruct (shown_reports rt_fwd (empty_state rt_fwd) [$"VAR a = d[1*2,3]"; $"ABS(a - (d2 * 2 - a))"] [(0, 4); (2, 5); (4, 1)] ltac:(vm_compute; reflexivity)) as [dabs [G1 G2]].
  destruct (shown_reports rt_fwd (empty_state rt_fwd) [$"VAR a = d[1*2,3]"; $"a - (d2 * 2 - a)"] [(0, 4); (-2, 4); (4, 1); (2, 1)] ltac:(vm_compute; reflexivity)) as [dsub [H1 H2]].
  let r := eval vm_compute in (program_of [$"VAR a = d[1*2,3]"; $"a + (d2 * 2 - a)"]) in
    match r with Some (?l :: (None, EAdd ?a ?b) :: nil) => exists [l], a, b, dlt, deq, dgt, dmax, dmin, dadd, dabs, dsub end.
  split; [discriminate|]. split; [vm_compute; reflexivity|]. split; [vm_compute; reflexivity|].
  split; [show_calculates [$"VAR a = d[1*2,3]"; $"a < (d2 * 2 - a)"] A1 by_operation|].
  split; [show_calculates [$"VAR a = d[1*2,3]"; $"a == (d2 * 2 - a)"] B1 by_operation|].
  split; [show_calculates [$"VAR a = d[1*2,3]"; $"a > (d2 * 2 - a)"] C1 by_operation|].
  split; [show_calculates [$"VAR a = d[1*2,3]"; $"MAX(a, (d2 * 2 - a))"] D1 by_operation|].
  split; [show_calculates [$"VAR a = d[1*2,3]"; $"MIN(a, (d2 * 2 - a))"] E1 by_operation|].
  split; [show_calculates [$"VAR a = d[1*2,3]"; $"a + (d2 * 2 - a)"] F1 by_operation|].
  split; [show_calculates [$"VAR a = d[1*2,3]"; $"ABS(a - (d2 * 2 - a))"] G1 by_distance|].
  split; [show_calculates [$"VAR a = d[1*2,3]"; $"a - (d2 * 2 - a)"] H1 by_operation|].
  split; [exact A1|]. split; [exact G1|]. split; [exact A2|]. split; [exact B2|]. split; [exact C2|]. split; [exact D2|]. split; [exact E2|]. split; [exact F2|]. split; [exact G2 | exact H2].
Qed.
Example C79_logic_nonvacuous : let R := rt_fwd in
  exists q a b dand dor dadd, (forall x, can_be a (Some x) -> x = 0 \/ x = 1) /\ (forall y, can_be b (Some y) -> y = 0 \/ y = 1) /\ parse $"(a == 1)" = Ok a /\ parse $"(d2 <= a)" = Ok b /\
  calculates R q a b (combined (EBin $"AND" a b)) dand /\ calculates R q a b (combined (EBin $"OR" a b)) dor /\ calculates R q a b (combined (EAdd a b)) dadd /\
  get_result_map R dand = [(1, 4); (0, 6)] /\ get_result_map R dor = [(1, 10)] /\ get_result_map R dadd = [(2, 4); (1, 6)].
Proof.
  intros R.
  destruct (shown_reports rt_fwd (empty_state rt_fwd) [$"VAR a = d[1*2,3]"; $"(a == 1) AND (d2 <= a)"] [(1, 4); (0, 6)] ltac:(vm_compute; reflexivity)) as [dand [A1 A2]].
  destruct (shown_reports rt_fwd (empty_state rt_fwd) [$"VAR a = d[1*2,3]"; $"(a == 1) OR (d2 <= a)"] [(1, 10)] ltac:(vm_compute; reflexivity)) as [dor [B1 B2]].
  destruct (shown_reports rt_fwd (empty_state rt_fwd) [$"VAR a = d[1*2,3]"; $"(a == 1) + (d2 <= a)"] [(2, 4); (1, 6)] ltac:(vm_compute; reflexivity)) as [dadd [C1 C2]].
  let r := eval vm_compute in (program_of [$"VAR a = d[1*2,3]"; $"(a == 1) + (d2 <= a)"]) in
    match r with Some (?l :: (None, EAdd ?a ?b) :: nil) => exists [l], a, b, dand, dor, dadd end.
  split; [apply comparison_can_be|]. split; [apply comparison_can_be|]. split; [vm_compute; reflexivity|]. split; [vm_compute; reflexivity|].
  split; [show_calculates [$"VAR a = d[1*2,3]"; $"(a == 1) AND (d2 <= a)"] A1 by_operation|].
  split; [show_calculates [$"VAR a = d[1*2,3]"; $"(a == 1) OR (d2 <= a)"] B1 by_operation|].
  split; [show_calculates [$"VAR a = d[1*2,3]"; $"(a == 1) + (d2 <= a)"] C1 by_operation|].
  split; [exact A2|]. split; [exact B2 | exact C2].
Qed.
Example C79_compare_both_nonvacuous : let R := rt_fwd in exists q a b dlt deq dgt dle dge dne, parse $"a" = Ok a /\ parse $"2" = Ok b /\
  calculates R q a b (combined (EBin $"<" a b)) dlt /\
  calculates R q a b (combined (EBin $"==" a b)) deq /\
  calculates R q a b (combined (EBin $">" a b)) dgt /\
  calculates R q a b (combined (EBin $"<=" a b)) dle /\
  calculates R q a b (combined (EBin $">=" a b)) dge /\
  calculates R q a b (combined (EBin $"!=" a b)) dne /\
  get_result_map R dlt = [(1, 1); (0, 1)] /\ get_result_map R deq = [(0, 1); (1, 1)] /\ get_result_map R dgt = [(0, 2)] /\ get_result_map R dle = [(1, 2)] /\ get_result_map R dge = [(0, 1); (1, 1)] /\ get_result_map R dne = [(1, 1); (0, 1)].
Proof.
  intros R.
  destruct (shown_reports rt_fwd (empty_state rt_fwd) [$"VAR a = d2"; $"a < 2"] [(1, 1); (0, 1)] ltac:(vm_compute; reflexivity)) as [dlt [A1 A2]].
  destruct (shown_reports rt_fwd (empty_state rt_fwd) [$"VAR a = d2"; $"a == 2"] [(0, 1); (1, 1)] ltac:(vm_compute; reflexivity)) as [deq [B1 B2]].
  destruct (shown_reports rt_fwd (empty_state rt_fwd) [$"VAR a = d2"; $"a > 2"] [(0, 2)] ltac:(vm_compute; reflexivity)) as [dgt [C1 C2]].
  destruct (shown_reports rt_fwd (empty_state rt_fwd) [$"VAR a = d2"; $"a <= 2"] [(1, 2)] ltac:(vm_compute; reflexivity)) as [dle [D1 D2]].
  destruct (shown_reports rt_fwd (empty_state rt_fwd) [$"VAR a = d2"; $"a >= 2"] [(0, 1); (1, 1)] ltac:(vm_compute; reflexivity)) as [dge [E1 E2]].
  destruct (shown_reports rt_fwd (empty_state rt_fwd) [$"VAR a = d2"; $"a != 2"] [(1, 1); (0, 1)] ltac:(vm_compute; reflexivity)) as [dne [F1 F2]].
  let r := eval vm_compute in (program_of [$"VAR a = d2"; $"a + 2"]) in
    match r with Some (?l :: (None, EAdd ?a ?b) :: nil) => exists [l], a, b, dlt, deq, dgt, dle, dge, dne end.
  split; [vm_compute; reflexivity|]. split; [vm_compute; reflexivity|].
  split; [show_calculates [$"VAR a = d2"; $"a < 2"] A1 by_operation|].
  split; [show_calculates [$"VAR a = d2"; $"a == 2"] B1 by_operation|].
  split; [show_calculates [$"VAR a = d2"; $"a > 2"] C1 by_operation|].
  split; [show_calculates [$"VAR a = d2"; $"a <= 2"] D1 by_operation|].
  split; [show_calculates [$"VAR a = d2"; $"a >= 2"] E1 by_operation|].
  split; [show_calculates [$"VAR a = d2"; $"a != 2"] F1 by_operation|].
  split; [exact A2|]. split; [exact B2|]. split; [exact C2|]. split; [exact D2|]. split; [exact E2 | exact F2].
Qed.
