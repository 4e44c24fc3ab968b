(** * Property C83: relations between the values of two expressions carry over to roll() *)
From Verif Require Import Py Constraint Distribution DiceModel Expr Parser Interp Instances SpecDice SpecProgram SpecRoll SpecInterp SpecCost SpecSplit SpecRollRelation
  Checks RollRelationProofs.
Local Open Scope Z_scope.

(** Whatever linear inequality, or equation, between events holds for all values that the two expressions can have holds between the weights with which roll() gives the events *)
Theorem C83_at_least : forall (R : Runtime) q a b l, events_of R q a b l -> (forall x y, can_come_up a x -> can_come_up b y -> 0 <= happening R l x y) -> 0 <= weighed R l.
Proof. exact roll_relation. Qed.
Print Assumptions C83_at_least.

Theorem C83_equal : forall (R : Runtime) q a b l, events_of R q a b l -> (forall x y, can_come_up a x -> can_come_up b y -> happening R l x y = 0) -> weighed R l = 0.
Proof. exact roll_relation_equal. Qed.
Print Assumptions C83_equal.

(** Exactly one of a < b, a == b and a > b *)
Theorem C83_compare : forall (R : Runtime) q a b s1 s2 s3 l1 l2 l3, rolls_operation q a b (EBin $"<" a b) l1 -> rolls_operation q a b (EBin $"==" a b) l2 ->
  rolls_operation q a b (EBin $">" a b) l3 ->
  roll_weight R s1 l1 1 + roll_weight R s2 l2 1 + roll_weight R s3 l3 1 = roll_weight R s1 l1 0 + roll_weight R s1 l1 1.
Proof. exact roll_compare. Qed.
Print Assumptions C83_compare.

Theorem C83_compare_both : forall (R : Runtime) q a b s1 s2 s3 s4 s5 s6 l1 l2 l3 l4 l5 l6, rolls_operation q a b (EBin $"<" a b) l1 -> rolls_operation q a b (EBin $"==" a b) l2 ->
  rolls_operation q a b (EBin $">" a b) l3 -> rolls_operation q a b (EBin $"<=" a b) l4 -> rolls_operation q a b (EBin $">=" a b) l5 -> rolls_operation q a b (EBin $"!=" a b) l6 ->
  roll_weight R s4 l4 1 = roll_weight R s1 l1 1 + roll_weight R s2 l2 1 /\ roll_weight R s5 l5 1 = roll_weight R s3 l3 1 + roll_weight R s2 l2 1 /\
  roll_weight R s6 l6 1 = roll_weight R s1 l1 1 + roll_weight R s3 l3 1.
Proof. exact roll_compare_both. Qed.
Print Assumptions C83_compare_both.

(** a - b is 0 as often as a == b *)
Theorem C83_difference : forall (R : Runtime) q a b s1 s2 l1 l2, rolls_operation q a b (ESub a b) l1 -> rolls_operation q a b (EBin $"==" a b) l2 ->
  roll_weight R s1 l1 0 = roll_weight R s2 l2 1.
Proof. exact roll_difference. Qed.
Print Assumptions C83_difference.

(** a OR b is at least as likely as a AND b, also for numbers, on which roll() works bit by bit *)
Theorem C83_and_or : forall (R : Runtime) q a b s1 s2 l1 l2, rolls_operation q a b (EBin $"AND" a b) l1 -> rolls_operation q a b (EBin $"OR" a b) l2 ->
  roll_weight R s1 l1 1 <= roll_weight R s2 l2 1.
Proof. exact roll_and_or. Qed.
Print Assumptions C83_and_or.

(** For truth values, a AND b and a OR b add up to a + b *)
Theorem C83_logic : forall (R : Runtime) q a b s1 s2 s3 l1 l2 l3, (forall x, can_come_up a x -> x = 0 \/ x = 1) -> (forall y, can_come_up b y -> y = 0 \/ y = 1) ->
  rolls_operation q a b (EBin $"AND" a b) l1 -> rolls_operation q a b (EBin $"OR" a b) l2 -> rolls_operation q a b (EAdd a b) l3 ->
  roll_weight R s1 l1 1 + roll_weight R s2 l2 1 = roll_weight R s3 l3 1 + 2 * roll_weight R s3 l3 2.
Proof. exact roll_logic. Qed.
Print Assumptions C83_logic.

(** Both sides use the variable *)
Example C83_nonvacuous : let with_var t := [$"VAR a = d[1*2,3]"; t] in let s := empty_state rt_fwd in exists q a b, q <> [] /\ parse $"a" = Ok a /\ parse $"(d2 * 2 - a)" = Ok b /\
  rolls_operation q a b (EBin $"<" a b) (with_var $"a < (d2 * 2 - a)") /\ rolls_operation q a b (EBin $"==" a b) (with_var $"a == (d2 * 2 - a)") /\
  rolls_operation q a b (EBin $">" a b) (with_var $"a > (d2 * 2 - a)") /\ rolls_operation q a b (EBin $"<=" a b) (with_var $"a <= (d2 * 2 - a)") /\
  rolls_operation q a b (EBin $">=" a b) (with_var $"a >= (d2 * 2 - a)") /\ rolls_operation q a b (EBin $"!=" a b) (with_var $"a != (d2 * 2 - a)") /\
  rolls_operation q a b (ESub a b) (with_var $"a - (d2 * 2 - a)") /\ rolls_operation q a b (EBin $"AND" a b) (with_var $"a AND (d2 * 2 - a)") /\
  rolls_operation q a b (EBin $"OR" a b) (with_var $"a OR (d2 * 2 - a)") /\
  events_of rt_fwd q a b [{| e_factor := 1; e_expr := ESub a b; e_value := 0; e_state := s; e_lines := with_var $"a - (d2 * 2 - a)" |}] /\
  map (roll_weight rt_fwd s (with_var $"a < (d2 * 2 - a)")) [0; 1] = [4; 2] /\ map (roll_weight rt_fwd s (with_var $"a - (d2 * 2 - a)")) [-2; 0; 2; 4] = [2; 2; 1; 1].
Proof.
  intros with_var s.
  let r := eval vm_compute in (program_of [$"VAR a = d[1*2,3]"; $"a - (d2 * 2 - a)"]) in match r with Some (?l :: (None, ESub ?a ?b) :: nil) => exists [l], a, b end.
  split; [discriminate|]. split; [vm_compute; reflexivity|]. split; [vm_compute; reflexivity|].
  split; [show_operation|]. split; [show_operation|]. split; [show_operation|]. split; [show_operation|]. split; [show_operation|]. split; [show_operation|].
  split; [show_operation|]. split; [show_operation|]. split; [show_operation|].
  split; [intros i [<-|[]]; cbn [e_expr e_lines]; show_operation|]. split; vm_compute; reflexivity.
Qed.

Example C83_logic_nonvacuous : let with_var t := [$"VAR a = d[1*2,3]"; t] in let s := empty_state rt_fwd in exists q a b,
  (forall x, can_come_up a x -> x = 0 \/ x = 1) /\ (forall y, can_come_up b y -> y = 0 \/ y = 1) /\ parse $"(a == 1)" = Ok a /\ parse $"(d2 <= a)" = Ok b /\
  rolls_operation q a b (EBin $"AND" a b) (with_var $"(a == 1) AND (d2 <= a)") /\ rolls_operation q a b (EBin $"OR" a b) (with_var $"(a == 1) OR (d2 <= a)") /\
  rolls_operation q a b (EAdd a b) (with_var $"(a == 1) + (d2 <= a)") /\
  map (fun t => roll_weight rt_fwd s (with_var t) 1) [$"(a == 1) AND (d2 <= a)"; $"(a == 1) OR (d2 <= a)"; $"(a == 1) + (d2 <= a)"] = [2; 6; 4].
Proof.
  intros with_var s.
  let r := eval vm_compute in (program_of [$"VAR a = d[1*2,3]"; $"(a == 1) + (d2 <= a)"]) in match r with Some (?l :: (None, EAdd ?a ?b) :: nil) => exists [l], a, b end.
  split; [intros x; now apply comparison_comes_up|]. split; [intros y; now apply comparison_comes_up|]. split; [vm_compute; reflexivity|]. split; [vm_compute; reflexivity|].
  split; [show_operation|]. split; [show_operation|]. split; [show_operation|]. vm_compute; reflexivity.
Qed.
