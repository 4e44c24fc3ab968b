(** * Property C71: formulas that are equal for all numbers can be exchanged *)
From Verif Require Import Py PyFloat Constraint Distribution DiceModel Expr Parser Interp Instances SpecDice SpecProgram SpecInterp SpecAlgebra SpecRoll SpecExchange SpecFormula
  Checks FormulaProofs.
Local Open Scope Z_scope.

(** Two programs whose lines differ only by formulas that are equal for all numbers, each letter standing once in each formula:
    get_result_map() is the same for both, whatever the letters stand for ... *)
Theorem C71_once : forall (R : Runtime) p q lines lines' s s' d d', exchanged_program (same_formula false) p q -> good_program p -> program_text lines p -> program_text lines' q ->
  reachable R s -> reachable R s' -> reports R s lines d -> reports R s' lines' d' -> same_results R d d'.
Proof. exact formula_distribution. Qed.
Print Assumptions C71_once.

(** ... and the exceptions are the same, also when letters without dice stand there several times. *)
Theorem C71_errors : forall (R : Runtime) several p q lines lines' s s' x, exchanged_program (same_formula several) p q -> good_program p -> sided p -> program_text lines p -> program_text lines' q ->
  reachable R s -> reachable R s' -> (distribution_raises R s lines x <-> distribution_raises R s' lines' x).
Proof. exact formula_raises. Qed.
Print Assumptions C71_errors.

(** The same results are possible, also when letters without dice stand there several times. *)
Theorem C71_values : forall (R : Runtime) several p q lines lines' s s' d d', exchanged_program (same_formula several) p q -> good_program p -> rollable p -> program_text lines p ->
  program_text lines' q -> reachable R s -> reachable R s' -> reports R s lines d -> reports R s' lines' d' ->
  forall v, (listed R d v <-> listed R d' v) /\ (reported R d v <> 0 <-> reported R d' v <> 0).
Proof. exact formula_values. Qed.
Print Assumptions C71_values.

(** With letters that stand there several times the probabilities are not the same: [a + a] and [2 * a] ... *)
Theorem C71_several_refuted : let lines := [$"VAR a = d[1*2,2]"; $"a + a"] in let lines' := [$"VAR a = d[1*2,2]"; $"2 * a"] in
  exists p q d d', exchanged_program (same_formula true) p q /\ good_program p /\ rollable p /\ program_text lines p /\ program_text lines' q /\
  reports rt_fwd (empty_state rt_fwd) lines d /\ reports rt_fwd (empty_state rt_fwd) lines' d' /\ ~ same_shares rt_fwd d d'.
Proof.
  intros lines lines'.
  assert (T : program_text lines ltac:(let p := eval vm_compute in (program_of lines) in match p with Some ?p => exact p end)) by (apply program_of_text; vm_compute; reflexivity).
  assert (T' : program_text lines' ltac:(let p := eval vm_compute in (program_of lines') in match p with Some ?p => exact p end)) by (apply program_of_text; vm_compute; reflexivity).
  destruct (shown_reports rt_fwd (empty_state rt_fwd) lines [(2, 4); (4, 1)] ltac:(vm_compute; reflexivity)) as [d [H1 H2]].
  destruct (shown_reports rt_fwd (empty_state rt_fwd) lines' [(2, 2); (4, 1)] ltac:(vm_compute; reflexivity)) as [d' [H3 H4]].
  match type of T with program_text _ ?p => match type of T' with program_text _ ?q => exists p, q, d, d' end end.
  split; [|split; [exact (checked_good _ _ T ltac:(vm_compute; reflexivity))|]; split; [apply rollableb_iff; vm_compute; reflexivity|]; split; [exact T|]; split; [exact T'|];
    split; [exact H1|]; split; [exact H3|]].
  - constructor; [split; [reflexivity | apply ex_same]|]. constructor; [|constructor]. split; [reflexivity|]. apply ex_part.
    apply (same_formula_three true (EVar $"a") (EBool $"True") (EBool $"True") (EAdd (EVar $"x") (EVar $"x")) (EMul (EInt $"2") (EVar $"x"))); try exact Logic.I; try reflexivity; try (left; reflexivity).
    + split; exact Logic.I.
    + split; [now exists 2 | exact Logic.I].
    + intros n J. cbn in J |- *. tauto.
    + intros n. cbn. tauto.
    + intros [x|] y z; [|reflexivity]. change ([Some (x + x)] = [Some (2 * x)]). apply (f_equal (fun x => [Some x])). lia.
    + intros n J. cbn in J. destruct J as [<-|[<-|[]]]; right; split; reflexivity.
  - intros [_ S]. destruct (S 2) as [_ E]. revert E. unfold total_ways, reported. rewrite H2, H4. vm_compute. discriminate.
Qed.
Print Assumptions C71_several_refuted.

(** ... unless in both programs every variable is used at most once or has values with equally many ways. *)
Theorem C71_several_partial : forall (R : Runtime) p q lines lines' s s' d d', exchanged_program (same_formula true) p q -> good_program p -> rollable p ->
  used_once_or_uniform p -> used_once_or_uniform q ->
  program_text lines p -> program_text lines' q -> reachable R s -> reachable R s' -> reports R s lines d -> reports R s' lines' d' -> same_shares R d d'.
Proof. exact formula_shares. Qed.
Print Assumptions C71_several_partial.

(** roll() has AND, OR and NOT of its own: the two sides of De Morgan's law differ ... *)
Theorem C71_roll_refuted : let lines := [$"!(1 AND 2)"] in let lines' := [$"(!1) OR (!2)"] in
  exists p q, exchanged_program (same_formula false) p q /\ good_program p /\ drawable p /\ program_text lines p /\ program_text lines' q /\
  roll_weight rt_fwd (empty_state rt_fwd) lines 1 = 1 /\ roll_weight rt_fwd (empty_state rt_fwd) lines' 1 = 0 /\
  roll_total rt_fwd (empty_state rt_fwd) lines = 1 /\ roll_total rt_fwd (empty_state rt_fwd) lines' = 1.
Proof.
  intros lines lines'.
  assert (T : program_text lines ltac:(let p := eval vm_compute in (program_of lines) in match p with Some ?p => exact p end)) by (apply program_of_text; vm_compute; reflexivity).
  assert (T' : program_text lines' ltac:(let p := eval vm_compute in (program_of lines') in match p with Some ?p => exact p end)) by (apply program_of_text; vm_compute; reflexivity).
  match type of T with program_text _ ?p => match type of T' with program_text _ ?q => exists p, q end end.
  split; [|split; [exact (checked_good _ _ T ltac:(vm_compute; reflexivity))|]; split; [apply drawableb_iff; vm_compute; reflexivity|]; split; [exact T|]; split; [exact T'|];
    repeat split; vm_compute; reflexivity].
  constructor; [|constructor]. split; [reflexivity|]. apply ex_part.
  apply (same_formula_three false (EInt $"1") (EInt $"2") (EBool $"True") (ENot (EParen (EBin $"AND" (EVar $"x") (EVar $"y"))))
    (EBin $"OR" (EParen (ENot (EVar $"x"))) (EParen (ENot (EVar $"y"))))); try exact Logic.I; try reflexivity; try (left; reflexivity).
  + now exists 1.
  + now exists 2.
  + cbn. repeat split. discriminate.
  + cbn. repeat split. discriminate.
  + intros n J. cbn in J |- *. tauto.
  + intros [x|] [y|] z; try reflexivity. cbn [joint both flat_map map app option_map text_eqb]. cbn. unfold meaning, truth, is_true.
    destruct (Z.ltb_spec 0 x), (Z.ltb_spec 0 y); reflexivity.
  + intros n J. cbn in J. left. destruct J as [<-|[<-|[]]]; split; reflexivity.
Qed.
Print Assumptions C71_roll_refuted.

(** ... unless they are only used on values for which they agree with the README. *)
Theorem C71_roll_partial : forall (R : Runtime) several p q lines lines' s s', exchanged_program (same_formula several) p q -> good_program p -> drawable p ->
  program_logic_agrees no_values p -> program_logic_agrees no_values q -> program_text lines p -> program_text lines' q ->
  (forall x, can_raise R s lines x <-> can_raise R s' lines' x) /\ (forall v, can_roll R s lines v <-> can_roll R s' lines' v) /\
  (forall v, roll_weight R s lines v = roll_weight R s' lines' v) /\ ((forall x, ~ can_raise R s lines x) -> roll_total R s lines = roll_total R s' lines').
Proof. exact formula_roll. Qed.
Print Assumptions C71_roll_partial.

(** Formulas that are equal for all numbers, whatever expressions stand for the letters: sums, products, ABS, *)
Theorem C71_laws_arithmetic : forall a b c, simple a -> simple b -> simple c ->
  let same := same_formula false in
  same (EParen a) a /\
  same (EAdd a b) (EAdd b a) /\ same (EAdd (EAdd a b) c) (EAdd a (EAdd b c)) /\ same (ESub (ESub a b) c) (ESub a (EAdd b c)) /\ same (ESub (EAdd a b) c) (EAdd a (ESub b c)) /\
  same (EMul a b) (EMul b a) /\ same (EMul (EMul a b) c) (EMul a (EMul b c)) /\ same (EAbs (ESub a b)) (EAbs (ESub b a)) /\ same (EAbs (EMul a b)) (EMul (EAbs a) (EAbs b)).
Proof. exact laws_once. Qed.
Print Assumptions C71_laws_arithmetic.
(** MIN and MAX, *)
Theorem C71_laws_minmax : forall a b c, simple a -> simple b -> simple c -> forall mm, mm = $"MIN" \/ mm = $"MAX" ->
  same_formula false (EMinMax mm a b) (EMinMax mm b a) /\ same_formula false (EMinMax mm (EMinMax mm a b) c) (EMinMax mm a (EMinMax mm b c)).
Proof. exact laws_minmax. Qed.
Print Assumptions C71_laws_minmax.
(** NOT of comparisons, *)
Theorem C71_laws_comparison : forall a b c, simple a -> simple b -> simple c -> forall op op', In (op, op') [($"<", $">="); ($"<=", $">"); ($"==", $"!=")] ->
  same_formula false (ENot (EBin op a b)) (EBin op' a b) /\ same_formula false (ENot (EBin op' a b)) (EBin op a b).
Proof. exact laws_comparison. Qed.
Print Assumptions C71_laws_comparison.
(** AND, OR and NOT, *)
Theorem C71_laws_logic : forall a b c, simple a -> simple b -> simple c -> forall op op', In (op, op') [($"AND", $"OR"); ($"OR", $"AND")] ->
  same_formula false (ENot (EBin op a b)) (EBin op' (ENot a) (ENot b)) /\ same_formula false (EBin op a b) (EBin op b a) /\
  same_formula false (EBin op (EBin op a b) c) (EBin op a (EBin op b c)).
Proof. exact laws_logic. Qed.
Print Assumptions C71_laws_logic.
(** and, for an expression without dice, the distributive laws. *)
Theorem C71_laws_distributive : forall a b c, simple a -> simple b -> simple c -> dice_of a = [] ->
  let same := same_formula true in let max := EMinMax $"MAX" in let min := EMinMax $"MIN" in
  same (EMul a (EAdd b c)) (EAdd (EMul a b) (EMul a c)) /\ same (EMul a (ESub b c)) (ESub (EMul a b) (EMul a c)) /\
  same (EAdd a (max b c)) (max (EAdd a b) (EAdd a c)) /\ same (EAdd a (min b c)) (min (EAdd a b) (EAdd a c)) /\
  same (ESub a (max b c)) (min (ESub a b) (ESub a c)) /\ same (ESub a (min b c)) (max (ESub a b) (ESub a c)).
Proof. exact laws_several. Qed.
Print Assumptions C71_laws_distributive.

(** A program with a variable and a die, and the same written differently; the variable is not uniform *)
Example C71_once_nonvacuous : let lines := [$"VAR a = d[1*2,2]"; $"2 * (a + d2) - 1"] in let lines' := [$"VAR a = d[1*2,2]"; $"2 * d2 + (2 * a - 1)"] in
  exists p q d d', exchanged_program (same_formula false) p q /\ p <> q /\ good_program p /\ drawable p /\ sided p /\ program_text lines p /\ program_text lines' q /\
  program_logic_agrees no_values p /\ program_logic_agrees no_values q /\
  reports rt_fwd (empty_state rt_fwd) lines d /\ get_result_map rt_fwd d = [(3, 2); (5, 3); (7, 1)] /\
  reports rt_fwd (empty_state rt_fwd) lines' d' /\ get_result_map rt_fwd d' = [(3, 2); (5, 3); (7, 1)] /\ map (roll_weight rt_fwd (empty_state rt_fwd) lines) [3; 5; 7] = [2; 3; 1].
Proof.
  intros lines lines'.
  assert (T : program_text lines ltac:(let p := eval vm_compute in (program_of lines) in match p with Some ?p => exact p end)) by (apply program_of_text; vm_compute; reflexivity).
  assert (T' : program_text lines' ltac:(let p := eval vm_compute in (program_of lines') in match p with Some ?p => exact p end)) by (apply program_of_text; vm_compute; reflexivity).
  destruct (shown_reports rt_fwd (empty_state rt_fwd) lines [(3, 2); (5, 3); (7, 1)] ltac:(vm_compute; reflexivity)) as [d [H1 H2]].
  destruct (shown_reports rt_fwd (empty_state rt_fwd) lines' [(3, 2); (5, 3); (7, 1)] ltac:(vm_compute; reflexivity)) as [d' [H3 H4]].
  match type of T with program_text _ ?p => match type of T' with program_text _ ?q => exists p, q, d, d' end end.
  assert (G := checked_good _ _ T ltac:(vm_compute; reflexivity)).
  match type of T with program_text _ ?p => assert (D : drawable p) by (apply drawableb_iff; vm_compute; reflexivity) end.
  split; [|split; [discriminate|]; split; [exact G|]; split; [exact D|]; split; [apply ProgramProofs.rollable_sided, RollFacts.drawable_rollable; exact D|]; split; [exact T|]; split; [exact T'|];
    split; [apply RollProofs.logical_program, program_logicalb_iff; vm_compute; reflexivity|]; split; [apply RollProofs.logical_program, program_logicalb_iff; vm_compute; reflexivity|];
    split; [exact H1|]; split; [exact H2|]; split; [exact H3|]; split; [exact H4|]; vm_compute; reflexivity].
  constructor; [split; [reflexivity | apply ex_same]|]. constructor; [|constructor]. split; [reflexivity|]. apply ex_part. cbn [snd].
  assert (S := proj1 (proj2 (proj2 G) None _ (or_intror (or_introl eq_refl)))). destruct S as [[_ [_ S]] _].
  match type of S with simple ?die => apply (same_formula_three false (EVar $"a") die (EBool $"True") (ESub (EMul (EInt $"2") (EParen (EAdd (EVar $"x") (EVar $"y")))) (EInt $"1"))
    (EAdd (EMul (EInt $"2") (EVar $"y")) (EParen (ESub (EMul (EInt $"2") (EVar $"x")) (EInt $"1"))))) end; try exact Logic.I; try reflexivity; try (left; reflexivity).
  + exact S.
  + cbn. repeat split; eexists; reflexivity.
  + cbn. repeat split; eexists; reflexivity.
  + intros n J. cbn in J |- *. tauto.
  + intros n. cbn. tauto.
  + intros [x|] [y|] z; try reflexivity. change ([Some (2 * (x + y) - 1)] = [Some (2 * y + (2 * x - 1))]). apply (f_equal (fun x => [Some x])). lia.
  + intros n J. cbn in J. left. destruct J as [<-|[<-|[]]]; split; reflexivity.
Qed.

(** A variable that is uniform, used several times *)
Example C71_several_nonvacuous : let lines := [$"VAR a = d2"; $"a * (a + d2)"] in let lines' := [$"VAR a = d2"; $"a * a + a * d2"] in
  exists p q d d', exchanged_program (same_formula true) p q /\ p <> q /\ good_program p /\ rollable p /\ sided p /\ used_once_or_uniform p /\ used_once_or_uniform q /\
  program_text lines p /\ program_text lines' q /\
  reports rt_fwd (empty_state rt_fwd) lines d /\ get_result_map rt_fwd d = [(2, 1); (3, 1); (6, 1); (8, 1)] /\
  reports rt_fwd (empty_state rt_fwd) lines' d' /\ get_result_map rt_fwd d' = [(2, 1); (3, 1); (6, 1); (8, 1)].
Proof.
  intros lines lines'.
  assert (T : program_text lines ltac:(let p := eval vm_compute in (program_of lines) in match p with Some ?p => exact p end)) by (apply program_of_text; vm_compute; reflexivity).
  assert (T' : program_text lines' ltac:(let p := eval vm_compute in (program_of lines') in match p with Some ?p => exact p end)) by (apply program_of_text; vm_compute; reflexivity).
  destruct (shown_reports rt_fwd (empty_state rt_fwd) lines [(2, 1); (3, 1); (6, 1); (8, 1)] ltac:(vm_compute; reflexivity)) as [d [H1 H2]].
  destruct (shown_reports rt_fwd (empty_state rt_fwd) lines' [(2, 1); (3, 1); (6, 1); (8, 1)] ltac:(vm_compute; reflexivity)) as [d' [H3 H4]].
  match type of T with program_text _ ?p => match type of T' with program_text _ ?q => exists p, q, d, d' end end.
  assert (G := checked_good _ _ T ltac:(vm_compute; reflexivity)).
  match type of T with program_text _ ?p => assert (D : rollable p) by (apply rollableb_iff; vm_compute; reflexivity) end.
  match type of T with program_text _ ((_, ?e) :: _) => assert (U : uniform e) end.
  { exists 1. split; [lia|]. intros env x. change (joint faces env _) with [Some 1; Some 2]. unfold occurrences. cbn [filter].
    destruct (1 =? x) eqn:E1, (2 =? x) eqn:E2; auto; rewrite ?Z.eqb_eq in *; lia. }
  split; [|split; [discriminate|]; split; [exact G|]; split; [exact D|]; split; [apply ProgramProofs.rollable_sided; exact D|];
    split; [split; [right; exact U | exact Logic.I]|]; split; [split; [right; exact U | exact Logic.I]|]; split; [exact T|]; split; [exact T'|];
    split; [exact H1|]; split; [exact H2|]; split; [exact H3|]; exact H4].
  constructor; [split; [reflexivity | apply ex_same]|]. constructor; [|constructor]. split; [reflexivity|]. apply ex_part. cbn [snd].
  assert (S := proj1 (proj2 (proj2 G) None _ (or_intror (or_introl eq_refl)))). destruct S as [_ [_ S]].
  match type of S with simple ?die => apply (same_formula_three true (EVar $"a") die (EBool $"True") (EMul (EVar $"x") (EParen (EAdd (EVar $"x") (EVar $"y"))))
    (EAdd (EMul (EVar $"x") (EVar $"x")) (EMul (EVar $"x") (EVar $"y")))) end; try exact Logic.I; try reflexivity; try (left; reflexivity).
  + exact S.
  + cbn. repeat split.
  + cbn. repeat split.
  + intros n J. cbn in J |- *. tauto.
  + intros n. cbn. tauto.
  + intros [x|] [y|] z; try reflexivity. change ([Some (x * (x + y))] = [Some (x * x + x * y)]). apply (f_equal (fun x => [Some x])). lia.
  + intros n J. cbn in J. destruct J as [<-|[<-|[<-|[]]]]; [right; split; reflexivity | right; split; reflexivity | left; split; reflexivity].
Qed.
