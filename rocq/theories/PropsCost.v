(** * Property C38: estimated costs *)
From Coq Require Import QArith Qround.
From Verif Require Import Py PyFloat Constraint Distribution DiceModel Expr Parser Interp Instances SpecDice SpecProgram SpecInterp SpecCalls SpecProb SpecCost
  CheckCalls CallFacts CostProofs.
Local Open Scope Z_scope.

(** ** C38 Estimated cost is compositional and non-negative *)

(** The cost of a program is the sum over its lines, each worked out after the lines before it *)
Theorem C38_lines : forall (R : Runtime) l1 l2 s, get_estimated_cost R (l1 ++ l2) s =
  then_call R (get_estimated_cost R l1 s) (fun s1 c1 => then_call R (get_estimated_cost R l2 s1) (fun s2 c2 => (s2, Ok (c1 + c2)))).
Proof. exact cost_pieces. Qed.
Print Assumptions C38_lines.

(** An operator with two operands costs as much as the two operands on two lines *)
Theorem C38_operands : forall (R : Runtime) t e a b ta tb s, parse t = Ok e -> operands e = Some (a, b) -> parse ta = Ok a -> parse tb = Ok b ->
  get_estimated_cost R [t] s = get_estimated_cost R [ta; tb] s.
Proof. exact cost_operands. Qed.
Print Assumptions C38_operands.

(** Parentheses and ABS cost what is inside *)
Theorem C38_inside : forall (R : Runtime) t e a ta s, parse t = Ok e -> inside e = Some a -> parse ta = Ok a ->
  get_estimated_cost R [t] s = get_estimated_cost R [ta] s.
Proof. exact cost_inside. Qed.
Print Assumptions C38_inside.

(** An assignment costs 2 more than its expression, and stores the cost of the expression *)
Theorem C38_assignment : forall (R : Runtime) t n a ta s, parse t = Ok (EAssign n a) -> parse ta = Ok a ->
  (forall s1 c, get_estimated_cost R [ta] s = (s1, Ok c) -> exists s2, get_estimated_cost R [t] s = (s2, Ok (c + 2)) /\ stored R n c s1 s2) /\
  (forall s1 x, get_estimated_cost R [ta] s = (s1, Raise x) -> get_estimated_cost R [t] s = (s1, Raise x)).
Proof. exact cost_assignment. Qed.
Print Assumptions C38_assignment.

(** A variable costs what is stored for it; a constant costs 2; dice cost their number times the number of different sides *)
Theorem C38_variable : forall (R : Runtime) t n s, parse t = Ok (EVar n) ->
  get_estimated_cost R [t] s = (s, match constant R s n with Some v => Ok v | None => Raise KeyError end).
Proof. exact cost_variable. Qed.
Print Assumptions C38_variable.

Theorem C38_constant : forall (R : Runtime) t e s, parse t = Ok e -> (exists n, e = EInt n) \/ (exists b, e = EBool b) ->
  get_estimated_cost R [t] s = (s, Ok 2).
Proof. exact cost_constant. Qed.
Print Assumptions C38_constant.

Theorem C38_dice : forall (R : Runtime) t d sides s, parse t = Ok (EDice d) -> lists_sides (dice_map d) sides ->
  get_estimated_cost R [t] s = (s, Ok (dice_num d * Z.of_nat (length sides))).
Proof. exact cost_dice. Qed.
Print Assumptions C38_dice.

(** Keeping or dropping some of the dice costs the product of the number of dice, the number of dice that count and the
    number of different sides; keeping all or none of them costs what the dice or a constant cost *)
Theorem C38_pool : forall (R : Runtime) t dk sides s, parse t = Ok (EDropKeep dk) -> lists_sides (dk_map dk) sides -> exists c,
  get_estimated_cost R [t] s = (s, Ok c) /\
  (dk_num dk = 0 -> c = if dk_keep dk then 0 else 2) /\
  (0 < dk_num dk -> dice_kept dk = dk_num dk -> c = dk_num dk * Z.of_nat (length sides)) /\
  (0 < dk_num dk -> dice_kept dk = 0 -> c = 2) /\
  (0 < dice_kept dk < dk_num dk -> c = dk_num dk * dice_kept dk * Z.of_nat (length sides)).
Proof. exact cost_pool. Qed.
Print Assumptions C38_pool.

(** NOT costs 1.1 times its operand, worked out with floats and rounded down, and raises OverflowError when a float is too large *)
Theorem C38_not : forall (R : Runtime) t a ta s s', parse t = Ok (ENot a) -> parse ta = Ok a ->
  (forall r, get_estimated_cost R [t] s = (s', Ok r) <-> exists c, get_estimated_cost R [ta] s = (s', Ok c) /\ increased c r) /\
  (forall x, get_estimated_cost R [t] s = (s', Raise x) <->
     get_estimated_cost R [ta] s = (s', Raise x) \/ exists c, get_estimated_cost R [ta] s = (s', Ok c) /\ cannot_increase c /\ x = OverflowError).
Proof. exact cost_not. Qed.
Print Assumptions C38_not.

(** It costs at least as much as its operand, and below 2^48 exactly 11/10 of it rounded down *)
Theorem C38_not_at_least : forall (R : Runtime) t a ta s s' s'' c r, no_negatives R s -> parse t = Ok (ENot a) -> parse ta = Ok a ->
  get_estimated_cost R [ta] s = (s', Ok c) -> get_estimated_cost R [t] s = (s'', Ok r) -> s'' = s' /\ c <= r /\ (c <= 2 ^ 48 -> r = 11 * c / 10).
Proof. exact cost_not_at_least. Qed.
Print Assumptions C38_not_at_least.

(** Costs are not negative, on a new interpreter and on one that has worked out costs only *)
Theorem C38_nonneg : forall (R : Runtime) lines s s' r, no_negatives R s -> get_estimated_cost R lines s = (s', r) ->
  no_negatives R s' /\ forall c, r = Ok c -> 0 <= c.
Proof. exact cost_nonneg. Qed.
Print Assumptions C38_nonneg.

Theorem C38_new : forall (R : Runtime), no_negatives R (empty_state R).
Proof. exact empty_no_negatives. Qed.
Print Assumptions C38_new.

(** Adding lines does not lower the cost *)
Theorem C38_more_lines : forall (R : Runtime) l1 l2 s s1 s2 c1 c, no_negatives R s -> get_estimated_cost R l1 s = (s1, Ok c1) ->
  get_estimated_cost R (l1 ++ l2) s = (s2, Ok c) -> c1 <= c.
Proof. exact cost_more_lines. Qed.
Print Assumptions C38_more_lines.

(** When every variable is assigned before use the cost is defined, except that a line with a NOT may raise OverflowError *)
Theorem C38_defined_partial : forall (R : Runtime) lines, assigned_before_use [] lines ->
  (exists c, snd (get_estimated_cost R lines (empty_state R)) = Ok c) \/
  (some_line lines has_not /\ snd (get_estimated_cost R lines (empty_state R)) = Raise OverflowError).
Proof. exact fresh_cost_defined. Qed.
Print Assumptions C38_defined_partial.

(** It does: a NOT of 10^308 dice with six sides *)
Theorem C38_overflow_refuted : exists (R : Runtime) t, assigned_before_use [] [t] /\ snd (get_estimated_cost R [t] (empty_state R)) = Raise OverflowError.
Proof.
  exists rt_fwd, ($"!1" ++ repeat "0"%char 308 ++ $"d6"). split; [|vm_compute; reflexivity].
  destruct (parse ($"!1" ++ repeat "0"%char 308 ++ $"d6")) as [e|x] eqn:E; [|vm_compute in E; discriminate].
  exists e. split; [exact E|]. split; [|exact Logic.I]. vm_compute in E. inversion E. intros n [].
Qed.
Print Assumptions C38_overflow_refuted.

(** The operands, what is inside, and the other parts *)
Example C38_nonvacuous : exists s, no_negatives rt_fwd s /\ constant rt_fwd s $"a" = Some 3 /\
  (exists e a b, parse $"d2 + 4" = Ok e /\ operands e = Some (a, b) /\ parse $"d2" = Ok a /\ parse $"4" = Ok b) /\
  snd (get_estimated_cost rt_fwd [$"d2 + 4"] s) = Ok 4 /\
  (exists e a, parse $"ABS(d2 - a)" = Ok e /\ inside e = Some a /\ parse $"d2 - a" = Ok a) /\
  snd (get_estimated_cost rt_fwd [$"ABS(d2 - a)"] s) = Ok 5 /\
  (exists a, parse $"VAR b = 5dF" = Ok (EAssign $"b" a) /\ parse $"5dF" = Ok a) /\
  snd (get_estimated_cost rt_fwd [$"VAR b = 5dF"; $"b"] s) = Ok 32 /\
  (exists a, parse $"!5dF" = Ok (ENot a) /\ parse $"5dF" = Ok a) /\
  snd (get_estimated_cost rt_fwd [$"!5dF"] s) = Ok 16 /\
  (exists dk, parse $"4dFk2" = Ok (EDropKeep dk) /\ lists_sides (dk_map dk) [0; 1; -1] /\ 0 < dice_kept dk < dk_num dk) /\
  snd (get_estimated_cost rt_fwd [$"4dFk2"] s) = Ok 24 /\
  assigned_before_use [] [$"VAR a = d2"; $"!a"].
Proof.
  exists (cost_state rt_fwd [$"VAR a = dF"] (empty_state rt_fwd)). split.
  - pose proof (cost_fine rt_fwd [$"VAR a = dF"] (empty_state rt_fwd) (empty_no_negatives rt_fwd)) as [H _]. exact H.
  - split; [vm_compute; reflexivity|]. split; [do 3 eexists; repeat split; vm_compute; reflexivity|]. split; [vm_compute; reflexivity|].
    split; [do 2 eexists; repeat split; vm_compute; reflexivity|]. split; [vm_compute; reflexivity|].
    split; [eexists; split; vm_compute; reflexivity|]. split; [vm_compute; reflexivity|].
    split; [eexists; split; vm_compute; reflexivity|]. split; [vm_compute; reflexivity|].
    split; [|split; [vm_compute; reflexivity|]].
    + eexists. split; [vm_compute; reflexivity|]. split; [|vm_compute; split; reflexivity]. split; [repeat constructor; cbn; lia|cbn; tauto].
    + eexists. split; [vm_compute; reflexivity|]. split; [intros n []|]. eexists. split; [vm_compute; reflexivity|]. split; [|exact Logic.I].
      intros n [<-|[]]. now left.
Qed.

(** After a roll a name can stand for a negative number, and then a cost is negative *)
Example C38_negative_after_roll : exists s, reachable rt_fwd s /\ snd (get_estimated_cost rt_fwd [$"d2"; $"a"] s) = Ok (-3).
Proof.
  exists (rolled_state rt_fwd [$"VAR a = 0 - 5"] (empty_state rt_fwd)). split; [apply reachable_rolled, af_now|]. vm_compute. reflexivity.
Qed.

(** Above 2^48 the float arithmetic can show: 11/10 of 10^16 + 9, rounded down, is 11*10^15 + 9 and not 11*10^15 + 10 *)
Example C38_not_rounds : exists c r, increased c r /\ r <> 11 * c / 10.
Proof.
  exists 10000000000000009, 11000000000000010. split; [apply not_cost_increased; vm_compute; reflexivity|]. vm_compute. discriminate.
Qed.
