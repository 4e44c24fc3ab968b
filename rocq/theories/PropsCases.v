(** * Property C72: distinguishing the values of a variable *)
From Coq Require Import QArith.
From Verif Require Import Py PyFloat Constraint Distribution DiceModel Expr Parser Interp Instances SpecDice SpecProgram SpecRoll SpecInterp SpecAlgebra SpecProb SpecCases
  Checks CaseProofs.
Local Open Scope Z_scope.

(** A program assigns to [n] an expression [e] that reads no variables.  [de] is what is reported for [e] alone, and [dx x] what is reported for the program
    with the number [x] in place of [e].  The number of ways of each result is the sum over the values of [e], with the ways of the value to the power of the
    number of uses of the variable ... *)
Theorem C72_ways : forall (R : Runtime) before n e rest s lines d de (dx : Z -> dist R), rest <> [] -> reads e = [] -> good_program (before ++ (Some n, e) :: rest) ->
  program_text lines (before ++ (Some n, e) :: rest) -> reachable R s -> reports R s lines d -> alone R e de -> (forall x, listed R de x -> case R before n rest x (dx x)) ->
  uses n rest <> 0 -> forall v, reported R d v = zsum (map (fun xw => snd xw ^ uses n rest * reported R (dx (fst xw)) v) (get_result_map R de)).
Proof. exact cases_ways. Qed.
Print Assumptions C72_ways.

(** ... or, if the last line does not use the variable, the same in each case. *)
Theorem C72_unused : forall (R : Runtime) before n e rest s lines d x (dx : dist R), rest <> [] -> reads e = [] -> good_program (before ++ (Some n, e) :: rest) ->
  program_text lines (before ++ (Some n, e) :: rest) -> reachable R s -> reports R s lines d -> case R before n rest x dx -> uses n rest = 0 -> same_results R d dx.
Proof. exact cases_unused. Qed.
Print Assumptions C72_unused.

(** A result is possible if it is possible in one of the cases; *)
Theorem C72_values : forall (R : Runtime) before n e rest s lines d de (dx : Z -> dist R), rest <> [] -> reads e = [] -> good_program (before ++ (Some n, e) :: rest) ->
  rollable (before ++ (Some n, e) :: rest) ->
  program_text lines (before ++ (Some n, e) :: rest) -> reachable R s -> reports R s lines d -> alone R e de -> (forall x, listed R de x -> case R before n rest x (dx x)) ->
  forall v, (listed R d v <-> exists x, listed R de x /\ listed R (dx x) v) /\
    (reported R d v <> 0 <-> exists x, listed R de x /\ reported R de x <> 0 /\ reported R (dx x) v <> 0).
Proof. exact cases_values. Qed.
Print Assumptions C72_values.

(** an exception is raised if [e] alone raises it, and otherwise if it is raised in one of the cases. *)
Theorem C72_errors : forall (R : Runtime) before n e rest s lines (de : dist R) s' (lx : Z -> list text) y, rest <> [] -> reads e = [] -> good_program (before ++ (Some n, e) :: rest) ->
  sided (before ++ (Some n, e) :: rest) ->
  program_text lines (before ++ (Some n, e) :: rest) -> reachable R s -> reachable R s' -> alone R e de -> (forall x, listed R de x -> case_lines before n rest x (lx x)) ->
  (distribution_raises R s lines y <-> exists x, listed R de x /\ distribution_raises R s' (lx x) y).
Proof. exact cases_raise. Qed.
Print Assumptions C72_errors.
Theorem C72_errors_alone : forall (R : Runtime) before n e rest s lines t s' y, rest <> [] -> reads e = [] -> good_program (before ++ (Some n, e) :: rest) -> sided (before ++ (Some n, e) :: rest) ->
  program_text lines (before ++ (Some n, e) :: rest) -> reachable R s -> reachable R s' -> parse t = Ok e -> distribution_raises R s' [t] y -> distribution_raises R s lines y.
Proof. exact first_raises. Qed.
Print Assumptions C72_errors_alone.

(** The probabilities are not the averages of the probabilities in the cases ... *)
Theorem C72_probability_refuted : let lines := [$"VAR a = d[1*2,2]"; $"a + a"] in
  exists n e rest d de dx, rest <> [] /\ reads e = [] /\ good_program ((Some n, e) :: rest) /\ rollable ((Some n, e) :: rest) /\ program_text lines ((Some n, e) :: rest) /\
  reports rt_fwd (empty_state rt_fwd) lines d /\ alone rt_fwd e de /\ (forall x, listed rt_fwd de x -> case rt_fwd [] n rest x (dx x)) /\
  ~ (probability rt_fwd d 2 == qtotal (map (fun x => probability rt_fwd de x * probability rt_fwd (dx x) 2)%Q (map fst (get_result_map rt_fwd de))))%Q.
Proof.
  intros lines.
  assert (T : program_text lines ltac:(let p := eval vm_compute in (program_of lines) in match p with Some ?p => exact p end)) by (apply program_of_text; vm_compute; reflexivity).
  destruct (shown_reports rt_fwd (empty_state rt_fwd) lines [(2, 4); (4, 1)] ltac:(vm_compute; reflexivity)) as [d [H1 H2]].
  destruct (shown_reports rt_fwd (empty_state rt_fwd) [$"d[1*2,2]"] [(1, 2); (2, 1)] ltac:(vm_compute; reflexivity)) as [de [H3 H4]].
  destruct (shown_reports rt_fwd (empty_state rt_fwd) [$"VAR a = 1"; $"a + a"] [(2, 1)] ltac:(vm_compute; reflexivity)) as [d1 [H5 H6]].
  destruct (shown_reports rt_fwd (empty_state rt_fwd) [$"VAR a = 2"; $"a + a"] [(4, 1)] ltac:(vm_compute; reflexivity)) as [d2 [H7 H8]].
  match type of T with program_text _ ((Some ?n, ?e) :: ?rest) => exists n, e, rest, d, de, (fun x => if x =? 1 then d1 else d2) end.
  split; [discriminate|]. split; [reflexivity|]. split; [exact (checked_good _ _ T ltac:(vm_compute; reflexivity))|]. split; [apply rollableb_iff; vm_compute; reflexivity|]. split; [exact T|].
  split; [exact H1|]. split; [exists $"d[1*2,2]", (empty_state rt_fwd); split; [vm_compute; reflexivity|]; split; [apply af_now | exact H3]|]. split.
  - intros x I. unfold listed in I. rewrite H4 in I. cbn in I. destruct I as [<-|[<-|[]]].
    + exists [$"VAR a = 1"; $"a + a"], (empty_state rt_fwd). split; [|split; [apply af_now | exact H5]]. exists $"1". split; [reflexivity|]. apply program_of_text; vm_compute; reflexivity.
    + exists [$"VAR a = 2"; $"a + a"], (empty_state rt_fwd). split; [|split; [apply af_now | exact H7]]. exists $"2". split; [reflexivity|]. apply program_of_text; vm_compute; reflexivity.
  - rewrite H4. cbn [map fst]. change (1 =? 1) with true. change (2 =? 1) with false. cbv iota. unfold probability, total_ways, reported. rewrite H2, H4, H6, H8. vm_compute. intros C; discriminate C.
Qed.
Print Assumptions C72_probability_refuted.

(** ... unless every variable is used at most once or has values with equally many ways. *)
Theorem C72_probability_partial : forall (R : Runtime) before n e rest s lines d de (dx : Z -> dist R), rest <> [] -> reads e = [] -> good_program (before ++ (Some n, e) :: rest) ->
  rollable (before ++ (Some n, e) :: rest) -> used_once_or_uniform (before ++ (Some n, e) :: rest) ->
  program_text lines (before ++ (Some n, e) :: rest) -> reachable R s -> reports R s lines d -> alone R e de -> (forall x, listed R de x -> case R before n rest x (dx x)) ->
  let average f := qtotal (map (fun x => probability R de x * f (dx x))%Q (map fst (get_result_map R de))) in
  (forall v, (probability R d v == average (fun d => probability R d v))%Q) /\ (forall v, (probability_at_least R d v == average (fun d => probability_at_least R d v))%Q) /\
  (mean R d == average (mean R))%Q.
Proof. exact cases_probability. Qed.
Print Assumptions C72_probability_partial.

(** For roll() the weights of the runs are, without conditions, the sums over the values of [e]. *)
Theorem C72_roll : forall (R : Runtime) before n e rest s lines t s' sx (lx : Z -> list text), rest <> [] -> reads e = [] -> runnable (before ++ (Some n, e) :: rest) ->
  drawable (before ++ (Some n, e) :: rest) ->
  program_text lines (before ++ (Some n, e) :: rest) -> parse t = Ok e -> (forall x, can_roll R s' [t] x -> case_lines before n rest x (lx x)) ->
  (forall v, can_roll R s lines v <-> exists x, can_roll R s' [t] x /\ can_roll R sx (lx x) v) /\
  (forall y, can_raise R s lines y <-> can_raise R s' [t] y \/ exists x, can_roll R s' [t] x /\ can_raise R sx (lx x) y) /\
  (forall xs, NoDup xs -> (forall x, In x xs <-> can_roll R s' [t] x) -> forall v, roll_weight R s lines v = zsum (map (fun x => roll_weight R s' [t] x * roll_weight R sx (lx x) v) xs)).
Proof. exact cases_rolls. Qed.
Print Assumptions C72_roll.

(** A variable with a line before it, used twice; its values have different numbers of ways *)
Example C72_nonvacuous : let lines := [$"VAR b = d2"; $"VAR a = d[-1*2,2]"; $"a * a + b"] in
  exists b eb n e rest d de dx, rest <> [] /\ reads e = [] /\ uses n rest = 2 /\ good_program ([(Some b, eb)] ++ (Some n, e) :: rest) /\ rollable ([(Some b, eb)] ++ (Some n, e) :: rest) /\
  program_text lines ([(Some b, eb)] ++ (Some n, e) :: rest) /\
  reports rt_fwd (empty_state rt_fwd) lines d /\ get_result_map rt_fwd d = [(2, 4); (3, 4); (5, 1); (6, 1)] /\
  alone rt_fwd e de /\ get_result_map rt_fwd de = [(-1, 2); (2, 1)] /\ (forall x, listed rt_fwd de x -> case rt_fwd [(Some b, eb)] n rest x (dx x)) /\
  get_result_map rt_fwd (dx (-1)) = [(2, 1); (3, 1)] /\ get_result_map rt_fwd (dx 2) = [(5, 1); (6, 1)].
Proof.
  intros lines.
  assert (T : program_text lines ltac:(let p := eval vm_compute in (program_of lines) in match p with Some ?p => exact p end)) by (apply program_of_text; vm_compute; reflexivity).
  destruct (shown_reports rt_fwd (empty_state rt_fwd) lines [(2, 4); (3, 4); (5, 1); (6, 1)] ltac:(vm_compute; reflexivity)) as [d [H1 H2]].
  destruct (shown_reports rt_fwd (empty_state rt_fwd) [$"d[-1*2,2]"] [(-1, 2); (2, 1)] ltac:(vm_compute; reflexivity)) as [de [H3 H4]].
  destruct (shown_reports rt_fwd (empty_state rt_fwd) [$"VAR b = d2"; $"VAR a = -1"; $"a * a + b"] [(2, 1); (3, 1)] ltac:(vm_compute; reflexivity)) as [d1 [H5 H6]].
  destruct (shown_reports rt_fwd (empty_state rt_fwd) [$"VAR b = d2"; $"VAR a = 2"; $"a * a + b"] [(5, 1); (6, 1)] ltac:(vm_compute; reflexivity)) as [d2 [H7 H8]].
  match type of T with program_text _ ((Some ?b, ?eb) :: (Some ?n, ?e) :: ?rest) => exists b, eb, n, e, rest, d, de, (fun x => if x =? -1 then d1 else d2) end.
  split; [discriminate|]. split; [reflexivity|]. split; [reflexivity|]. split; [exact (checked_good _ _ T ltac:(vm_compute; reflexivity))|]. split; [apply rollableb_iff; vm_compute; reflexivity|]. split; [exact T|].
  split; [exact H1|]. split; [exact H2|]. split; [exists $"d[-1*2,2]", (empty_state rt_fwd); split; [vm_compute; reflexivity|]; split; [apply af_now | exact H3]|]. split; [exact H4|]. split; [|split; [exact H6 | exact H8]].
  intros x I. unfold listed in I. rewrite H4 in I. cbn in I. destruct I as [<-|[<-|[]]].
  - exists [$"VAR b = d2"; $"VAR a = -1"; $"a * a + b"], (empty_state rt_fwd). split; [|split; [apply af_now | exact H5]]. exists $"-1". split; [reflexivity|]. apply program_of_text; vm_compute; reflexivity.
  - exists [$"VAR b = d2"; $"VAR a = 2"; $"a * a + b"], (empty_state rt_fwd). split; [|split; [apply af_now | exact H7]]. exists $"2". split; [reflexivity|]. apply program_of_text; vm_compute; reflexivity.
Qed.

(** One value leads to an exception *)
Example C72_errors_nonvacuous : let lines := [$"VAR a = d[0,1]"; $"1 // a"] in
  exists n e rest de lx, rest <> [] /\ reads e = [] /\ good_program ((Some n, e) :: rest) /\ sided ((Some n, e) :: rest) /\ program_text lines ((Some n, e) :: rest) /\
  alone rt_fwd e de /\ (forall x, listed rt_fwd de x -> case_lines [] n rest x (lx x)) /\ listed rt_fwd de 0 /\
  distribution_raises rt_fwd (empty_state rt_fwd) lines ZeroDivisionError /\ distribution_raises rt_fwd (empty_state rt_fwd) (lx 0) ZeroDivisionError /\
  exists d, reports rt_fwd (empty_state rt_fwd) (lx 1) d.
Proof.
  intros lines.
  assert (T : program_text lines ltac:(let p := eval vm_compute in (program_of lines) in match p with Some ?p => exact p end)) by (apply program_of_text; vm_compute; reflexivity).
  destruct (shown_reports rt_fwd (empty_state rt_fwd) [$"d[0,1]"] [(0, 1); (1, 1)] ltac:(vm_compute; reflexivity)) as [de [H3 H4]].
  destruct (shown_reports rt_fwd (empty_state rt_fwd) [$"VAR a = 1"; $"1 // a"] [(1, 1)] ltac:(vm_compute; reflexivity)) as [d1 [H5 H6]].
  match type of T with program_text _ ((Some ?n, ?e) :: ?rest) => exists n, e, rest, de, (fun x => if x =? 0 then [$"VAR a = 0"; $"1 // a"] else [$"VAR a = 1"; $"1 // a"]) end.
  split; [discriminate|]. split; [reflexivity|]. split; [exact (checked_good _ _ T ltac:(vm_compute; reflexivity))|].
  split; [apply ProgramProofs.rollable_sided, rollableb_iff; vm_compute; reflexivity|]. split; [exact T|].
  split; [exists $"d[0,1]", (empty_state rt_fwd); split; [vm_compute; reflexivity|]; split; [apply af_now | exact H3]|]. split; [|split; [unfold listed; rewrite H4; now left|]].
  - intros x I. unfold listed in I. rewrite H4 in I. cbn in I. destruct I as [<-|[<-|[]]]; [exists $"0" | exists $"1"]; (split; [reflexivity|]); apply program_of_text; vm_compute; reflexivity.
  - split; [apply raised_iff; vm_compute; reflexivity|]. split; [apply raised_iff; vm_compute; reflexivity|]. exists d1. exact H5.
Qed.

(** The average of a uniform variable and a die *)
Example C72_probability_nonvacuous : let lines := [$"VAR a = d2"; $"a * a + d2"] in
  exists n e rest d de dx, rest <> [] /\ reads e = [] /\ good_program ((Some n, e) :: rest) /\ rollable ((Some n, e) :: rest) /\ used_once_or_uniform ((Some n, e) :: rest) /\
  program_text lines ((Some n, e) :: rest) /\
  reports rt_fwd (empty_state rt_fwd) lines d /\ alone rt_fwd e de /\ (forall x, listed rt_fwd de x -> case rt_fwd [] n rest x (dx x)) /\
  (probability rt_fwd d 2 == 1 # 4)%Q /\ (probability rt_fwd de 1 == 1 # 2)%Q /\ (probability rt_fwd (dx 1%Z) 2 == 1 # 2)%Q /\ (probability rt_fwd (dx 2%Z) 2 == 0)%Q.
Proof.
  intros lines.
  assert (T : program_text lines ltac:(let p := eval vm_compute in (program_of lines) in match p with Some ?p => exact p end)) by (apply program_of_text; vm_compute; reflexivity).
  destruct (shown_reports rt_fwd (empty_state rt_fwd) lines [(2, 1); (3, 1); (5, 1); (6, 1)] ltac:(vm_compute; reflexivity)) as [d [H1 H2]].
  destruct (shown_reports rt_fwd (empty_state rt_fwd) [$"d2"] [(1, 1); (2, 1)] ltac:(vm_compute; reflexivity)) as [de [H3 H4]].
  destruct (shown_reports rt_fwd (empty_state rt_fwd) [$"VAR a = 1"; $"a * a + d2"] [(2, 1); (3, 1)] ltac:(vm_compute; reflexivity)) as [d1 [H5 H6]].
  destruct (shown_reports rt_fwd (empty_state rt_fwd) [$"VAR a = 2"; $"a * a + d2"] [(5, 1); (6, 1)] ltac:(vm_compute; reflexivity)) as [d2 [H7 H8]].
  match type of T with program_text _ ((Some ?n, ?e) :: ?rest) => assert (U : uniform e); [|exists n, e, rest, d, de, (fun x => if x =? 1 then d1 else d2)] end.
  { exists 1. split; [lia|]. intros env x. change (joint faces env _) with [Some 1; Some 2]. unfold occurrences. cbn [filter].
    destruct (1 =? x) eqn:E1, (2 =? x) eqn:E2; auto; rewrite ?Z.eqb_eq in *; lia. }
  split; [discriminate|]. split; [reflexivity|]. split; [exact (checked_good _ _ T ltac:(vm_compute; reflexivity))|]. split; [apply rollableb_iff; vm_compute; reflexivity|].
  split; [split; [right; exact U | exact Logic.I]|]. split; [exact T|].
  split; [exact H1|]. split; [exists $"d2", (empty_state rt_fwd); split; [vm_compute; reflexivity|]; split; [apply af_now | exact H3]|]. split.
  - intros x I. unfold listed in I. rewrite H4 in I. cbn in I. destruct I as [<-|[<-|[]]].
    + exists [$"VAR a = 1"; $"a * a + d2"], (empty_state rt_fwd). split; [|split; [apply af_now | exact H5]]. exists $"1". split; [reflexivity|]. apply program_of_text; vm_compute; reflexivity.
    + exists [$"VAR a = 2"; $"a * a + d2"], (empty_state rt_fwd). split; [|split; [apply af_now | exact H7]]. exists $"2". split; [reflexivity|]. apply program_of_text; vm_compute; reflexivity.
  - change (1 =? 1) with true. change (2 =? 1) with false. cbv iota. unfold probability, total_ways, reported. rewrite H2, H4, H6, H8. repeat split; vm_compute; reflexivity.
Qed.

(** Rolls: the values of [a] have different weights, and one of them leads to an exception *)
Example C72_roll_nonvacuous : let lines := [$"VAR a = d[0,1*2]"; $"d2 // a"] in let s := empty_state rt_fwd in
  exists n e rest lx, rest <> [] /\ reads e = [] /\ runnable ((Some n, e) :: rest) /\ drawable ((Some n, e) :: rest) /\ program_text lines ((Some n, e) :: rest) /\ parse $"d[0,1*2]" = Ok e /\
  (forall x, can_roll rt_fwd s [$"d[0,1*2]"] x -> case_lines [] n rest x (lx x)) /\ map (roll_weight rt_fwd s lines) [1; 2] = [2; 2] /\
  map (roll_weight rt_fwd s [$"d[0,1*2]"]) [0; 1] = [1; 2] /\ map (roll_weight rt_fwd s (lx 1)) [1; 2] = [1; 1].
Proof.
  intros lines s.
  assert (T : program_text lines ltac:(let p := eval vm_compute in (program_of lines) in match p with Some ?p => exact p end)) by (apply program_of_text; vm_compute; reflexivity).
  assert (G := checked_good _ _ T ltac:(vm_compute; reflexivity)). assert (T' : program_text [$"d[0,1*2]"] ltac:(let p := eval vm_compute in (program_of [$"d[0,1*2]"]) in match p with Some ?p => exact p end)) by (apply program_of_text; vm_compute; reflexivity).
  match type of T with program_text _ ((Some ?n, ?e) :: ?rest) => exists n, e, rest, (fun x => if x =? 0 then [$"VAR a = 0"; $"d2 // a"] else [$"VAR a = 1"; $"d2 // a"]); assert (D : drawable [(None, e)]) by (apply drawableb_iff; vm_compute; reflexivity) end.
  split; [discriminate|]. split; [reflexivity|]. split; [apply RollProofs.good_runnable; exact G|]. split; [apply drawableb_iff; vm_compute; reflexivity|]. split; [exact T|]. split; [vm_compute; reflexivity|].
  split; [|repeat split; vm_compute; reflexivity].
  intros x I. apply (RollProofs.roll_semantics rt_fwd s _ _ T' (RollProofs.good_runnable _ (checked_good _ _ T' ltac:(vm_compute; reflexivity))) D) in I. cbn in I.
  destruct I as [I|[I|[I|[]]]]; injection I as <-; [exists $"0" | exists $"1" | exists $"1"]; (split; [reflexivity|]); apply program_of_text; vm_compute; reflexivity.
Qed.
