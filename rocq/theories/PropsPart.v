(** * Property C74: calculating with the result of a part of the last line *)
From Coq Require Import QArith.
From Verif Require Import Py PyFloat Constraint Distribution DiceModel Expr Parser Interp Instances SpecDice SpecProgram SpecRoll SpecInterp SpecAlgebra SpecProb SpecFormula SpecCases
  Checks PartProofs.
Local Open Scope Z_scope.

(** [f] is an expression, with any dice, in which the variable [n] stands once and no other variable.  A program whose last line is [f] with the expression [e] for
    the variable is compared with the one whose last line is [e], with result [d], and for each value [x] of it with the program [VAR n = x], [f], with result [dx x].
    The number of ways of a result is the sum over the values of [e] ... *)
Theorem C74_ways : forall (R : Runtime) before e n f s s' lines lines' d d' (dx : Z -> dist R), good_program (before ++ [(None, e)]) -> simple f -> reads f = [n] -> var_name n ->
  program_text lines (before ++ [(None, e)]) -> program_text lines' (before ++ [(None, fill (fun _ => e) f)]) ->
  reachable R s -> reachable R s' -> reports R s lines d -> reports R s' lines' d' -> (forall x, listed R d x -> case R [] n [(None, f)] x (dx x)) ->
  forall w, reported R d' w = zsum (map (fun xc => snd xc * reported R (dx (fst xc)) w) (get_result_map R d)).
Proof. exact part_ways. Qed.
Print Assumptions C74_ways.

(** ... and the probabilities and means are the averages of those in the cases, however often variables are used in [e] *)
Theorem C74_probability : forall (R : Runtime) before e n f s s' lines lines' d d' (dx : Z -> dist R), good_program (before ++ [(None, e)]) -> simple f -> reads f = [n] -> var_name n ->
  sided (before ++ [(None, e)]) -> sided [(None, f)] ->
  program_text lines (before ++ [(None, e)]) -> program_text lines' (before ++ [(None, fill (fun _ => e) f)]) ->
  reachable R s -> reachable R s' -> reports R s lines d -> reports R s' lines' d' -> (forall x, listed R d x -> case R [] n [(None, f)] x (dx x)) ->
  let average h := qtotal (map (fun x => probability R d x * h (dx x))%Q (map fst (get_result_map R d))) in
  (forall v, (probability R d' v == average (fun d => probability R d v))%Q) /\ (forall v, (probability_at_least R d' v == average (fun d => probability_at_least R d v))%Q) /\
  (mean R d' == average (mean R))%Q.
Proof. exact part_probability. Qed.
Print Assumptions C74_probability.

Theorem C74_values : forall (R : Runtime) before e n f s s' lines lines' d d' (dx : Z -> dist R), good_program (before ++ [(None, e)]) -> simple f -> reads f = [n] -> var_name n ->
  sided (before ++ [(None, e)]) -> sided [(None, f)] ->
  program_text lines (before ++ [(None, e)]) -> program_text lines' (before ++ [(None, fill (fun _ => e) f)]) ->
  reachable R s -> reachable R s' -> reports R s lines d -> reports R s' lines' d' -> (forall x, listed R d x -> case R [] n [(None, f)] x (dx x)) ->
  forall v, listed R d' v <-> exists x, listed R d x /\ listed R (dx x) v.
Proof. exact part_values. Qed.
Print Assumptions C74_values.

(** It raises what [e] raises, and otherwise what [f] raises for one of the values of [e] *)
Theorem C74_errors : forall (R : Runtime) before e n f s s' sx lines lines' (lx : Z -> list text) y, good_program (before ++ [(None, e)]) -> simple f -> reads f = [n] -> var_name n ->
  sided (before ++ [(None, e)]) -> sided [(None, f)] ->
  program_text lines (before ++ [(None, e)]) -> program_text lines' (before ++ [(None, fill (fun _ => e) f)]) -> reachable R s -> reachable R s' -> reachable R sx ->
  (distribution_raises R s lines y -> distribution_raises R s' lines' y) /\
  (forall d, reports R s lines d -> (forall x, listed R d x -> case_lines [] n [(None, f)] x (lx x)) ->
    (distribution_raises R s' lines' y <-> exists x, listed R d x /\ distribution_raises R sx (lx x) y)).
Proof. exact part_raises. Qed.
Print Assumptions C74_errors.

(** The same for roll() *)
Theorem C74_roll : forall (R : Runtime) before e n f s s' sx lines lines' (lx : Z -> list text), runnable (before ++ [(None, e)]) -> well_formed f -> no_assignment f -> reads f = [n] -> var_name n ->
  drawable (before ++ [(None, e)]) -> drawable [(None, f)] ->
  program_text lines (before ++ [(None, e)]) -> program_text lines' (before ++ [(None, fill (fun _ => e) f)]) -> (forall x, can_roll R s lines x -> case_lines [] n [(None, f)] x (lx x)) ->
  (forall v, can_roll R s' lines' v <-> exists x, can_roll R s lines x /\ can_roll R sx (lx x) v) /\
  (forall y, can_raise R s' lines' y <-> can_raise R s lines y \/ exists x, can_roll R s lines x /\ can_raise R sx (lx x) y) /\
  (forall xs, NoDup xs -> (forall x, In x xs <-> can_roll R s lines x) ->
    forall v, roll_weight R s' lines' v = zsum (map (fun x => roll_weight R s lines x * roll_weight R sx (lx x) v) xs)).
Proof. exact part_rolls. Qed.
Print Assumptions C74_roll.

(** A sum of a variable with itself, times a die *)
Example C74_nonvacuous : let lines := [$"VAR a = d[1*2,2]"; $"(a + a)"] in let lines' := [$"VAR a = d[1*2,2]"; $"(a + a) * d2"] in let s := empty_state rt_fwd in
  exists before e n f d d' dx, good_program (before ++ [(None, e)]) /\ simple f /\ reads f = [n] /\ var_name n /\ sided (before ++ [(None, e)]) /\ sided [(None, f)] /\
  program_text lines (before ++ [(None, e)]) /\ program_text lines' (before ++ [(None, fill (fun _ => e) f)]) /\ reports rt_fwd s lines d /\ reports rt_fwd s lines' d' /\
  (forall x, listed rt_fwd d x -> case rt_fwd [] n [(None, f)] x (dx x)) /\ get_result_map rt_fwd d = [(2, 4); (4, 1)] /\ get_result_map rt_fwd d' = [(2, 4); (4, 5); (8, 1)] /\
  get_result_map rt_fwd (dx 2) = [(2, 1); (4, 1)] /\ get_result_map rt_fwd (dx 4) = [(4, 1); (8, 1)].
Proof.
  intros lines lines' s.
  assert (T : program_text lines ltac:(let p := eval vm_compute in (program_of lines) in match p with Some ?p => exact p end)) by (apply program_of_text; vm_compute; reflexivity).
  assert (T' : program_text lines' ltac:(let p := eval vm_compute in (program_of lines') in match p with Some ?p => exact p end)) by (apply program_of_text; vm_compute; reflexivity).
  assert (T2 : program_text [$"VAR x = 2"; $"x * d2"] ltac:(let p := eval vm_compute in (program_of [$"VAR x = 2"; $"x * d2"]) in match p with Some ?p => exact p end)) by (apply program_of_text; vm_compute; reflexivity).
  assert (T4 : program_text [$"VAR x = 4"; $"x * d2"] ltac:(let p := eval vm_compute in (program_of [$"VAR x = 4"; $"x * d2"]) in match p with Some ?p => exact p end)) by (apply program_of_text; vm_compute; reflexivity).
  assert (G := checked_good _ _ T ltac:(vm_compute; reflexivity)). assert (G2 := checked_good _ _ T2 ltac:(vm_compute; reflexivity)).
  destruct (shown_reports rt_fwd s lines [(2, 4); (4, 1)] ltac:(vm_compute; reflexivity)) as [d [H1 H2]].
  destruct (shown_reports rt_fwd s lines' [(2, 4); (4, 5); (8, 1)] ltac:(vm_compute; reflexivity)) as [d' [H3 H4]].
  destruct (shown_reports rt_fwd s [$"VAR x = 2"; $"x * d2"] [(2, 1); (4, 1)] ltac:(vm_compute; reflexivity)) as [d2 [H5 H6]].
  destruct (shown_reports rt_fwd s [$"VAR x = 4"; $"x * d2"] [(4, 1); (8, 1)] ltac:(vm_compute; reflexivity)) as [d4 [H7 H8]].
  match type of T with program_text _ [?b; (_, ?e)] => match type of T2 with program_text _ [(Some ?n, _); (_, ?f)] => exists [b], e, n, f, d, d', (fun x => if x =? 2 then d2 else d4) end end.
  split; [exact G|]. split; [exact (proj1 (proj2 (proj2 G2) None _ (or_intror (or_introl eq_refl))))|]. split; [reflexivity|].
  split; [exact (proj2 (proj2 (proj2 G2) (Some _) _ (or_introl eq_refl)))|]. split; [apply ProgramProofs.rollable_sided, rollableb_iff; vm_compute; reflexivity|].
  split; [apply ProgramProofs.rollable_sided, rollableb_iff; vm_compute; reflexivity|]. split; [exact T|]. split; [exact T'|]. split; [exact H1|]. split; [exact H3|].
  split; [|repeat split; [exact H2 | exact H4 | exact H6 | exact H8]].
  intros x I. unfold listed in I. rewrite H2 in I. cbn in I. destruct I as [<-|[<-|[]]].
  - exists [$"VAR x = 2"; $"x * d2"], s. split; [|split; [apply af_now | exact H5]]. exists $"2". split; [reflexivity | exact T2].
  - exists [$"VAR x = 4"; $"x * d2"], s. split; [|split; [apply af_now | exact H7]]. exists $"4". split; [reflexivity | exact T4].
Qed.

(** One value of the part leads to an exception; the program without it reports a distribution *)
Example C74_errors_nonvacuous : let lines := [$"d[0,1*2]"] in let lines' := [$"d2 // d[0,1*2]"] in let s := empty_state rt_fwd in
  exists e n f d lx, good_program ([] ++ [(None, e)]) /\ simple f /\ reads f = [n] /\ var_name n /\ drawable ([] ++ [(None, e)]) /\ drawable [(None, f)] /\
  program_text lines ([] ++ [(None, e)]) /\ program_text lines' ([] ++ [(None, fill (fun _ => e) f)]) /\ reports rt_fwd s lines d /\ listed rt_fwd d 0 /\
  (forall x, listed rt_fwd d x -> case_lines [] n [(None, f)] x (lx x)) /\ (forall x, can_roll rt_fwd s lines x -> case_lines [] n [(None, f)] x (lx x)) /\
  distribution_raises rt_fwd s (lx 0) ZeroDivisionError /\ distribution_raises rt_fwd s lines' ZeroDivisionError /\
  map (roll_weight rt_fwd s lines') [1; 2] = [2; 2] /\ map (roll_weight rt_fwd s lines) [0; 1] = [1; 2] /\ map (roll_weight rt_fwd s (lx 1)) [1; 2] = [1; 1].
Proof.
  intros lines lines' s.
  assert (T : program_text lines ltac:(let p := eval vm_compute in (program_of lines) in match p with Some ?p => exact p end)) by (apply program_of_text; vm_compute; reflexivity).
  assert (T' : program_text lines' ltac:(let p := eval vm_compute in (program_of lines') in match p with Some ?p => exact p end)) by (apply program_of_text; vm_compute; reflexivity).
  assert (T0 : program_text [$"VAR x = 0"; $"d2 // x"] ltac:(let p := eval vm_compute in (program_of [$"VAR x = 0"; $"d2 // x"]) in match p with Some ?p => exact p end)) by (apply program_of_text; vm_compute; reflexivity).
  assert (T1 : program_text [$"VAR x = 1"; $"d2 // x"] ltac:(let p := eval vm_compute in (program_of [$"VAR x = 1"; $"d2 // x"]) in match p with Some ?p => exact p end)) by (apply program_of_text; vm_compute; reflexivity).
  assert (G := checked_good _ _ T ltac:(vm_compute; reflexivity)). assert (G1 := checked_good _ _ T1 ltac:(vm_compute; reflexivity)).
  destruct (shown_reports rt_fwd s lines [(0, 1); (1, 2)] ltac:(vm_compute; reflexivity)) as [d [H1 H2]].
  match type of T with program_text _ [(_, ?e)] => match type of T1 with program_text _ [(Some ?n, _); (_, ?f)] =>
    exists e, n, f, d, (fun x => if x =? 0 then [$"VAR x = 0"; $"d2 // x"] else [$"VAR x = 1"; $"d2 // x"]); assert (D : drawable [(None, e)]) by (apply drawableb_iff; vm_compute; reflexivity) end end.
  split; [exact G|]. split; [exact (proj1 (proj2 (proj2 G1) None _ (or_intror (or_introl eq_refl))))|]. split; [reflexivity|].
  split; [exact (proj2 (proj2 (proj2 G1) (Some _) _ (or_introl eq_refl)))|]. split; [exact D|].
  split; [apply drawableb_iff; vm_compute; reflexivity|]. split; [exact T|]. split; [exact T'|]. split; [exact H1|]. split; [unfold listed; rewrite H2; now left|].
  split; [|split; [|split; [apply raised_iff; vm_compute; reflexivity|]; split; [apply raised_iff; vm_compute; reflexivity|]; repeat split; vm_compute; reflexivity]].
  - intros x I. unfold listed in I. rewrite H2 in I. cbn in I. destruct I as [<-|[<-|[]]]; [exists $"0"; split; [reflexivity | exact T0] | exists $"1"; split; [reflexivity | exact T1]].
  - intros x I. apply (RollProofs.roll_semantics rt_fwd s _ _ T (RollProofs.good_runnable _ G) D) in I. cbn in I.
    destruct I as [I|[I|[I|[]]]]; injection I as <-; [exists $"0"; split; [reflexivity | exact T0] | exists $"1"; split; [reflexivity | exact T1] | exists $"1"; split; [reflexivity | exact T1]].
Qed.
