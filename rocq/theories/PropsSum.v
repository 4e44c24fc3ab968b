(** * Property C73: the probabilities shown add up to 1, up to rounding *)
From Coq Require Import QArith Qabs Floats.SpecFloat.
From Verif Require Import Py PyFloat Constraint Distribution DiceModel Expr Parser Interp Instances SpecDice SpecProgram SpecInterp SpecAlgebra SpecProb SpecSum
  Checks CheckCalls SumProofs.
Local Open Scope Z_scope.

(** ** C73 The exact sum of the n floats of get_dict_form() differs from 1 by at most n * 2^-54 *)
Theorem C73_total : forall (R : Runtime) (d : dist R) m, obtainable R d -> get_dict_form R d = Ok m -> m <> [] ->
  (Qabs (shown_sum (fun _ => 1%Z) m - 1) <= inject_Z (Z.of_nat (length m)) * 2 ^ (-54))%Q.
Proof. exact shown_total. Qed.
Print Assumptions C73_total.

Theorem C73_interpreter : forall (R : Runtime) lines s s' shown n m, reachable R s ->
  get_probability_distributions_dict R lines s = (s', Ok shown) -> In (n, m) shown -> m <> [] ->
  (Qabs (shown_sum (fun _ => 1%Z) m - 1) <= inject_Z (Z.of_nat (length m)) * 2 ^ (-54))%Q.
Proof. exact shown_total_call. Qed.
Print Assumptions C73_interpreter.

(** The results weighted by the probabilities shown add up to the mean *)
Theorem C73_mean : forall (R : Runtime) (d : dist R) m, obtainable R d -> get_dict_form R d = Ok m -> m <> [] ->
  (Qabs (shown_sum (fun v => v) m - mean R d) <= rounding_of_sum (fun v => v) m)%Q.
Proof. exact shown_mean. Qed.
Print Assumptions C73_mean.

(** at_least() and at_most() agree with the sums of the probabilities shown, and with each other *)
Theorem C73_at_least : forall (R : Runtime) (d : dist R) m t lo hi v f, obtainable R d -> get_dict_form R d = Ok m ->
  at_least R d = Ok t -> extremes R d lo hi -> In (v, f) t ->
  exists y, fvalue f = Some y /\
    (Qabs (y - shown_sum (counted (fun w => v <=? w)%Z) m) <= inject_Z (v - lo) * 2 ^ (-50) + inject_Z (Z.of_nat (length m)) * 2 ^ (-54))%Q.
Proof. exact at_least_sums. Qed.
Print Assumptions C73_at_least.

Theorem C73_at_most : forall (R : Runtime) (d : dist R) m t lo hi v f, obtainable R d -> get_dict_form R d = Ok m ->
  at_most R d = Ok t -> extremes R d lo hi -> In (v, f) t ->
  exists y, fvalue f = Some y /\
    (Qabs (y - shown_sum (counted (fun w => w <=? v)%Z) m) <= inject_Z (v - lo + 1) * 2 ^ (-50) + inject_Z (Z.of_nat (length m)) * 2 ^ (-54))%Q.
Proof. exact at_most_sums. Qed.
Print Assumptions C73_at_most.

Theorem C73_complement : forall (R : Runtime) (d : dist R) t t' lo hi v f f', obtainable R d ->
  at_least R d = Ok t -> at_most R d = Ok t' -> extremes R d lo hi -> In (v, f) t -> In (v - 1, f') t' ->
  exists y y', fvalue f = Some y /\ fvalue f' = Some y' /\ (Qabs (y + y' - 1) <= inject_Z (2 * (v - lo)) * 2 ^ (-50))%Q.
Proof. exact tables_complement. Qed.
Print Assumptions C73_complement.

(** two thirds and a third, both rounded down: the sum falls short of 1, by less than 2 * 2^-54 *)
Example C73_nonvacuous : exists (d : dist rt_fwd) m t t', obtainable rt_fwd d /\ get_dict_form rt_fwd d = Ok m /\ m <> [] /\
  (shown_sum (fun _ => 1%Z) m < 1)%Q /\ at_least rt_fwd d = Ok t /\ at_most rt_fwd d = Ok t' /\ extremes rt_fwd d 1 3 /\
  In (3, S754_finite false 6004799503160662 (-54)) t /\ In (2, S754_finite false 6004799503160661 (-53)) t'.
Proof.
  destruct (seen _ _ (fun d => (get_dict_form rt_fwd d, at_least rt_fwd d, at_most rt_fwd d, map fst (get_result_map rt_fwd d)))
    (dist_at rt_fwd (empty_state rt_fwd) [$"d[1*2,3]"] stdout) _ ltac:(vm_compute; reflexivity)) as [d [H V]].
  injection V as V1 V2 V3 V4. eexists d, _, _, _. split; [|split; [exact V1|]].
  - eapply reports_obtainable; [apply af_now | apply dist_at_reports; exact H].
  - split; [discriminate|]. split; [vm_compute; reflexivity|]. split; [exact V2|]. split; [exact V3|].
    split; [|split; cbn [In]; auto]. unfold extremes, listed. rewrite V4. cbn [In]. split; [auto|]. split; [auto|]. intros v I. lia.
Qed.

Example C73_nonvacuous_interpreter : exists s' shown m, get_probability_distributions_dict rt_fwd [$"VAR a = d[1*2,3]"; $"2"] (empty_state rt_fwd) = (s', Ok shown) /\
  reachable rt_fwd (empty_state rt_fwd) /\ In ($"a", m) shown /\ m <> [].
Proof.
  assert (E : snd (get_probability_distributions_dict rt_fwd [$"VAR a = d[1*2,3]"; $"2"] (empty_state rt_fwd)) =
    Ok [($"a", [(1, S754_finite false 6004799503160661 (-53)); (3, S754_finite false 6004799503160661 (-54))]); ($"stdout", [(2, fone)])]) by (vm_compute; reflexivity).
  destruct (get_probability_distributions_dict rt_fwd [$"VAR a = d[1*2,3]"; $"2"] (empty_state rt_fwd)) as [s' r]. cbn [snd] in E. subst r.
  eexists s', _, _. split; [reflexivity|]. split; [apply af_now|]. split; [left; reflexivity | discriminate].
Qed.
