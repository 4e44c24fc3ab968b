(** * Property C82: the average is the sum of the values of at_least() *)
From Coq Require Import QArith Qabs Lqa Floats.SpecFloat.
From Verif Require Import Py PyFloat Constraint Distribution DiceModel Expr Parser Interp Instances SpecDice SpecProgram SpecInterp SpecAlgebra SpecCalls SpecProb SpecCases SpecSum SpecSame
  Checks CheckCalls TailProofs.
Local Open Scope Z_scope.

(** When all results lie between [lo] and [lo] + [n], the mean is [lo] and the probabilities of at least [lo] + 1, ..., [lo] + [n], *)
Theorem C82_at_least : forall (R : Runtime) (d : dist R) lo n, total_ways R d <> 0 -> (forall v, listed R d v -> lo <= v <= lo + Z.of_nat n) ->
  (mean R d == inject_Z lo + qtotal (map (probability_at_least R d) (consecutive (lo + 1) n)))%Q.
Proof. exact mean_at_least. Qed.
Print Assumptions C82_at_least.

(** or [lo] + [n] less the probabilities of at most [lo], ..., [lo] + [n] - 1. *)
Theorem C82_at_most : forall (R : Runtime) (d : dist R) lo n, total_ways R d <> 0 -> (forall v, listed R d v -> lo <= v <= lo + Z.of_nat n) ->
  (mean R d == inject_Z (lo + Z.of_nat n) - qtotal (map (probability_at_most R d) (consecutive lo n)))%Q.
Proof. exact mean_at_most. Qed.
Print Assumptions C82_at_most.

(** The tables that at_least() and at_most() return show this, up to the rounding of their entries *)
Theorem C82_at_least_table : forall (R : Runtime) (d : dist R) m lo hi, obtainable R d -> at_least R d = Ok m -> extremes R d lo hi ->
  (Qabs (shown_sum (fun _ => 1%Z) m - (mean R d - inject_Z lo + 1)) <= inject_Z (zsum (map (fun q => fst q - lo)%Z m)) * 2 ^ (-50))%Q.
Proof. exact at_least_total. Qed.
Print Assumptions C82_at_least_table.

Theorem C82_at_most_table : forall (R : Runtime) (d : dist R) m lo hi, obtainable R d -> at_most R d = Ok m -> extremes R d lo hi ->
  (Qabs (shown_sum (fun _ => 1%Z) m - (inject_Z hi + 1 - mean R d)) <= inject_Z (zsum (map (fun q => fst q - lo + 1)%Z m)) * 2 ^ (-50))%Q.
Proof. exact at_most_total. Qed.
Print Assumptions C82_at_most_table.

(** So do the bars of the histograms, with the mean marked by a line *)
Theorem C82_at_least_plotted : forall (R : Runtime) lines s s' h, reachable R s -> lines <> [] -> ~ mentions_name lines stdout -> get_at_least_histogram R lines s = (s', Ok h) ->
  exists d lo hi, reports R s lines d /\ extremes R d lo hi /\ marks_mean R d h /\
    (Qabs (shown_sum (fun _ => 1%Z) (h_points h) - (mean R d - inject_Z lo + 1)) <= inject_Z (zsum (map (fun q => fst q - lo)%Z (h_points h))) * 2 ^ (-50))%Q.
Proof. exact at_least_bars. Qed.
Print Assumptions C82_at_least_plotted.

Theorem C82_at_most_plotted : forall (R : Runtime) lines s s' h, reachable R s -> lines <> [] -> ~ mentions_name lines stdout -> get_at_most_histogram R lines s = (s', Ok h) ->
  exists d lo hi, reports R s lines d /\ extremes R d lo hi /\ marks_mean R d h /\
    (Qabs (shown_sum (fun _ => 1%Z) (h_points h) - (inject_Z hi + 1 - mean R d)) <= inject_Z (zsum (map (fun q => fst q - lo + 1)%Z (h_points h))) * 2 ^ (-50))%Q.
Proof. exact at_most_bars. Qed.
Print Assumptions C82_at_most_plotted.

(** A distribution that reaches every number at least as likely as another has an average() that is at least as large *)
Theorem C82_order : forall (R : Runtime) (d d' : dist R) f f', obtainable R d -> obtainable R d' -> d_average R d = Ok f -> d_average R d' = Ok f' ->
  total_ways R d <> 0 -> total_ways R d' <> 0 -> (forall k, (probability_at_least R d k <= probability_at_least R d' k)%Q) ->
  exists x x', fvalue f = Some x /\ fvalue f' = Some x' /\ (x <= x')%Q.
Proof. exact tails_average. Qed.
Print Assumptions C82_order.

(** A die with the sides 1, 1, 3 and a die with the sides 1, 3; for the first, the mean is 5/3 = 1 + 1/3 + 1/3 *)
Example C82_nonvacuous : exists (d d' : dist rt_fwd) t t' f f', obtainable rt_fwd d /\ obtainable rt_fwd d' /\ at_least rt_fwd d = Ok t /\ at_most rt_fwd d = Ok t' /\
  extremes rt_fwd d 1 3 /\ (mean rt_fwd d == 5 # 3)%Q /\ total_ways rt_fwd d <> 0 /\ total_ways rt_fwd d' <> 0 /\ d_average rt_fwd d = Ok f /\ d_average rt_fwd d' = Ok f' /\
  forall k, (probability_at_least rt_fwd d k <= probability_at_least rt_fwd d' k)%Q.
Proof.
  destruct (seen _ _ (fun d => (at_least rt_fwd d, at_most rt_fwd d, get_result_map rt_fwd d, d_average rt_fwd d))
    (dist_at rt_fwd (empty_state rt_fwd) [$"d[1*2,3]"] stdout) _ ltac:(vm_compute; reflexivity)) as [d [H V]].
  destruct (seen _ _ (fun d => (get_result_map rt_fwd d, d_average rt_fwd d))
    (dist_at rt_fwd (empty_state rt_fwd) [$"d[1,3]"] stdout) _ ltac:(vm_compute; reflexivity)) as [d' [H' V']].
  injection V as V1 V2 V3 V4. injection V' as W1 W2. eexists d, d', _, _, _, _.
  split; [eapply reports_obtainable; [apply af_now | apply dist_at_reports; exact H]|]. split; [eapply reports_obtainable; [apply af_now | apply dist_at_reports; exact H']|].
  split; [exact V1|]. split; [exact V2|].
  split. { unfold extremes, listed. rewrite V3. cbn [map fst In]. split; [auto|]. split; [auto|]. intros v I. lia. }
  split. { unfold mean, sum_of_results, total_ways. rewrite V3. reflexivity. }
  split. { unfold total_ways. rewrite V3. discriminate. }
  split. { unfold total_ways. rewrite W1. discriminate. }
  split; [exact V4|]. split; [exact W2|].
  intros k. unfold probability_at_least, ways_where, total_ways. rewrite V3, W1. cbn [filter fst].
  destruct (k <=? 1) eqn:A; destruct (k <=? 3) eqn:B; try lia; vm_compute; discriminate.
Qed.

Example C82_plotted_nonvacuous : let lines := [$"d[1*2,3]"] in ~ mentions_name lines stdout /\
  rmap h_points (snd (get_at_least_histogram rt_fwd lines (empty_state rt_fwd))) =
    Ok [(1, fone); (2, S754_finite false 6004799503160662 (-54)); (3, S754_finite false 6004799503160662 (-54))] /\
  rmap h_points (snd (get_at_most_histogram rt_fwd lines (empty_state rt_fwd))) =
    Ok [(1, S754_finite false 6004799503160661 (-53)); (2, S754_finite false 6004799503160661 (-53)); (3, fone)].
Proof.
  intros lines. split; [intros M; apply reads_list_iff in M; vm_compute in M; exact M|]. split; vm_compute; reflexivity.
Qed.
