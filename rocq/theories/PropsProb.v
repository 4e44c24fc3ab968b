(** * Properties C18, C19, C21, C22, C23, C24, C51 and C52: probabilities, means and plots as floats *)
From Coq Require Import QArith Qabs Sorted Floats.SpecFloat.
From Verif Require Import Py PyFloat Constraint Distribution DiceModel Expr Parser Interp Instances SpecDice SpecProgram SpecInterp SpecAlgebra SpecCalls SpecProb
  Checks CheckCalls ProbProofs FigureProofs PlotProofs.
Local Open Scope Z_scope.

(** ** C18 get_dict_form() shows the floats nearest to the exact probabilities *)
Theorem C18_nearest : forall (R : Runtime) (d : dist R) m, obtainable R d -> get_dict_form R d = Ok m -> shows_probabilities R d m.
Proof. exact dict_nearest. Qed.
Print Assumptions C18_nearest.

Theorem C18_raises : forall (R : Runtime) (d : dist R) x, obtainable R d ->
  (get_dict_form R d = Raise x <-> x = ZeroDivisionError /\ no_ways R d).
Proof. exact dict_raises. Qed.
Print Assumptions C18_raises.

Theorem C18_interpreter : forall (R : Runtime) lines s s' shown, reachable R s -> get_probability_distributions_dict R lines s = (s', Ok shown) ->
  exists ds, get_probability_distributions R lines s = (s', Ok ds) /\
    Forall2 (fun nd nm => fst nd = fst nm /\ shows_probabilities R (snd nd) (snd nm)) ds shown.
Proof. exact dict_call. Qed.
Print Assumptions C18_interpreter.

Theorem C18_interpreter_raises : forall (R : Runtime) lines s x, reachable R s -> snd (get_probability_distributions_dict R lines s) = Raise x ->
  distribution_raises R s lines x \/
  (x = ZeroDivisionError /\ exists s' ds n d, get_probability_distributions R lines s = (s', Ok ds) /\ In (n, d) ds /\ no_ways R d).
Proof. exact dict_call_raises. Qed.
Print Assumptions C18_interpreter_raises.

(** two thirds and a third, rounded down; a die without ways *)
Example C18_nonvacuous : (exists d : dist rt_fwd, obtainable rt_fwd d /\
    get_dict_form rt_fwd d = Ok [(1, S754_finite false 6004799503160661 (-53)); (3, S754_finite false 6004799503160661 (-54))]) /\
  (exists d : dist rt_fwd, obtainable rt_fwd d /\ get_dict_form rt_fwd d = Raise ZeroDivisionError) /\
  snd (get_probability_distributions_dict rt_fwd [$"VAR a = d[1*2,3]"; $"2"] (empty_state rt_fwd)) =
    Ok [($"a", [(1, S754_finite false 6004799503160661 (-53)); (3, S754_finite false 6004799503160661 (-54))]); ($"stdout", [(2, fone)])].
Proof.
  split; [|split].
  - destruct (seen _ _ (get_dict_form rt_fwd) (dist_at rt_fwd (empty_state rt_fwd) [$"d[1*2,3]"] stdout) _ ltac:(vm_compute; reflexivity)) as [d [H V]].
    exists d. split; [|exact V]. eapply reports_obtainable; [apply af_now | apply dist_at_reports; exact H].
  - destruct (seen _ _ (get_dict_form rt_fwd) (dist_at rt_fwd (empty_state rt_fwd) [$"d[1*0]"] stdout) _ ltac:(vm_compute; reflexivity)) as [d [H V]].
    exists d. split; [|exact V]. eapply reports_obtainable; [apply af_now | apply dist_at_reports; exact H].
  - vm_compute. reflexivity.
Qed.

(** ** C19 average() is the float nearest to the mean: false for means beyond the largest float *)
Theorem C19_overflow_refuted : exists d : dist rt_fwd, obtainable rt_fwd d /\ total_ways rt_fwd d = 1 /\ d_average rt_fwd d = Raise OverflowError.
Proof.
  destruct (seen _ _ (fun d => (total_ways rt_fwd d, d_average rt_fwd d)) (dist_at rt_fwd (empty_state rt_fwd) ["1"%char :: repeat "0"%char 309] stdout) _ ltac:(vm_compute; reflexivity)) as [d [H V]].
  exists d. injection V as V1 V2. split; [|split; [exact V1|exact V2]]. eapply reports_obtainable; [apply af_now | apply dist_at_reports; exact H].
Qed.
Print Assumptions C19_overflow_refuted.

(** What holds: it is the nearest float, and it raises exactly when there are no ways or the mean is too large *)
Theorem C19_nearest_partial : forall (R : Runtime) (d : dist R) f, obtainable R d -> d_average R d = Ok f -> shows_mean R d f.
Proof. exact average_nearest. Qed.
Print Assumptions C19_nearest_partial.

Theorem C19_raises : forall (R : Runtime) (d : dist R) x, obtainable R d ->
  (d_average R d = Raise x <-> (x = ZeroDivisionError /\ total_ways R d = 0) \/ (x = OverflowError /\ total_ways R d <> 0 /\ too_large (mean R d))).
Proof. exact average_raises. Qed.
Print Assumptions C19_raises.

Theorem C19_interpreter : forall (R : Runtime) lines s s' shown, reachable R s -> get_average R lines s = (s', Ok shown) ->
  exists ds, get_probability_distributions R lines s = (s', Ok ds) /\
    Forall2 (fun nd nf => fst nd = fst nf /\ shows_mean R (snd nd) (snd nf)) ds shown.
Proof. exact average_call. Qed.
Print Assumptions C19_interpreter.

Example C19_nonvacuous : (exists d : dist rt_fwd, obtainable rt_fwd d /\ d_average rt_fwd d = Ok (S754_finite false 7505999378950827 (-52))) /\
  (exists d : dist rt_fwd, obtainable rt_fwd d /\ d_average rt_fwd d = Raise ZeroDivisionError) /\
  snd (get_average rt_fwd [$"VAR a = d[1*2,3]"; $"a + 1"] (empty_state rt_fwd)) =
    Ok [($"a", S754_finite false 7505999378950827 (-52)); ($"stdout", S754_finite false 6004799503160661 (-51))].
Proof.
  split; [|split].
  - destruct (seen _ _ (d_average rt_fwd) (dist_at rt_fwd (empty_state rt_fwd) [$"d[1*2,3]"] stdout) _ ltac:(vm_compute; reflexivity)) as [d [H V]].
    exists d. split; [|exact V]. eapply reports_obtainable; [apply af_now | apply dist_at_reports; exact H].
  - destruct (seen _ _ (d_average rt_fwd) (dist_at rt_fwd (empty_state rt_fwd) [$"d[1*0]"] stdout) _ ltac:(vm_compute; reflexivity)) as [d [H V]].
    exists d. split; [|exact V]. eapply reports_obtainable; [apply af_now | apply dist_at_reports; exact H].
  - vm_compute. reflexivity.
Qed.

(** ** C21 at_least() is a survival function *)
Theorem C21_survival : forall (R : Runtime) (d : dist R) m, obtainable R d -> at_least R d = Ok m -> is_survival_function R d m.
Proof. exact at_least_survival. Qed.
Print Assumptions C21_survival.

Theorem C21_raises : forall (R : Runtime) (d : dist R) x, obtainable R d -> (at_least R d = Raise x <-> plot_fails R d x).
Proof. exact at_least_raises. Qed.
Print Assumptions C21_raises.

(** get_at_least_histogram() plots this table, and marks the mean by a line *)
Theorem C21_plotted : forall (R : Runtime) lines s s' h, reachable R s -> lines <> [] -> ~ mentions_name lines stdout ->
  get_at_least_histogram R lines s = (s', Ok h) -> exists d, reports R s lines d /\ is_survival_function R d (h_points h) /\ marks_mean R d h.
Proof. exact at_least_call. Qed.
Print Assumptions C21_plotted.

(** the subtractions leave a little too much *)
Example C21_nonvacuous :
  let m := [(1, fone); (2, S754_finite false 6004799503160662 (-54)); (3, S754_finite false 6004799503160662 (-54))] in
  (exists d : dist rt_fwd, obtainable rt_fwd d /\ at_least rt_fwd d = Ok m) /\
  ~ mentions_name [$"d[1*2,3]"] stdout /\
  rmap (fun h => (h_points h, h_line h)) (snd (get_at_least_histogram rt_fwd [$"d[1*2,3]"] (empty_state rt_fwd))) = Ok (m, Some (S754_finite false 7505999378950827 (-52), f1_1)).
Proof.
  split; [|split].
  - destruct (seen _ _ (at_least rt_fwd) (dist_at rt_fwd (empty_state rt_fwd) [$"d[1*2,3]"] stdout) _ ltac:(vm_compute; reflexivity)) as [d [H V]].
    exists d. split; [|exact V]. eapply reports_obtainable; [apply af_now | apply dist_at_reports; exact H].
  - intros M. apply reads_list_iff in M. vm_compute in M. exact M.
  - vm_compute. reflexivity.
Qed.

(** ** C22 at_most() is a distribution function *)
Theorem C22_distribution : forall (R : Runtime) (d : dist R) m, obtainable R d -> at_most R d = Ok m -> is_distribution_function R d m.
Proof. exact at_most_distribution. Qed.
Print Assumptions C22_distribution.

Theorem C22_raises : forall (R : Runtime) (d : dist R) x, obtainable R d -> (at_most R d = Raise x <-> plot_fails R d x).
Proof. exact at_most_raises. Qed.
Print Assumptions C22_raises.

Theorem C22_plotted : forall (R : Runtime) lines s s' h, reachable R s -> lines <> [] -> ~ mentions_name lines stdout ->
  get_at_most_histogram R lines s = (s', Ok h) -> exists d, reports R s lines d /\ is_distribution_function R d (h_points h) /\ marks_mean R d h.
Proof. exact at_most_call. Qed.
Print Assumptions C22_plotted.

Example C22_nonvacuous :
  let m := [(1, S754_finite false 6004799503160661 (-53)); (2, S754_finite false 6004799503160661 (-53)); (3, fone)] in
  (exists d : dist rt_fwd, obtainable rt_fwd d /\ at_most rt_fwd d = Ok m) /\
  rmap (fun h => (h_points h, h_line h)) (snd (get_at_most_histogram rt_fwd [$"d[1*2,3]"] (empty_state rt_fwd))) = Ok (m, Some (S754_finite false 7505999378950827 (-52), f1_1)).
Proof.
  split.
  - destruct (seen _ _ (at_most rt_fwd) (dist_at rt_fwd (empty_state rt_fwd) [$"d[1*2,3]"] stdout) _ ltac:(vm_compute; reflexivity)) as [d [H V]].
    exists d. split; [|exact V]. eapply reports_obtainable; [apply af_now | apply dist_at_reports; exact H].
  - vm_compute. reflexivity.
Qed.

(** ** C23 A histogram has one bar for each integer from the smallest to the largest result *)
Theorem C23_bars : forall (R : Runtime) (d : dist R) m, obtainable R d -> histogram_data R d = Ok m -> is_histogram R d m.
Proof. exact histogram_bars. Qed.
Print Assumptions C23_bars.

Theorem C23_raises : forall (R : Runtime) (d : dist R) x, obtainable R d -> (histogram_data R d = Raise x <-> plot_fails R d x).
Proof. exact histogram_raises. Qed.
Print Assumptions C23_raises.

Theorem C23_plotted : forall (R : Runtime) lines s s' h, reachable R s -> lines <> [] -> ~ mentions_name lines stdout ->
  get_histogram R lines s = (s', Ok h) -> exists d, reports R s lines d /\ is_histogram R d (h_points h) /\ marks_mean R d h.
Proof. exact histogram_call. Qed.
Print Assumptions C23_plotted.

Example C23_nonvacuous :
  let m := [(1, S754_finite false 6004799503160661 (-53)); (2, fzero); (3, S754_finite false 6004799503160661 (-54))] in
  (exists d : dist rt_fwd, obtainable rt_fwd d /\ histogram_data rt_fwd d = Ok m) /\
  rmap (fun h => (h_points h, h_line h)) (snd (get_histogram rt_fwd [$"d[3,1*2]"] (empty_state rt_fwd))) = Ok (m, Some (S754_finite false 7505999378950827 (-52), S754_finite false 6605279453476728 (-53))).
Proof.
  split.
  - destruct (seen _ _ (histogram_data rt_fwd) (dist_at rt_fwd (empty_state rt_fwd) [$"d[3,1*2]"] stdout) _ ltac:(vm_compute; reflexivity)) as [d [H V]].
    exists d. split; [|exact V]. eapply reports_obtainable; [apply af_now | apply dist_at_reports; exact H].
  - vm_compute. reflexivity.
Qed.

(** ** C24 A comparison shows each result once: false whenever the two ranges overlap *)
Theorem C24_overlap_refuted : exists (d : dist rt_fwd) m, obtainable rt_fwd d /\ compare_histogram_data rt_fwd d d = Ok m /\ ~ shows_each_once rt_fwd d d m.
Proof.
  destruct (seen _ _ (fun d => compare_histogram_data rt_fwd d d) (dist_at rt_fwd (empty_state rt_fwd) [$"d2"] stdout) _ ltac:(vm_compute; reflexivity)) as [d [H V]].
  exists d. eexists. split; [eapply reports_obtainable; [apply af_now | apply dist_at_reports; exact H]|]. split; [exact V|].
  intros [N _]. cbn [map fst] in N. inversion N as [|x l I]. apply I. now left.
Qed.
Print Assumptions C24_overlap_refuted.

(** What holds: the weights, and how often each integer is shown *)
Theorem C24_comparison_partial : forall (R : Runtime) (a b : dist R) m, obtainable R a -> obtainable R b -> compare_histogram_data R a b = Ok m -> is_comparison R a b m.
Proof. exact compare_bars. Qed.
Print Assumptions C24_comparison_partial.

Theorem C24_apart : forall (R : Runtime) (a b : dist R) m lo hi lo' hi', obtainable R a -> obtainable R b -> compare_histogram_data R a b = Ok m ->
  extremes R a lo hi -> extremes R b lo' hi' -> (shows_each_once R a b m <-> hi < lo' \/ hi' < lo).
Proof. exact compare_apart. Qed.
Print Assumptions C24_apart.

Theorem C24_raises : forall (R : Runtime) (a b : dist R) x, obtainable R a -> obtainable R b ->
  (compare_histogram_data R a b = Raise x <-> plot_fails R a x \/ ((forall y, ~ plot_fails R a y) /\ plot_fails R b x)).
Proof. exact compare_raises. Qed.
Print Assumptions C24_raises.

(** Where the ranges overlap the bar piles up twice the difference *)
Theorem C24_heights : forall (R : Runtime) (a b : dist R) m lo hi lo' hi' v, obtainable R a -> obtainable R b -> compare_histogram_data R a b = Ok m ->
  extremes R a lo hi -> extremes R b lo' hi' ->
  let n := inject_Z (Z.of_nat (between lo hi v + between lo' hi' v)) in
  (Qabs (height m v - n * (probability R a v - probability R b v)) <= n * 2 ^ (-50))%Q.
Proof. exact compare_heights. Qed.
Print Assumptions C24_heights.

Example C24_nonvacuous : exists (a b : dist rt_fwd), obtainable rt_fwd a /\ obtainable rt_fwd b /\
  compare_histogram_data rt_fwd a b =
    Ok [(1, S754_finite false 4503599627370496 (-53)); (2, S754_finite false 4503599627370496 (-54)); (2, S754_finite false 4503599627370496 (-54));
        (3, S754_finite true 6755399441055744 (-53))].
Proof.
  destruct (seen2 _ _ _ (compare_histogram_data rt_fwd) (dist_at rt_fwd (empty_state rt_fwd) [$"d2"] stdout)
    (dist_at rt_fwd (empty_state rt_fwd) [$"d[2,3*3]"] stdout) _ ltac:(vm_compute; reflexivity)) as [a [b [H [H' V]]]].
  exists a, b. split; [eapply reports_obtainable; [apply af_now | apply dist_at_reports; exact H]|].
  split; [eapply reports_obtainable; [apply af_now | apply dist_at_reports; exact H']|exact V].
Qed.

(** ** C51 In a histogram every integer has a bin of its own: false for large integers *)
Theorem C51_large_refuted : exists (d : dist rt_fwd) h, obtainable rt_fwd d /\ histogram_plot rt_fwd d = Ok h /\ ~ own_bins (map fst (h_points h)) (h_bins h).
Proof.
  destruct (seen _ _ (fun d => (map fst (get_result_map rt_fwd d), histogram_plot rt_fwd d)) (dist_at rt_fwd (empty_state rt_fwd) [$"4503599627370496"] stdout) _ ltac:(vm_compute; reflexivity)) as [d [H V]].
  injection V as V1 V2. exists d. eexists. assert (O : obtainable rt_fwd d) by (eapply reports_obtainable; [apply af_now | apply dist_at_reports; exact H]).
  split; [exact O|]. split; [exact V2|]. intros X. apply (figure_own_bins rt_fwd d _ O (or_introl V2)) with (v := 4503599627370496) in X; [discriminate X|].
  unfold listed. rewrite V1. now left.
Qed.
Print Assumptions C51_large_refuted.

(** and false in a comparison of ranges with a gap between them *)
Theorem C51_gap_refuted : exists (a b : dist rt_fwd) h, obtainable rt_fwd a /\ obtainable rt_fwd b /\ compare_plot rt_fwd a b = Ok h /\
  ~ own_bins (map fst (h_points h)) (h_bins h).
Proof.
  destruct (seen2 _ _ _ (compare_plot rt_fwd) (dist_at rt_fwd (empty_state rt_fwd) [$"1"] stdout)
    (dist_at rt_fwd (empty_state rt_fwd) [$"4"] stdout) _ ltac:(vm_compute; reflexivity)) as [a [b [H [H' V]]]].
  exists a, b. eexists. split; [eapply reports_obtainable; [apply af_now | apply dist_at_reports; exact H]|].
  split; [eapply reports_obtainable; [apply af_now | apply dist_at_reports; exact H']|]. split; [exact V|]. cbn [h_points h_bins map fst].
  intros [_ X]. destruct (X 0%nat 1 eq_refl) as [l [r [_ [E [_ [y [Y Q]]]]]]]. injection E as <-. injection Y as <-. vm_compute in Q. discriminate Q.
Qed.
Print Assumptions C51_gap_refuted.

(** What holds: exactly the integers below 2^52 have one, and exactly when two compared ranges touch *)
Theorem C51_own_bins_partial : forall (R : Runtime) (d : dist R) h, obtainable R d ->
  histogram_plot R d = Ok h \/ at_least_plot R d = Ok h \/ at_most_plot R d = Ok h ->
  (own_bins (map fst (h_points h)) (h_bins h) <-> forall v, listed R d v -> Z.abs v < 2 ^ 52).
Proof. exact figure_own_bins. Qed.
Print Assumptions C51_own_bins_partial.

Theorem C51_compare_partial : forall (R : Runtime) (a b : dist R) h lo hi lo' hi', obtainable R a -> obtainable R b -> compare_plot R a b = Ok h ->
  extremes R a lo hi -> extremes R b lo' hi' ->
  (own_bins (map fst (h_points h)) (h_bins h) <->
   (hi + 1 = lo' \/ hi' + 1 = lo) /\ forall v, listed R a v \/ listed R b v -> Z.abs v < 2 ^ 52).
Proof. exact compare_own_bins. Qed.
Print Assumptions C51_compare_partial.

(** No figure is drawn when a result is too large for a float *)
Theorem C51_histogram_raises : forall (R : Runtime) (d : dist R) x, obtainable R d -> (histogram_plot R d = Raise x <-> figure_fails R d x).
Proof. exact histogram_fails. Qed.
Print Assumptions C51_histogram_raises.

Theorem C51_at_least_raises : forall (R : Runtime) (d : dist R) x, obtainable R d -> (at_least_plot R d = Raise x <-> figure_fails R d x).
Proof. exact at_least_fails. Qed.
Print Assumptions C51_at_least_raises.

Theorem C51_at_most_raises : forall (R : Runtime) (d : dist R) x, obtainable R d -> (at_most_plot R d = Raise x <-> figure_fails R d x).
Proof. exact at_most_fails. Qed.
Print Assumptions C51_at_most_raises.

Theorem C51_compare_raises : forall (R : Runtime) (a b : dist R) x, obtainable R a -> obtainable R b ->
  (compare_plot R a b = Raise x <-> comparison_fails R a b x \/
    (x = OverflowError /\ (forall y, ~ comparison_fails R a b y) /\ exists v, (listed R a v \/ listed R b v) /\ too_large (inject_Z v))).
Proof. exact compare_fails. Qed.
Print Assumptions C51_compare_raises.

Theorem C51_interpreter_raises : forall (R : Runtime) lines s x, reachable R s -> lines <> [] -> ~ mentions_name lines stdout ->
  let fails := distribution_raises R s lines x \/ exists d, reports R s lines d /\ figure_fails R d x in
  (snd (get_histogram R lines s) = Raise x <-> fails) /\ (snd (get_at_least_histogram R lines s) = Raise x <-> fails) /\
  (snd (get_at_most_histogram R lines s) = Raise x <-> fails).
Proof. exact figures_raise. Qed.
Print Assumptions C51_interpreter_raises.

(** the bins of d2 from 0.5 to 1.5 and from 1.5 to 2.5; a number without a figure; a comparison of neighbours *)
Example C51_nonvacuous :
  (exists d : dist rt_fwd, obtainable rt_fwd d /\
    rmap h_bins (histogram_plot rt_fwd d) = Ok [S754_finite false 4503599627370496 (-53); S754_finite false 6755399441055744 (-52); S754_finite false 5629499534213120 (-51)]) /\
  snd (get_histogram rt_fwd ["1"%char :: repeat "0"%char 309] (empty_state rt_fwd)) = Raise OverflowError /\
  snd (get_histogram rt_fwd [$"d[]"] (empty_state rt_fwd)) = Raise ValueError /\
  (exists a b : dist rt_fwd, obtainable rt_fwd a /\ obtainable rt_fwd b /\
    rmap (fun h => (map fst (h_points h), h_bins h, h_line h)) (compare_plot rt_fwd a b) =
      Ok ([1; 2], [S754_finite false 4503599627370496 (-53); S754_finite false 6755399441055744 (-52); S754_finite false 5629499534213120 (-51)], None)).
Proof.
  split; [|split; [|split]].
  - destruct (seen _ _ (fun d => rmap h_bins (histogram_plot rt_fwd d)) (dist_at rt_fwd (empty_state rt_fwd) [$"d2"] stdout) _ ltac:(vm_compute; reflexivity)) as [d [H V]].
    exists d. split; [|exact V]. eapply reports_obtainable; [apply af_now | apply dist_at_reports; exact H].
  - vm_compute. reflexivity.
  - vm_compute. reflexivity.
  - destruct (seen2 _ _ _ (fun a b => rmap (fun h => (map fst (h_points h), h_bins h, h_line h)) (compare_plot rt_fwd a b)) (dist_at rt_fwd (empty_state rt_fwd) [$"2"] stdout)
      (dist_at rt_fwd (empty_state rt_fwd) [$"1"] stdout) _ ltac:(vm_compute; reflexivity)) as [a [b [H [H' V]]]].
    exists a, b. split; [eapply reports_obtainable; [apply af_now | apply dist_at_reports; exact H]|].
    split; [eapply reports_obtainable; [apply af_now | apply dist_at_reports; exact H']|exact V].
Qed.

(** ** C52 A line plot shows one curve for each of the two distributions, under its name *)
Theorem C52_curves : forall (R : Runtime) (a b : dist R) n n' p, obtainable R a -> obtainable R b ->
  (get_compare R a b n n' = Ok p -> compares R (is_histogram R) a b n n' p) /\
  (get_compare_at_least R a b n n' = Ok p -> compares R (is_survival_function R) a b n n' p) /\
  (get_compare_at_most R a b n n' = Ok p -> compares R (is_distribution_function R) a b n n' p).
Proof. exact compare_curves. Qed.
Print Assumptions C52_curves.

Theorem C52_raises : forall (R : Runtime) (a b : dist R) n n' x, obtainable R a -> obtainable R b ->
  (get_compare R a b n n' = Raise x <-> comparison_fails R a b x) /\
  (get_compare_at_least R a b n n' = Raise x <-> comparison_fails R a b x) /\
  (get_compare_at_most R a b n n' = Raise x <-> comparison_fails R a b x).
Proof. exact compare_curves_raise. Qed.
Print Assumptions C52_raises.

Example C52_nonvacuous : exists a b : dist rt_fwd, obtainable rt_fwd a /\ obtainable rt_fwd b /\
  get_compare rt_fwd a b $"mine" $"yours" =
    Ok {| lp_one := ($"mine", [(1, S754_finite false 6755399441055744 (-53)); (2, fzero); (3, S754_finite false 4503599627370496 (-54))]); lp_two := ($"yours", [(2, fone)]) |} /\
  get_compare_at_least rt_fwd a b $"mine" $"yours" =
    Ok {| lp_one := ($"mine", [(1, fone); (2, S754_finite false 4503599627370496 (-54)); (3, S754_finite false 4503599627370496 (-54))]); lp_two := ($"yours", [(2, fone)]) |} /\
  get_compare_at_most rt_fwd a b $"mine" $"yours" =
    Ok {| lp_one := ($"mine", [(1, S754_finite false 6755399441055744 (-53)); (2, S754_finite false 6755399441055744 (-53)); (3, fone)]); lp_two := ($"yours", [(2, fone)]) |}.
Proof.
  destruct (seen2 _ _ _ (fun a b => (get_compare rt_fwd a b $"mine" $"yours", get_compare_at_least rt_fwd a b $"mine" $"yours", get_compare_at_most rt_fwd a b $"mine" $"yours"))
    (dist_at rt_fwd (empty_state rt_fwd) [$"d[1*3,3]"] stdout) (dist_at rt_fwd (empty_state rt_fwd) [$"2"] stdout) _ ltac:(vm_compute; reflexivity)) as [a [b [H [H' V]]]].
  exists a, b. split; [eapply reports_obtainable; [apply af_now | apply dist_at_reports; exact H]|].
  split; [eapply reports_obtainable; [apply af_now | apply dist_at_reports; exact H']|]. injection V as V1 V2 V3. auto.
Qed.
