(** * TailProofs: C82 *)
From Coq Require Import QArith Qabs Lqa Qfield Permutation Sorted Floats.SpecFloat.
From Verif Require Import Py PyFacts PyFloat Constraint Distribution DistFacts DiceModel Expr Parser Interp Instances SpecDice DiceFacts DiceProofs SpecProgram
  SpecInterp SpecCalls InterpRun SpecAlgebra AlgebraFacts ExprFacts ProgramFacts ProgramProofs SpecProb ProbProofs FigureProofs PlotProofs ExchangeProofs BetterProofs SpecCases CaseProofs SpecSum SumProofs SpecSame SameProofs SpecAlgebra.
Local Open Scope Z_scope.

Lemma inject_Z_minus : forall a b, inject_Z (a - b) = (inject_Z a - inject_Z b)%Q.
Proof. intros a b. unfold Z.sub. now rewrite inject_Z_plus, inject_Z_opp. Qed.

(** ** Counting the integers up to a result *)
Lemma count_below : forall c v lo n, lo <= v <= lo + Z.of_nat n -> lsum (fun k => if k <=? v then c else 0) (consecutive (lo + 1) n) = (v - lo) * c.
Proof.
  intros c v lo n. revert v. induction n as [|n IH]; intros v H.
  - change (consecutive (lo + 1) 0) with (@nil Z). rewrite lsum_nil. assert (v = lo) by lia. subst. lia.
  - rewrite consecutive_succ, lsum_app, lsum_cons, lsum_nil. destruct (Z.eq_dec v (lo + Z.of_nat (S n))) as [E|E].
    + rewrite (lsum_ext _ _ (fun k => if k <=? lo + Z.of_nat n then c else 0)).
      * rewrite IH by lia. destruct (lo + 1 + Z.of_nat n <=? v) eqn:L; [|lia]. subst v. nia.
      * intros k I. apply in_consecutive in I. destruct (k <=? v) eqn:A; destruct (k <=? lo + Z.of_nat n) eqn:B; lia.
    + rewrite IH by lia. destruct (lo + 1 + Z.of_nat n <=? v) eqn:L; [lia | ring].
Qed.
Lemma count_above : forall c v lo n, lo <= v <= lo + Z.of_nat n -> lsum (fun k => if v <=? k then c else 0) (consecutive lo n) = (lo + Z.of_nat n - v) * c.
Proof.
  intros c v lo n. revert v. induction n as [|n IH]; intros v H.
  - change (consecutive lo 0) with (@nil Z). rewrite lsum_nil. assert (v = lo) by lia. subst. lia.
  - rewrite consecutive_succ, lsum_app, lsum_cons, lsum_nil. destruct (Z.eq_dec v (lo + Z.of_nat (S n))) as [E|E].
    + rewrite (lsum_ext _ _ (fun k => 0)), lsum_zero.
      * destruct (v <=? lo + Z.of_nat n) eqn:L; [lia|]. subst v. lia.
      * intros k I. apply in_consecutive in I. destruct (v <=? k) eqn:A; lia.
    + rewrite IH by lia. destruct (v <=? lo + Z.of_nat n) eqn:L; [nia | lia].
Qed.
Lemma table_error : forall (m : list (Z * pyfloat)) (p : Z -> Q) (b : Z -> Z), (forall v f, In (v, f) m -> within_rounding (b v) (p v) f) ->
  (Qabs (shown_sum (fun _ => 1%Z) m - qtotal (map p (map fst m))) <= inject_Z (zsum (map (fun q => b (fst q)) m)) * 2 ^ (-50))%Q.
Proof.
  intros m p b. induction m as [|[v f] m IH]; intros H.
  - cbn [shown_sum fold_right map qtotal]. change (zsum []) with 0. setoid_replace (0 - 0)%Q with 0%Q by ring. setoid_replace (inject_Z 0 * 2 ^ (-50))%Q with 0%Q by ring. discriminate.
  - destruct (H v f (or_introl eq_refl)) as [y [E Y]]. specialize (IH (fun w h I => H w h (or_intror I))). cbn [shown_sum fold_right map fst snd qtotal]. rewrite E.
    fold (shown_sum (fun _ => 1) m) (qtotal (map p (map fst m))). rewrite zsum_cons, inject_Z_plus. change (inject_Z 1) with 1%Q.
    set (a := shown_sum (fun _ => 1) m) in *. set (c := qtotal (map p (map fst m))) in *. set (e := inject_Z (zsum (map (fun q : Z * pyfloat => b (fst q)) m))) in *. clearbody a c e.
    setoid_replace (1 * y + a - (p v + c))%Q with ((y - p v) + (a - c))%Q by ring.
    eapply Qle_trans; [apply Qabs_triangle|]. rewrite Qmult_plus_distr_l. apply Qplus_le_compat; [exact Y | exact IH].
Qed.

Section Tails.
  Context (R : Runtime).
  Notation dist := (dist R).
  Notation keys d := (map fst (get_result_map R d)).

  Lemma where_sum : forall (d : dist) test, ways_where R d test = lsum (fun vc => if test (fst vc) then snd vc else 0) (get_result_map R d).
  Proof.
    intros d test. unfold ways_where. induction (get_result_map R d) as [|[w c] l IH]; [reflexivity|]. rewrite lsum_cons. cbn [filter fst snd].
    destruct (test w); cbn [map snd]; rewrite ?zsum_cons; lia.
  Qed.
  Lemma tails_at_least : forall (d : dist) lo n, (forall v, listed R d v -> lo <= v <= lo + Z.of_nat n) ->
    lsum (fun k => ways_where R d (fun w => k <=? w)) (consecutive (lo + 1) n) = sum_of_results R d - lo * total_ways R d.
  Proof.
    intros d lo n H. rewrite (lsum_ext _ _ (fun k => lsum (fun vc => if k <=? fst vc then snd vc else 0) (get_result_map R d))) by (intros; apply where_sum).
    rewrite lsum_swap, (lsum_ext _ _ (fun vc => (fst vc - lo) * snd vc)).
    - unfold sum_of_results, total_ways, lsum. induction (get_result_map R d) as [|[w c] l IH]; [cbn; lia|]. cbn [map fst snd]. rewrite !zsum_cons. clear H. lia.
    - intros [w c] I. cbn [fst snd]. apply count_below. apply H. unfold listed. apply in_map_iff. now exists (w, c).
  Qed.
  Lemma tails_at_most : forall (d : dist) lo n, (forall v, listed R d v -> lo <= v <= lo + Z.of_nat n) ->
    lsum (fun k => ways_where R d (fun w => w <=? k)) (consecutive lo n) = (lo + Z.of_nat n) * total_ways R d - sum_of_results R d.
  Proof.
    intros d lo n H. rewrite (lsum_ext _ _ (fun k => lsum (fun vc => if fst vc <=? k then snd vc else 0) (get_result_map R d))) by (intros; apply where_sum).
    rewrite lsum_swap, (lsum_ext _ _ (fun vc => (lo + Z.of_nat n - fst vc) * snd vc)).
    - unfold sum_of_results, total_ways, lsum. induction (get_result_map R d) as [|[w c] l IH]; [cbn; lia|]. cbn [map fst snd]. rewrite !zsum_cons. clear H. lia.
    - intros [w c] I. cbn [fst snd]. apply count_above. apply H. unfold listed. apply in_map_iff. now exists (w, c).
  Qed.

  Lemma qtails : forall (d : dist) (W : Z -> Z) l, (qtotal (map (fun k => inject_Z (W k) / inject_Z (total_ways R d))%Q l) == inject_Z (lsum W l) / inject_Z (total_ways R d))%Q.
  Proof. intros d W l. rewrite (qtotal_scaled _ _ W (/ inject_Z (total_ways R d)) l); [reflexivity|]. intros; reflexivity. Qed.

  Lemma mean_at_least : forall (d : dist) lo n, total_ways R d <> 0 -> (forall v, listed R d v -> lo <= v <= lo + Z.of_nat n) ->
    (mean R d == inject_Z lo + qtotal (map (probability_at_least R d) (consecutive (lo + 1) n)))%Q.
  Proof.
    intros d lo n T H. unfold probability_at_least. rewrite (qtails d (fun k => ways_where R d (fun w => k <=? w))), (tails_at_least d lo n H).
    unfold mean. rewrite inject_Z_minus, inject_Z_mult. field. now apply inject_Z_nonzero.
  Qed.
  Lemma mean_at_most : forall (d : dist) lo n, total_ways R d <> 0 -> (forall v, listed R d v -> lo <= v <= lo + Z.of_nat n) ->
    (mean R d == inject_Z (lo + Z.of_nat n) - qtotal (map (probability_at_most R d) (consecutive lo n)))%Q.
  Proof.
    intros d lo n T H. unfold probability_at_most. rewrite (qtails d (fun k => ways_where R d (fun w => w <=? k))), (tails_at_most d lo n H).
    unfold mean. rewrite inject_Z_minus, inject_Z_mult. field. now apply inject_Z_nonzero.
  Qed.

  Lemma qtotal_le : forall (f g : Z -> Q) l, (forall x, (f x <= g x)%Q) -> (qtotal (map f l) <= qtotal (map g l))%Q.
  Proof. intros f g l H. induction l as [|x l IH]; cbn [map qtotal fold_right]; [apply Qle_refl|]. apply Qplus_le_compat; [apply H | exact IH]. Qed.
  Lemma tails_order : forall d d' : dist, total_ways R d <> 0 -> total_ways R d' <> 0 ->
    (forall k, (probability_at_least R d k <= probability_at_least R d' k)%Q) -> (mean R d <= mean R d')%Q.
  Proof.
    intros d d' T T' H. destruct (extremes_of R d T) as [lo [hi [_ [_ X]]]]. destruct (extremes_of R d' T') as [lo' [hi' [_ [_ X']]]].
    set (l := Z.min lo lo'). set (n := Z.to_nat (Z.max hi hi' - l)).
    rewrite (mean_at_least d l n T), (mean_at_least d' l n T').
    - apply Qplus_le_compat; [apply Qle_refl | now apply qtotal_le].
    - intros v L. specialize (X' v L). lia.
    - intros v L. specialize (X v L). lia.
  Qed.
  Lemma tails_average : forall (d d' : dist) f f', obtainable R d -> obtainable R d' -> d_average R d = Ok f -> d_average R d' = Ok f' ->
    total_ways R d <> 0 -> total_ways R d' <> 0 -> (forall k, (probability_at_least R d k <= probability_at_least R d' k)%Q) ->
    exists x x', fvalue f = Some x /\ fvalue f' = Some x' /\ (x <= x')%Q.
  Proof. intros d d' f f' O O' A A' T T' H. apply (better_average R d d'); auto. now apply tails_order. Qed.

  Lemma covers_perm : forall lo hi (m : list (Z * pyfloat)), covers lo hi m -> Permutation (map fst m) (consecutive lo (Z.to_nat (hi - lo + 1))).
  Proof.
    intros lo hi m [S C]. apply NoDup_Permutation.
    - clear C. induction (map fst m) as [|x l IH]; [constructor|]. inversion_clear S as [|? ? S1 F]. constructor; [|auto]. intros I. rewrite Forall_forall in F. specialize (F x I). lia.
    - apply consecutive_nodup.
    - intros v. rewrite C, in_consecutive. lia.
  Qed.
  Lemma at_least_total : forall (d : dist) m lo hi, obtainable R d -> at_least R d = Ok m -> extremes R d lo hi ->
    (Qabs (shown_sum (fun _ => 1%Z) m - (mean R d - inject_Z lo + 1)) <= inject_Z (zsum (map (fun q => fst q - lo)%Z m)) * 2 ^ (-50))%Q.
  Proof.
    intros d m lo hi O A X. assert (T : total_ways R d <> 0). { eapply (has_ways R d lo hi ZeroDivisionError); eauto. intros F. apply (at_least_raises R d _ O) in F. congruence. }
    destruct (at_least_survival R d m O A) as [lo' [hi' [X' [C [_ [_ W]]]]]]. destruct (extremes_unique R d _ _ _ _ X X') as [<- <-].
    pose proof (table_error m (probability_at_least R d) (fun v => v - lo) W) as H.
    assert (E : (qtotal (map (probability_at_least R d) (map fst m)) == mean R d - inject_Z lo + 1)%Q); [|now rewrite E in H].
    unfold probability_at_least. rewrite (qtails d (fun k => ways_where R d (fun w => k <=? w))), (lsum_perm _ _ _ _ (covers_perm lo hi m C)).
    destruct X as [L [L' B]]. pose proof (B _ L'). replace lo with (lo - 1 + 1) at 1 by lia. rewrite (tails_at_least d (lo - 1)) by (intros v I; specialize (B v I); lia).
    unfold mean. rewrite !inject_Z_minus, inject_Z_mult, inject_Z_minus. change (inject_Z 1) with 1%Q. field. now apply inject_Z_nonzero.
  Qed.
  Lemma at_most_total : forall (d : dist) m lo hi, obtainable R d -> at_most R d = Ok m -> extremes R d lo hi ->
    (Qabs (shown_sum (fun _ => 1%Z) m - (inject_Z hi + 1 - mean R d)) <= inject_Z (zsum (map (fun q => fst q - lo + 1)%Z m)) * 2 ^ (-50))%Q.
  Proof.
    intros d m lo hi O A X. assert (T : total_ways R d <> 0). { eapply (has_ways R d lo hi ZeroDivisionError); eauto. intros F. apply (at_most_raises R d _ O) in F. congruence. }
    destruct (at_most_distribution R d m O A) as [lo' [hi' [X' [C [_ [_ W]]]]]]. destruct (extremes_unique R d _ _ _ _ X X') as [<- <-].
    pose proof (table_error m (probability_at_most R d) (fun v => v - lo + 1) W) as H.
    assert (E : (qtotal (map (probability_at_most R d) (map fst m)) == inject_Z hi + 1 - mean R d)%Q); [|now rewrite E in H].
    unfold probability_at_most. rewrite (qtails d (fun k => ways_where R d (fun w => w <=? k))), (lsum_perm _ _ _ _ (covers_perm lo hi m C)).
    destruct X as [L [L' B]]. pose proof (B _ L'). rewrite (tails_at_most d lo) by (intros v I; specialize (B v I); lia).
    replace (lo + Z.of_nat (Z.to_nat (hi - lo + 1))) with (hi + 1) by lia.
    unfold mean. rewrite !inject_Z_minus, inject_Z_mult, inject_Z_plus. change (inject_Z 1) with 1%Q. field. now apply inject_Z_nonzero.
  Qed.

  Lemma at_least_bars : forall lines s s' h, reachable R s -> lines <> [] -> ~ mentions_name lines stdout -> get_at_least_histogram R lines s = (s', Ok h) ->
    exists d lo hi, reports R s lines d /\ extremes R d lo hi /\ marks_mean R d h /\
      (Qabs (shown_sum (fun _ => 1%Z) (h_points h) - (mean R d - inject_Z lo + 1)) <= inject_Z (zsum (map (fun q => fst q - lo)%Z (h_points h))) * 2 ^ (-50))%Q.
  Proof.
    intros lines s s' h Rs NE NM E.
    destruct (plot_call R (at_least_histogram_data R) (fun d m => exists lo hi, extremes R d lo hi /\ (Qabs (shown_sum (fun _ => 1%Z) m - (mean R d - inject_Z lo + 1)) <= inject_Z (zsum (map (fun q => fst q - lo)%Z m)) * 2 ^ (-50))%Q)
      lines s s' h Rs) as [d [Rp [[lo [hi [X B]]] M]]].
    - intros d b O. rewrite (at_least_plotted R d O). intros Eb. split; [|now apply (plottable_at_least R d)].
      destruct (at_least_survival R d b O Eb) as [lo [hi [X _]]]. exists lo, hi. split; [exact X|]. now apply (at_least_total d b lo hi).
    - exact NE.
    - exact NM.
    - exact E.
    - exists d, lo, hi. auto.
  Qed.
  Lemma at_most_bars : forall lines s s' h, reachable R s -> lines <> [] -> ~ mentions_name lines stdout -> get_at_most_histogram R lines s = (s', Ok h) ->
    exists d lo hi, reports R s lines d /\ extremes R d lo hi /\ marks_mean R d h /\
      (Qabs (shown_sum (fun _ => 1%Z) (h_points h) - (inject_Z hi + 1 - mean R d)) <= inject_Z (zsum (map (fun q => fst q - lo + 1)%Z (h_points h))) * 2 ^ (-50))%Q.
  Proof.
    intros lines s s' h Rs NE NM E.
    destruct (plot_call R (at_most_histogram_data R) (fun d m => exists lo hi, extremes R d lo hi /\ (Qabs (shown_sum (fun _ => 1%Z) m - (inject_Z hi + 1 - mean R d)) <= inject_Z (zsum (map (fun q => fst q - lo + 1)%Z m)) * 2 ^ (-50))%Q)
      lines s s' h Rs) as [d [Rp [[lo [hi [X B]]] M]]].
    - intros d b O. rewrite (at_most_plotted R d O). intros Eb. split; [|now apply (plottable_at_most R d)].
      destruct (at_most_distribution R d b O Eb) as [lo [hi [X _]]]. exists lo, hi. split; [exact X|]. now apply (at_most_total d b lo hi).
    - exact NE.
    - exact NM.
    - exact E.
    - exists d, lo, hi. auto.
  Qed.
End Tails.
