(** * ProbProofs: the floats reported for the distributions that a user can get hold of *)
From Coq Require Import QArith Qabs Qpower Sorted Permutation Floats.SpecFloat.
From Verif Require Import Py PyFacts PyFloat Constraint Distribution DistFacts DiceModel Expr Parser Interp FloatFacts FloatProofs SpecDice SpecAlgebra SpecProgram SpecInterp SpecProb ProgramProofs.
Local Open Scope Z_scope.

Section Proofs.
  Context (R : Runtime).
  Notation dist := (dist R).
  Notation U := (units (-1074)).

  Lemma reported_count : forall (d : dist) v, reported R d v = count_at (get_result_map R d) v.
  Proof. reflexivity. Qed.
  Lemma obtainable_counts : forall d, obtainable R d -> NoDup (map fst (get_result_map R d)) /\
    (forall v c, In (v, c) (get_result_map R d) -> 0 <= c) /\ d_count d = total_ways R d /\ 0 <= total_ways R d.
  Proof.
    intros d O. destruct (probability_total R d O) as [A [B [C _]]]. split; [exact A|]. split; [exact B|]. split; [symmetry; exact C|].
    unfold total_ways. rewrite <- (count_where_split (get_result_map R d) (fun _ => true)).
    pose proof (count_where_nonneg _ (fun _ => true) B). pose proof (count_where_nonneg _ (fun v => negb ((fun _ => true) v)) B). lia.
  Qed.
  Lemma listed_some : forall d : dist, get_result_map R d <> [] -> exists v, listed R d v.
  Proof. intros d H. unfold listed. destruct (get_result_map R d) as [|[v c] m]; [congruence|]. exists v. now left. Qed.
  Lemma reported_range : forall d v, obtainable R d -> 0 <= reported R d v <= total_ways R d.
  Proof.
    intros d v O. destruct (obtainable_counts d O) as [_ [B [_ T]]]. rewrite reported_count. split; [now apply count_at_nonneg|].
    unfold count_at. destruct (dget Z.eqb (get_result_map R d) v) as [c|] eqn:E; [|exact T].
    apply (dget_some_in Z.eqb zeqb_iff) in E. exact (count_le_total _ v c B E).
  Qed.

  Lemma fget_in : forall (fs : list (Z * pyfloat)) v f, NoDup (map fst fs) -> In (v, f) fs -> fget fs v = f.
  Proof.
    intros fs v f. unfold fget. induction fs as [|[w g] fs IH]; [intros _ []|]; intros N [X|X]; inversion N as [|? ? Nw Nf]; subst; cbn [dget].
    - injection X as -> ->. now rewrite Z.eqb_refl.
    - destruct (Z.eqb_spec w v) as [->|Ne]; [|now apply IH]. exfalso. apply Nw. apply (in_map fst) in X. exact X.
  Qed.

  (** ** get_dict_form *)
  Lemma dict_ok : forall d, obtainable R d -> total_ways R d <> 0 -> exists fs, get_dict_form R d = Ok fs /\ map fst fs = map fst (get_result_map R d) /\
    forall v, unearest (-1074) (reported R d v * K) (total_ways R d) (fget fs v).
  Proof.
    intros d O T. destruct (obtainable_counts d O) as [A [B [C T0]]]. unfold get_dict_form. rewrite C.
    destruct (divide_counts_ok (total_ways R d) (get_result_map R d) ltac:(lia)) as [fs [E [Ek Ev]]].
    { intros v c I. split; [now apply (B v)|]. exact (count_le_total _ v c B I). }
    exists fs. split; [exact E|]. split; [exact Ek|]. intros v. rewrite reported_count. unfold fget. destruct (dget Z.eqb fs v) as [f|] eqn:G.
    - apply (dget_some_in Z.eqb zeqb_iff) in G. destruct (Ev v f G) as [c [I1 I2]]. now rewrite (count_at_in _ v c A I1).
    - apply (dget_none Z.eqb zeqb_iff) in G. rewrite Ek in G. rewrite (count_at_none _ _ G). apply unearest_zero. lia.
  Qed.
  Lemma dict_empty : forall d, obtainable R d -> (forall v, ~ listed R d v) -> get_dict_form R d = Ok [].
  Proof.
    intros d O H. unfold get_dict_form. destruct (get_result_map R d) as [|[v c] m] eqn:E; [reflexivity|].
    exfalso. apply (H v). unfold listed. rewrite E. now left.
  Qed.
  Lemma dict_no_ways : forall d, obtainable R d -> no_ways R d -> get_dict_form R d = Raise ZeroDivisionError.
  Proof.
    intros d O [T [v L]]. destruct (obtainable_counts d O) as [_ [_ [C _]]]. unfold get_dict_form. rewrite C, T.
    apply divide_counts_zero. intros E. unfold listed in L. rewrite E in L. exact L.
  Qed.
  (** the three cases *)
  Lemma listed_cases : forall d : dist, (forall v, ~ listed R d v) \/ no_ways R d \/ (total_ways R d <> 0 /\ exists v, listed R d v).
  Proof.
    intros d. destruct (get_result_map R d) as [|p m] eqn:E.
    - left. intros v L. unfold listed in L. now rewrite E in L.
    - right. destruct (listed_some d) as [v L]; [congruence|]. unfold no_ways. destruct (Z.eq_dec (total_ways R d) 0); eauto.
  Qed.

  Lemma probability_units : forall d v, 0 < total_ways R d ->
    (probability R d v == (reported R d v * K) # (Z.to_pos (total_ways R d) * Kp))%Q.
  Proof. intros d v T. unfold probability. now apply ratio_units. Qed.

  Lemma dict_nearest : forall d fs, obtainable R d -> get_dict_form R d = Ok fs -> shows_probabilities R d fs.
  Proof.
    intros d fs O E. destruct (listed_cases d) as [L|[L|[T L]]].
    - rewrite (dict_empty d O L) in E. injection E as <-. split; [|intros v f []].
      destruct (get_result_map R d) as [|[v c] m] eqn:Em; [reflexivity|]. exfalso. apply (L v). unfold listed. rewrite Em. now left.
    - rewrite (dict_no_ways d O L) in E. discriminate.
    - destruct (obtainable_counts d O) as [A [B [C T0]]]. destruct (dict_ok d O T) as [fs' [E' [Ek Ev]]]. rewrite E in E'. injection E' as <-.
      split; [exact Ek|]. intros v f I. assert (G : fget fs v = f) by (apply fget_in; [rewrite Ek; exact A|exact I]).
      specialize (Ev v). rewrite G in Ev. split; [eapply nearest_of; [|exact Ev|]; [lia|apply probability_units; lia]|].
      destruct (rounded_probability (reported R d v) (total_ways R d) f ltac:(lia) (reported_range d v O) Ev) as [P1 [P2 _]].
      destruct (fvalue_units f (proj1 Ev)) as [x [Ex Hx]]. exists x. split; [exact Ex|]. rewrite Hx. pose proof Kp_eq.
      unfold Qle. cbn [Qnum Qden]. lia.
  Qed.
  Lemma dict_raises : forall d x, obtainable R d -> (get_dict_form R d = Raise x <-> x = ZeroDivisionError /\ no_ways R d).
  Proof.
    intros d x O. destruct (listed_cases d) as [L|[L|[T L]]].
    - rewrite (dict_empty d O L). split; [discriminate|]. intros [_ [_ [v V]]]. exfalso. exact (L v V).
    - rewrite (dict_no_ways d O L). split; [intros E; injection E as <-; auto|]. intros [-> _]. reflexivity.
    - destruct (dict_ok d O T) as [fs [E _]]. rewrite E. split; [discriminate|]. intros [_ [Z _]]. contradiction.
  Qed.

  (** ** average *)
  Lemma fold_sum : forall (m : list (Z * Z)) t, fold_left (fun t vc => t + fst vc * snd vc) m t = t + zsum (map (fun vc => fst vc * snd vc) m).
  Proof.
    induction m as [|vc m IH]; intros t; cbn [fold_left map]; [change (zsum []) with 0; lia|]. rewrite IH, zsum_cons. lia.
  Qed.
  Lemma average_eq : forall d, obtainable R d -> d_average R d = int_truediv (sum_of_results R d) (total_ways R d).
  Proof. intros d O. destruct (obtainable_counts d O) as [_ [_ [C _]]]. unfold d_average, sum_of_results. rewrite C, fold_sum. now rewrite Z.add_0_l. Qed.

  Lemma mean_units : forall d, 0 < total_ways R d -> (mean R d == (sum_of_results R d * K) # (Z.to_pos (total_ways R d) * Kp))%Q.
  Proof. intros d T. unfold mean. now apply ratio_units. Qed.

  Lemma sum_bounds : forall (m : list (Z * Z)) lo hi, (forall v c, In (v, c) m -> 0 <= c) -> (forall v, In v (map fst m) -> lo <= v <= hi) ->
    lo * zsum (map snd m) <= zsum (map (fun vc => fst vc * snd vc) m) <= hi * zsum (map snd m).
  Proof.
    induction m as [|[v c] m IH]; intros lo hi C B; cbn [map fst snd]; [change (zsum []) with 0; lia|]. rewrite !zsum_cons.
    specialize (IH lo hi (fun v c I => C v c (or_intror I)) (fun v I => B v (or_intror I))).
    specialize (C v c (or_introl eq_refl)). specialize (B v (or_introl eq_refl)). nia.
  Qed.

  Lemma too_large_units : forall n d, 0 < d -> (too_large (inject_Z n / inject_Z d) <-> overflows (-1074) (n * K) d).
  Proof.
    intros n d D. unfold too_large, overflows. rewrite frac_pos by exact D. cbn [Qabs]. unfold Qle. cbn [Qnum Qden inject_Z].
    rewrite Z2Pos.id by exact D. rewrite Z.mul_1_r. replace (971 - -1074) with (1074 + 971) by lia. rewrite (Z.pow_add_r 2 1074 971), K_eq by lia.
    pose proof K_pos as Kp0. rewrite Z.abs_mul, (Z.abs_eq K) by lia.
    replace (2 ^ 1024) with (2 ^ 54 * 2 ^ 970) by (rewrite <- Z.pow_add_r by lia; reflexivity).
    replace (2 ^ 971) with (2 * 2 ^ 970) by (rewrite <- Z.pow_succ_r by lia; reflexivity).
    assert (T0 : 0 < 2 ^ 970) by (apply Z.pow_pos_nonneg; lia). set (T := 2 ^ 970) in *. clearbody T. set (n' := Z.abs n). clearbody n'.
    set (c := 2 ^ 54). clearbody c. split; intros H.
    - replace ((c - 1) * (d * (K * (2 * T)))) with (2 * K * ((c * T - T) * d)) by ring. nia.
    - replace ((c - 1) * (d * (K * (2 * T)))) with (2 * K * ((c * T - T) * d)) in H by ring. nia.
  Qed.

  Lemma average_raises : forall d x, obtainable R d ->
    (d_average R d = Raise x <-> (x = ZeroDivisionError /\ total_ways R d = 0) \/ (x = OverflowError /\ total_ways R d <> 0 /\ too_large (mean R d))).
  Proof.
    intros d x O. rewrite (average_eq d O). destruct (obtainable_counts d O) as [_ [_ [_ T0]]].
    destruct (Z.eq_dec (total_ways R d) 0) as [Z0|T].
    - rewrite Z0. cbn [int_truediv Z.eqb]. split; [intros E; injection E as <-; auto|]. intros [[-> _]|[_ [X _]]]; [reflexivity|contradiction].
    - pose proof (too_large_units (sum_of_results R d) (total_ways R d) ltac:(lia)) as TL. fold (mean R d) in TL.
      destruct (int_truediv_spec (-1074) (sum_of_results R d) (total_ways R d) ltac:(lia) ltac:(lia)) as [[f [E [Un Ov]]]|[E Ov]];
        change (2 ^ - -1074) with (2 ^ 1074) in Ov; rewrite K_eq in Ov; rewrite E.
      + split; [discriminate|]. intros [[_ X]|[_ [_ X]]]; [contradiction|]. exfalso. apply Ov. now apply TL.
      + split; [intros X; injection X as <-; right; split; [reflexivity|]; split; [exact T|now apply TL]|].
        intros [[_ X]|[-> _]]; [contradiction|reflexivity].
  Qed.

  Lemma average_nearest : forall d f, obtainable R d -> d_average R d = Ok f -> shows_mean R d f.
  Proof.
    intros d f O E. rewrite (average_eq d O) in E. destruct (obtainable_counts d O) as [_ [Nn [_ T0]]].
    destruct (Z.eq_dec (total_ways R d) 0) as [Z0|T]; [rewrite Z0 in E; discriminate|].
    split; [exact T|].
    destruct (int_truediv_spec (-1074) (sum_of_results R d) (total_ways R d) ltac:(lia) ltac:(lia)) as [[f' [E' [Un _]]]|[E' _]]; [|congruence].
    rewrite E in E'. injection E' as <-. change (2 ^ - -1074) with (2 ^ 1074) in Un. rewrite K_eq in Un.
    split; [eapply nearest_of; [|exact Un|]; [lia|apply mean_units; lia]|].
    intros lo hi [_ [_ B]]. destruct (fvalue_units f (proj1 Un)) as [x [Ex Hx]]. exists x. split; [exact Ex|].
    assert (SB : lo * total_ways R d <= sum_of_results R d <= hi * total_ways R d) by (apply sum_bounds; [exact Nn|exact B]).
    intros y Y. apply double_units in Y. destruct Y as [w [W Hy]]. pose proof Kp_eq as Ke. pose proof K_pos as K0. rewrite Hx, Hy. unfold Qle. cbn [Qnum Qden inject_Z]. rewrite !Z.mul_1_r, Ke.
    split; intros L.
    - assert (w <= U f); [|nia]. apply (unearest_ge (-1074) _ (total_ways R d) f w ltac:(lia) Un W). nia.
    - assert (U f <= w); [|nia]. apply (unearest_le (-1074) _ (total_ways R d) f w ltac:(lia) Un W). nia.
  Qed.

  (** ** Plots *)
  Lemma extremes_exist : forall d : dist, (exists v, listed R d v) -> exists lo hi, extremes R d lo hi.
  Proof.
    intros d [v L]. unfold extremes, listed in *. assert (N : map fst (get_result_map R d) <> []) by (intros E; rewrite E in L; exact L).
    destruct (pymin_some _ N) as [lo Hl]. destruct (pymax_some _ N) as [hi Hh]. apply pymin_ok in Hl. apply pymax_ok in Hh.
    exists lo, hi. split; [apply Hl|]. split; [apply Hh|]. intros w W. split; [now apply Hl|now apply Hh].
  Qed.
  Lemma extremes_unique : forall (d : dist) lo hi lo' hi', extremes R d lo hi -> extremes R d lo' hi' -> lo = lo' /\ hi = hi'.
  Proof.
    intros d lo hi lo' hi' [A [B C]] [A' [B' C']]. pose proof (C _ A'). pose proof (C _ B'). pose proof (C' _ A). pose proof (C' _ B). lia.
  Qed.

  (** the filled-in table *)
  Lemma filled : forall d lo hi, obtainable R d -> total_ways R d <> 0 -> extremes R d lo hi ->
    exists fs h, get_dict_form R d = Ok fs /\ histogram_form fs = Ok h /\ NoDup (map fst h) /\ (forall v, In v (map fst h) <-> lo <= v <= hi) /\
      zsort (map fst h) = zrange lo (hi + 1) /\ forall v, unearest (-1074) (reported R d v * K) (total_ways R d) (fget h v).
  Proof.
    intros d lo hi O T [Ll [Lh B]]. destruct (obtainable_counts d O) as [A _]. destruct (dict_ok d O T) as [fs [E [Ek Ev]]].
    destruct (histogram_form_ok fs lo hi) as [h [Eh [Nh [Kh [Gh Sh]]]]]; try (rewrite Ek; assumption).
    exists fs, h. split; [exact E|]. split; [exact Eh|]. split; [exact Nh|]. split; [exact Kh|]. split; [exact Sh|].
    intros v. rewrite Gh. apply Ev.
  Qed.
  Lemma histogram_form_nil : histogram_form [] = Raise IndexError.
  Proof. reflexivity. Qed.

  Definition table_of (k : list (Z * pyfloat) -> list (Z * pyfloat)) (d : dist) : res (list (Z * pyfloat)) :=
    rbind (get_dict_form R d) (fun m => rbind (histogram_form m) (fun h => Ok (k h))).
  Lemma table_raises : forall k d x, obtainable R d -> (table_of k d = Raise x <-> plot_fails R d x).
  Proof.
    intros k d x O. unfold table_of, plot_fails. destruct (listed_cases d) as [L|[L|[T L]]].
    - rewrite (dict_empty d O L). cbn [rbind]. rewrite histogram_form_nil. cbn [rbind]. split; [intros E; injection E as <-; auto|].
      intros [[_ [_ [v V]]]|[-> _]]; [exfalso; exact (L v V)|reflexivity].
    - rewrite (dict_no_ways d O L). cbn [rbind]. split; [intros E; injection E as <-; auto|].
      intros [[-> _]|[_ H]]; [reflexivity|]. destruct L as [_ [v V]]. exfalso. exact (H v V).
    - destruct (extremes_exist d L) as [lo [hi Ex]]. destruct (filled d lo hi O T Ex) as [fs [h [E [Eh _]]]]. rewrite E. cbn [rbind]. rewrite Eh. cbn [rbind].
      split; [discriminate|]. intros [[_ [Z _]]|[_ H]]; [contradiction|]. destruct L as [v V]. exfalso. exact (H v V).
  Qed.
  Lemma at_least_raises : forall d x, obtainable R d -> (at_least R d = Raise x <-> plot_fails R d x).
  Proof. intros d x O. exact (table_raises (fun h => at_least_loop h (zsort (map fst h)) fone) d x O). Qed.
  Lemma at_most_raises : forall d x, obtainable R d -> (at_most R d = Raise x <-> plot_fails R d x).
  Proof. intros d x O. exact (table_raises (fun h => at_most_loop h (zsort (map fst h)) fzero) d x O). Qed.
  Lemma histogram_eq : forall d : dist, histogram_data R d = table_of sort_points d.
  Proof.
    intros d. unfold histogram_data, table_of. destruct (get_dict_form R d) as [m|x]; [|reflexivity]. cbn [rbind].
    destruct (histogram_form m); reflexivity.
  Qed.
  Lemma histogram_raises : forall d x, obtainable R d -> (histogram_data R d = Raise x <-> plot_fails R d x).
  Proof. intros d x O. rewrite histogram_eq. now apply table_raises. Qed.

  Lemma has_ways : forall d lo hi x, obtainable R d -> extremes R d lo hi -> ~ plot_fails R d x -> x = ZeroDivisionError -> total_ways R d <> 0.
  Proof. intros d lo hi x O [L _] H -> T. apply H. left. split; [reflexivity|]. split; [exact T|]. exists lo. exact L. Qed.

  Lemma shown_extremes : forall d, obtainable R d -> (forall x, ~ plot_fails R d x) -> exists lo hi, extremes R d lo hi.
  Proof.
    intros d O H. apply extremes_exist. destruct (listed_cases d) as [L|[[_ L]|[_ L]]]; auto. exfalso. apply (H IndexError). right. auto.
  Qed.
  Lemma table_extremes : forall (f : dist -> res (list (Z * pyfloat))) d m, obtainable R d -> (forall x, f d = Raise x <-> plot_fails R d x) -> f d = Ok m ->
    exists lo hi, extremes R d lo hi.
  Proof. intros f d m O H E. apply (shown_extremes d O). intros x P. apply H in P. congruence. Qed.

  (** values of entries *)
  Lemma value_frac : forall f x, finite_float f -> fvalue f = Some x -> (x == U f # Kp)%Q.
  Proof. intros f x F E. destruct (fvalue_units f F) as [y [Ey Hy]]. rewrite E in Ey. injection Ey as ->. exact Hy. Qed.

  Lemma rounding_frac : forall f n B T, 0 < T -> finite_float f -> Z.abs (U f * T - K * B) <= n * E50 * T ->
    within_rounding n (inject_Z B / inject_Z T) f.
  Proof.
    intros f n B T HT F H. destruct (fvalue_units f F) as [y [Ey Hy]]. exists y. split; [exact Ey|].
    rewrite (diff_frac y _ (U f) (B * K) T HT Hy (ratio_units B T HT)). cbn [Qabs].
    assert (X : (2 ^ (-50) == E50 # Kp)%Q).
    { change (-50) with (- (50)). rewrite Qpower_opp, <- (Zpower_Qpower 2 50) by lia. pose proof E50_eq as EE. pose proof Kp_eq as Ke.
      unfold Qeq, Qinv. cbn [inject_Z Qnum Qden]. change (2 ^ 50) with (Z.pos (2 ^ 50)). cbn [Qnum Qden]. rewrite Ke.
      change (Z.pos (2 ^ 50)) with (2 ^ 50). lia. }
    rewrite X. unfold Qle. cbn [Qnum Qden inject_Z Qmult]. rewrite Pos.mul_1_l, Pos2Z.inj_mul, Z2Pos.id by exact HT.
    rewrite (Z.mul_comm B K). pose proof Kp_eq. pose proof K_pos.
    replace (n * E50 * (T * Z.pos Kp)) with (n * E50 * T * Z.pos Kp) by ring. apply Z.mul_le_mono_nonneg_r; lia.
  Qed.

  Lemma covers_map : forall (g : nat -> pyfloat) lo hi, lo <= hi -> covers lo hi (map (fun i => (lo + Z.of_nat i, g i)) (seq 0 (Z.to_nat (hi + 1 - lo)))).
  Proof.
    intros g lo hi H. unfold covers. rewrite map_map. cbn [fst].
    assert (E : map (fun i => lo + Z.of_nat i) (seq 0 (Z.to_nat (hi + 1 - lo))) = zrange lo (hi + 1)).
    { unfold zrange. reflexivity. }
    rewrite E. split; [now eapply zrange_strong|]. intros v. rewrite in_zrange. lia.
  Qed.
  Lemma in_map_seq : forall (g : nat -> pyfloat) lo n v f, In (v, f) (map (fun i => (lo + Z.of_nat i, g i)) (seq 0 n)) ->
    exists i, v = lo + Z.of_nat i /\ f = g i /\ (i < n)%nat.
  Proof.
    intros g lo n v f H. apply in_map_iff in H. destruct H as [i [E I]]. injection E as <- <-. apply in_seq in I. exists i. repeat split; lia.
  Qed.

  Lemma at_least_survival : forall d m, obtainable R d -> at_least R d = Ok m -> is_survival_function R d m.
  Proof.
    intros d m O E. destruct (table_extremes (at_least R) d m O (fun x => at_least_raises d x O) E) as [lo [hi Ex]]. exists lo, hi. split; [exact Ex|].
    assert (T : total_ways R d <> 0).
    { apply (has_ways d lo hi ZeroDivisionError O Ex); auto. intros P. apply (at_least_raises d _ O) in P. congruence. }
    destruct (filled d lo hi O T Ex) as [fs [h [Ef [Eh [Nh [Kh [Sh Un]]]]]]].
    destruct (obtainable_counts d O) as [Nd [Nn [_ T0]]]. destruct Ex as [Ll [Lh B]]. pose proof (B lo Ll) as Blo.
    assert (HN : 0 < total_ways R d) by lia.
    assert (Hlo : forall v, In v (map fst (get_result_map R d)) -> lo <= v) by (intros v V; apply (B v V)).
    unfold at_least in E. rewrite Ef in E. cbn [rbind] in E. rewrite Eh in E. cbn [rbind] in E. rewrite Sh in E. injection E as <-.
    pose proof (at_least_loop_eq h lo (Z.to_nat (hi + 1 - lo)) 0) as L. cbn [Z.of_nat] in L. rewrite Z.add_0_r in L.
    replace (lo + Z.of_nat (Z.to_nat (hi + 1 - lo))) with (hi + 1) in L by lia. change (left_after h lo 0) with fone in L. rewrite L. clear L.
    set (M := get_result_map R d) in *. set (N := total_ways R d) in *.
    pose proof (fun n => left_after_inv N M h lo HN Nd Nn eq_refl Hlo Un n) as Inv. cbn zeta in Inv.
    pose proof (fun n => left_after_step N M h lo HN Nd Nn eq_refl Hlo Un n) as Step.
    assert (V : forall i, finite_float (fdiv (left_after h lo i) fone) /\ U (fdiv (left_after h lo i) fone) = U (left_after h lo i)).
    { intros i. apply fdiv_one; [lia|]. apply Inv. }
    split; [apply covers_map; lia|]. split; [|split].
    - intros f I. apply in_map_seq in I. destruct I as [i [Ei [-> _]]]. assert (i = 0%nat) as -> by lia.
      destruct (V 0%nat) as [F0 U0]. destruct (fvalue_units _ F0) as [y [Ey Hy]]. exists y. split; [exact Ey|]. rewrite Hy, U0.
      cbn [left_after]. destruct one_units as [_ ->]. unfold Qeq. cbn [Qnum Qden]. rewrite Kp_eq. lia.
    - intros v f x v' f' x' I I' Le E E'. apply in_map_seq in I. apply in_map_seq in I'. destruct I as [i [-> [-> _]]]. destruct I' as [j [-> [-> _]]].
      destruct (V i) as [Fi Ui]. destruct (V j) as [Fj Uj]. rewrite (value_frac _ _ Fi E), (value_frac _ _ Fj E'), Ui, Uj. apply frac_le.
      assert (Lij : (i <= j)%nat) by lia. clear - Step Lij. induction Lij as [|j Lij IH]; [lia|]. specialize (Step j). lia.
    - intros v f I. apply in_map_seq in I. destruct I as [i [-> [-> _]]]. destruct (V i) as [Fi Ui].
      unfold probability_at_least. apply rounding_frac; [exact HN|exact Fi|]. rewrite Ui. replace (lo + Z.of_nat i - lo) with (Z.of_nat i) by lia.
      destruct (Inv i) as [_ [_ [_ Er]]].
      assert (Ew : ways_where R d (fun w => lo + Z.of_nat i <=? w) = N - count_where (fun w => w <? lo + Z.of_nat i) M).
      { pose proof (count_where_split M (fun w => w <? lo + Z.of_nat i)) as Sp. cbv beta in Sp.
        change (ways_where R d (fun w => lo + Z.of_nat i <=? w)) with (count_where (fun w => lo + Z.of_nat i <=? w) M).
        rewrite (count_where_ext M (fun w => lo + Z.of_nat i <=? w) (fun w => negb (w <? lo + Z.of_nat i))) by (intros v _; rewrite Z.leb_antisym; reflexivity).
        change N with (zsum (map snd M)). lia. }
      rewrite Ew. exact Er.
  Qed.

  Lemma at_most_distribution : forall d m, obtainable R d -> at_most R d = Ok m -> is_distribution_function R d m.
  Proof.
    intros d m O E. destruct (table_extremes (at_most R) d m O (fun x => at_most_raises d x O) E) as [lo [hi Ex]]. exists lo, hi. split; [exact Ex|].
    assert (T : total_ways R d <> 0).
    { apply (has_ways d lo hi ZeroDivisionError O Ex); auto. intros P. apply (at_most_raises d _ O) in P. congruence. }
    destruct (filled d lo hi O T Ex) as [fs [h [Ef [Eh [Nh [Kh [Sh Un]]]]]]].
    destruct (obtainable_counts d O) as [Nd [Nn [_ T0]]]. destruct Ex as [Ll [Lh B]]. pose proof (B lo Ll) as Blo.
    assert (HN : 0 < total_ways R d) by lia.
    assert (Hlo : forall v, In v (map fst (get_result_map R d)) -> lo <= v) by (intros v V; apply (B v V)).
    unfold at_most in E. rewrite Ef in E. cbn [rbind] in E. rewrite Eh in E. cbn [rbind] in E. rewrite Sh in E. injection E as <-.
    pose proof (at_most_loop_eq h lo (Z.to_nat (hi + 1 - lo)) 0) as L. cbn [Z.of_nat] in L. rewrite Z.add_0_r in L.
    replace (lo + Z.of_nat (Z.to_nat (hi + 1 - lo))) with (hi + 1) in L by lia. change (added_up h lo 0) with fzero in L. rewrite L. clear L.
    set (M := get_result_map R d) in *. set (N := total_ways R d) in *.
    pose proof (fun n => added_up_inv N M h lo HN Nd Nn eq_refl Hlo Un n) as Inv. cbn zeta in Inv.
    pose proof (fun n => added_up_step N M h lo HN Nd Nn eq_refl Hlo Un n) as Step.
    assert (V : forall i, finite_float (fdiv (added_up h lo i) fone) /\ U (fdiv (added_up h lo i) fone) = U (added_up h lo i)).
    { intros i. apply fdiv_one; [lia|]. apply Inv. }
    split; [apply (covers_map (fun i => fdiv (added_up h lo (Datatypes.S i)) fone)); lia|]. split; [|split].
    - intros f I. apply (in_map_seq (fun i => fdiv (added_up h lo (Datatypes.S i)) fone)) in I. destruct I as [i [Ei [-> _]]]. assert (i = 0%nat) as -> by lia.
      destruct (V 1%nat) as [F0 U0]. destruct (fvalue_units _ F0) as [y [Ey Hy]].
      destruct (nearest_of _ N (fget h lo) (probability R d lo) HN (Un lo) (probability_units d lo HN)) as [v [Ev [Dv Nv]]].
      assert (Eq : (y == v)%Q). { rewrite Hy, (value_frac _ _ (proj1 (Un lo)) Ev), U0. apply frac_eq. eapply added_up_first; eauto. }
      exists y. split; [exact Ey|]. split.
      + destruct Dv as [m1 [e1 [D1 [D2 D3]]]]. exists m1, e1. split; [exact D1|]. split; [exact D2|]. exact (Qeq_trans _ _ _ Eq D3).
      + intros z Z. destruct (Nv z Z) as [N1 N2]. assert (Ed : (Qabs (y - probability R d lo) == Qabs (v - probability R d lo))%Q) by (apply Qabs_wd, Qplus_comp; [exact Eq|reflexivity]).
        split; [apply Qle_trans with (2 := N1), Qle_lteq; now right|]. intros X. destruct N2 as [X1|X1]; [exact (Qeq_trans _ _ _ (Qeq_sym _ _ Ed) X)|left; exact (Qeq_trans _ _ _ X1 (Qeq_sym _ _ Eq))|right].
        destruct X1 as [m1 [e1 [D1 [D2 [D3 [D4 D5]]]]]]. exists m1, e1. repeat split; try assumption; try apply D2. exact (Qeq_trans _ _ _ Eq D5).
    - intros v f x v' f' x' I I' Le E E'. apply (in_map_seq (fun i => fdiv (added_up h lo (Datatypes.S i)) fone)) in I. apply (in_map_seq (fun i => fdiv (added_up h lo (Datatypes.S i)) fone)) in I'. destruct I as [i [-> [-> _]]]. destruct I' as [j [-> [-> _]]].
      destruct (V (Datatypes.S i)) as [Fi Ui]. destruct (V (Datatypes.S j)) as [Fj Uj]. rewrite (value_frac _ _ Fi E), (value_frac _ _ Fj E'), Ui, Uj. apply frac_le.
      assert (Lij : (i <= j)%nat) by lia. clear - Step Lij. induction Lij as [|j Lij IH]; [lia|]. specialize (Step (Datatypes.S j)). lia.
    - intros v f I. apply (in_map_seq (fun i => fdiv (added_up h lo (Datatypes.S i)) fone)) in I. destruct I as [i [-> [-> _]]]. destruct (V (Datatypes.S i)) as [Fi Ui].
      unfold probability_at_most. apply rounding_frac; [exact HN|exact Fi|]. rewrite Ui. replace (lo + Z.of_nat i - lo + 1) with (Z.of_nat (Datatypes.S i)) by lia.
      destruct (Inv (Datatypes.S i)) as [_ [_ [_ Er]]].
      assert (Ew : ways_where R d (fun w => w <=? lo + Z.of_nat i) = count_where (fun w => w <? lo + Z.of_nat (Datatypes.S i)) M).
      { change (ways_where R d (fun w => w <=? lo + Z.of_nat i)) with (count_where (fun w => w <=? lo + Z.of_nat i) M).
        apply count_where_ext. intros v _. destruct (Z.leb_spec v (lo + Z.of_nat i)), (Z.ltb_spec v (lo + Z.of_nat (Datatypes.S i))); auto; lia. }
      rewrite Ew. exact Er.
  Qed.

  (** ** Histograms *)
  Lemma insert_point_perm : forall p l, Permutation (insert_point p l) (p :: l).
  Proof.
    intros p l. induction l as [|q l IH]; cbn [insert_point]; [reflexivity|]. destruct (fst p <=? fst q); [reflexivity|].
    rewrite IH. apply perm_swap.
  Qed.
  Lemma sort_points_perm : forall l, Permutation (sort_points l) l.
  Proof. induction l as [|p l IH]; cbn [sort_points fold_right]; [constructor|]. rewrite insert_point_perm. now constructor. Qed.
  Lemma insert_point_sorted : forall p l, StronglySorted Z.le (map fst l) -> StronglySorted Z.le (map fst (insert_point p l)).
  Proof.
    intros p l. induction l as [|q l IH]; intros S; cbn [insert_point map]; [repeat constructor|]. cbn [map] in S. inversion S as [|? ? S1 F1]; subst.
    destruct (Z.leb_spec (fst p) (fst q)) as [L|L]; cbn [map].
    - constructor; [exact S|]. constructor; [exact L|]. eapply Forall_impl; [|exact F1]. cbv beta. intros; lia.
    - constructor; [now apply IH|]. apply Forall_forall. intros x X.
      apply (Permutation_in _ (Permutation_map fst (insert_point_perm p l))) in X. destruct X as [<-|X]; [lia|].
      rewrite Forall_forall in F1. now apply F1.
  Qed.
  Lemma sort_points_sorted : forall l, StronglySorted Z.le (map fst (sort_points l)).
  Proof. induction l as [|p l IH]; cbn [sort_points fold_right]; [constructor|]. now apply insert_point_sorted. Qed.
  Lemma sorted_nodup : forall l, StronglySorted Z.le l -> NoDup l -> StronglySorted Z.lt l.
  Proof.
    intros l S. induction S as [|x l S IH F]; intros N; [constructor|]. inversion N as [|? ? Nx Nl]; subst. constructor; [now apply IH|].
    rewrite Forall_forall in *. intros y Y. specialize (F y Y). assert (x <> y) by (intros ->; contradiction). lia.
  Qed.
  Lemma sorted_points_same : forall l, StronglySorted Z.lt (map fst l) -> sort_points l = l.
  Proof.
    induction l as [|p l IH]; intros S; [reflexivity|]. cbn [map] in S. inversion S as [|? ? S1 F1]; subst. cbn [sort_points fold_right]. fold (sort_points l).
    rewrite IH by exact S1. destruct l as [|q l]; [reflexivity|]. cbn [insert_point]. inversion F1; subst. replace (fst p <=? fst q) with true by (symmetry; apply Z.leb_le; lia). reflexivity.
  Qed.

  Lemma histogram_bars : forall d m, obtainable R d -> histogram_data R d = Ok m -> is_histogram R d m.
  Proof.
    intros d m O E. destruct (table_extremes (histogram_data R) d m O (fun x => histogram_raises d x O) E) as [lo [hi Ex]]. exists lo, hi. split; [exact Ex|].
    assert (T : total_ways R d <> 0).
    { apply (has_ways d lo hi ZeroDivisionError O Ex); auto. intros P. apply (histogram_raises d _ O) in P. congruence. }
    destruct (filled d lo hi O T Ex) as [fs [h [Ef [Eh [Nh [Kh [Sh Un]]]]]]]. destruct (obtainable_counts d O) as [_ [_ [_ T0]]].
    rewrite histogram_eq in E. unfold table_of in E. rewrite Ef in E. cbn [rbind] in E. rewrite Eh in E. cbn [rbind] in E. injection E as <-.
    pose proof (sort_points_perm h) as P. pose proof (Permutation_map fst P) as Pk. split; [split|].
    - apply sorted_nodup; [apply sort_points_sorted|]. apply (Permutation_NoDup (Permutation_sym Pk) Nh).
    - intros v. rewrite <- Kh. split; apply Permutation_in; [exact Pk|now symmetry].
    - intros v f I. apply (Permutation_in _ P) in I. rewrite <- (fget_in h v f Nh I). eapply nearest_of; [|apply Un|]; [lia|]. apply probability_units. lia.
  Qed.

  (** The tables of at_least and at_most are plotted as they are *)
  Lemma empty_or_covers : forall d m, obtainable R d -> (at_least R d = Ok m \/ at_most R d = Ok m) -> StronglySorted Z.lt (map fst m).
  Proof.
    intros d m O [H|H].
    - destruct (at_least_survival d m O H) as [lo [hi [_ [[C _] _]]]]. exact C.
    - destruct (at_most_distribution d m O H) as [lo [hi [_ [[C _] _]]]]. exact C.
  Qed.
  Lemma at_least_plotted : forall d, obtainable R d -> at_least_histogram_data R d = at_least R d.
  Proof.
    intros d O. unfold at_least_histogram_data. destruct (at_least R d) as [m|x] eqn:E; [|reflexivity]. cbn [rmap rbind]. f_equal.
    apply sorted_points_same. apply (empty_or_covers d m O). auto.
  Qed.
  Lemma at_most_plotted : forall d, obtainable R d -> at_most_histogram_data R d = at_most R d.
  Proof.
    intros d O. unfold at_most_histogram_data. destruct (at_most R d) as [m|x] eqn:E; [|reflexivity]. cbn [rmap rbind]. f_equal.
    apply sorted_points_same. apply (empty_or_covers d m O). auto.
  Qed.
End Proofs.
