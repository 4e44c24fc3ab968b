(** * SumProofs: C73 *)
From Coq Require Import QArith Qabs Qround Lqa Floats.SpecFloat.
From Verif Require Import Py PyFacts PyFloat Constraint Distribution DistFacts DiceModel Expr Parser Interp Instances SpecDice DiceFacts SpecProgram
  SpecInterp InterpRun SpecAlgebra AlgebraFacts ExprFacts ProgramFacts ProgramProofs SpecProb ProbProofs PlotProofs ExchangeProofs BetterProofs SpecCases CaseProofs SpecSum SpecAlgebra.
Local Open Scope Z_scope.

(** ** The error of one float *)
Lemma grid_near : forall x : Q, (0 <= x <= 1)%Q -> exists y, is_double y /\ (Qabs (y - x) <= 2 ^ (-54))%Q.
Proof.
  intros x [H0 H1]. set (k := Qfloor (x * inject_Z (2 ^ 53) + (1 # 2))).
  assert (L : (inject_Z k <= x * inject_Z (2 ^ 53) + (1 # 2))%Q) by apply Qfloor_le.
  assert (U : (x * inject_Z (2 ^ 53) + (1 # 2) < inject_Z (k + 1))%Q) by apply Qlt_floor.
  rewrite inject_Z_plus in U. change (inject_Z 1) with 1%Q in U. assert (E : (2 ^ (-53) == / inject_Z (2 ^ 53))%Q) by reflexivity.
  assert (E' : (2 ^ (-54) == (1 # 2) * / inject_Z (2 ^ 53))%Q) by reflexivity.
  assert (P : (0 < inject_Z (2 ^ 53))%Q) by reflexivity. set (K := inject_Z (2 ^ 53)) in *.
  assert (Kx : (0 <= x * K)%Q) by (apply Qmult_le_0_compat; lra). assert (Kx' : (x * K <= K)%Q) by (setoid_replace K with (1 * K)%Q at 2 by ring; apply Qmult_le_compat_r; lra).
  assert (k0 : 0 <= k). { assert (X : (inject_Z (-1) < inject_Z k)%Q) by (change (inject_Z (-1)) with (-1 # 1)%Q; lra). rewrite <- Zlt_Qlt in X. lia. }
  assert (k1 : k <= 2 ^ 53). { assert (X : (inject_Z k < inject_Z (2 ^ 53 + 1))%Q) by (rewrite inject_Z_plus; fold K; change (inject_Z 1) with 1%Q; lra). rewrite <- Zlt_Qlt in X. lia. }
  assert (N : (Qabs (inject_Z k * 2 ^ (-53) - x) <= 2 ^ (-54))%Q).
  { rewrite E, E'. setoid_replace (inject_Z k * / K - x)%Q with ((inject_Z k - x * K) * / K)%Q by (field; lra).
    rewrite Qabs_Qmult. assert (I : (0 < / K)%Q) by (apply Qinv_lt_0_compat; exact P). rewrite (Qabs_pos (/ K)) by lra. apply Qmult_le_compat_r; [|lra]. apply Qabs_Qle_condition. lra. }
  destruct (Z.eq_dec k (2 ^ 53)) as [->|Nk].
  - exists 1%Q. split; [|setoid_replace 1%Q with (inject_Z (2 ^ 53) * 2 ^ (-53))%Q by reflexivity; exact N]. exists 1, 0. split; [reflexivity|]. split; [lia | reflexivity].
  - exists (inject_Z k * 2 ^ (-53))%Q. split; [|exact N]. exists k, (-53). split; [lia|]. split; [lia | reflexivity].
Qed.
Lemma nearest_error : forall x f, (0 <= x <= 1)%Q -> nearest x f -> exists y, fvalue f = Some y /\ (Qabs (y - x) <= 2 ^ (-54))%Q.
Proof.
  intros x f H [v [E [_ N]]]. exists v. split; auto. destruct (grid_near x H) as [y [D Y]]. destruct (N y D) as [N1 _]. lra.
Qed.

(** ** Sums *)
Lemma qabs_sum : forall (m : list (Z * pyfloat)) g (p : Z -> Q), (forall v f, In (v, f) m -> exists y, fvalue f = Some y /\ (Qabs (y - p v) <= 2 ^ (-54))%Q) ->
  (Qabs (shown_sum g m - qtotal (map (fun v => inject_Z (g v) * p v)%Q (map fst m))) <= rounding_of_sum g m)%Q.
Proof.
  intros m g p. unfold rounding_of_sum. induction m as [|[v f] m IH]; intros H.
  - cbn [shown_sum fold_right map qtotal]. change (zsum []) with 0. setoid_replace (0 - 0)%Q with 0%Q by ring. setoid_replace (inject_Z 0 * 2 ^ (-54))%Q with 0%Q by ring. discriminate.
  - destruct (H v f (or_introl eq_refl)) as [y [E Y]]. specialize (IH (fun w h I => H w h (or_intror I))). cbn [shown_sum fold_right map fst snd qtotal]. rewrite E.
    fold (shown_sum g m) (qtotal (map (fun v => inject_Z (g v) * p v)%Q (map fst m))). rewrite zsum_cons, inject_Z_plus.
    set (a := shown_sum g m) in *. set (b := qtotal (map (fun v => inject_Z (g v) * p v)%Q (map fst m))) in *. set (c := inject_Z (zsum (map (fun p0 : Z * pyfloat => Z.abs (g (fst p0))) m))) in *. clearbody a b c.
    setoid_replace (inject_Z (g v) * y + a - (inject_Z (g v) * p v + b))%Q with (inject_Z (g v) * (y - p v) + (a - b))%Q by ring.
    eapply Qle_trans; [apply Qabs_triangle|]. rewrite Qmult_plus_distr_l. apply Qplus_le_compat; [|exact IH]. rewrite Qabs_Qmult.
    change (Qabs (inject_Z (g v))) with (inject_Z (Z.abs (g v))). rewrite !(Qmult_comm (inject_Z (Z.abs (g v)))).
    apply Qmult_le_compat_r; [exact Y|]. change 0%Q with (inject_Z 0). rewrite <- Zle_Qle. lia.
Qed.
Lemma counted_rounding : forall test m, zsum (map (fun p : Z * pyfloat => Z.abs (counted test (fst p))) m) <= Z.of_nat (length m).
Proof.
  intros test m. induction m as [|p m IH]; [reflexivity|]. cbn [map length]. rewrite zsum_cons. unfold counted in *. destruct (test (fst p)); lia.
Qed.

Section Sums.
  Context (R : Runtime).
  Notation dist := (dist R).
  Notation keys d := (map fst (get_result_map R d)).

  Lemma probability_unit : forall (d : dist) v, obtainable R d -> total_ways R d <> 0 -> (0 <= probability R d v <= 1)%Q.
  Proof.
    intros d v O T. pose proof (reported_range R d v O) as [A B]. unfold probability. assert (P : (0 < inject_Z (total_ways R d))%Q) by (change 0%Q with (inject_Z 0); rewrite <- Zlt_Qlt; lia). split.
    - apply Qle_shift_div_l; [exact P|]. rewrite Qmult_0_l. change 0%Q with (inject_Z 0). rewrite <- Zle_Qle. exact A.
    - apply Qle_shift_div_r; [exact P|]. rewrite Qmult_1_l, <- Zle_Qle. exact B.
  Qed.
  Lemma dict_ways : forall (d : dist) m, obtainable R d -> get_dict_form R d = Ok m -> m <> [] -> total_ways R d <> 0.
  Proof.
    intros d m O E NE T. assert (X : get_dict_form R d = Raise ZeroDivisionError); [|congruence]. apply dict_raises; [exact O|]. split; [reflexivity|]. split; [exact T|].
    destruct (dict_nearest R d m O E) as [K _]. destruct m as [|[v f] m]; [congruence|]. exists v. unfold listed. rewrite <- K. now left.
  Qed.

  Lemma sum_expected : forall (d : dist) m g, obtainable R d -> get_dict_form R d = Ok m -> m <> [] ->
    (Qabs (shown_sum g m - expected R d g) <= rounding_of_sum g m)%Q.
  Proof.
    intros d m g O E NE. pose proof (dict_ways d m O E NE) as T. destruct (dict_nearest R d m O E) as [K S].
    assert (X : (expected R d g == qtotal (map (fun v => inject_Z (g v) * probability R d v)%Q (map fst m)))%Q).
    { rewrite K. unfold expected. symmetry. rewrite (qtotal_scaled _ _ (fun v => g v * reported R d v) (/ inject_Z (total_ways R d)) (keys d)); [reflexivity|].
      intros v _. unfold probability. rewrite inject_Z_mult. unfold Qdiv. ring. }
    rewrite X. apply qabs_sum. intros v f I. destruct (S v f I) as [N _]. apply nearest_error; [|exact N]. now apply probability_unit.
  Qed.

  Lemma expected_one : forall (d : dist) test, (expected R d (counted test) == inject_Z (ways_where R d test) / inject_Z (total_ways R d))%Q.
  Proof. intros d test. unfold expected. now rewrite ways_where_reported. Qed.
  Lemma ways_everything : forall (d : dist), ways_where R d (fun _ => true) = total_ways R d.
  Proof. intros d. unfold ways_where, total_ways. f_equal. f_equal. induction (get_result_map R d) as [|p l IH]; [reflexivity|]. cbn [filter]. now rewrite IH. Qed.
  Lemma ways_split : forall (d : dist) v, ways_where R d (fun w => v <=? w) + ways_where R d (fun w => w <=? v - 1) = total_ways R d.
  Proof.
    intros d v. unfold ways_where, total_ways. induction (get_result_map R d) as [|[w c] l IH]; [reflexivity|]. cbn [filter map fst snd]. rewrite zsum_cons.
    destruct (v <=? w) eqn:A; destruct (w <=? v - 1) eqn:B; cbn [map snd]; rewrite ?zsum_cons; lia.
  Qed.

  Lemma shown_total : forall (d : dist) m, obtainable R d -> get_dict_form R d = Ok m -> m <> [] ->
    (Qabs (shown_sum (fun _ => 1%Z) m - 1) <= inject_Z (Z.of_nat (length m)) * 2 ^ (-54))%Q.
  Proof.
    intros d m O E NE. pose proof (dict_ways d m O E NE) as T. pose proof (sum_expected d m (counted (fun _ => true)) O E NE) as H. rewrite expected_one, ways_everything in H.
    assert (X : (inject_Z (total_ways R d) / inject_Z (total_ways R d) == 1)%Q) by (field; now apply inject_Z_nonzero). rewrite X in H.
    change (shown_sum (counted (fun _ : Z => true)) m) with (shown_sum (fun _ => 1) m) in H. eapply Qle_trans; [exact H|]. unfold rounding_of_sum.
    apply Qmult_le_compat_r; [|discriminate]. rewrite <- Zle_Qle. apply counted_rounding.
  Qed.
  Lemma shown_mean : forall (d : dist) m, obtainable R d -> get_dict_form R d = Ok m -> m <> [] ->
    (Qabs (shown_sum (fun v => v) m - mean R d) <= rounding_of_sum (fun v => v) m)%Q.
  Proof.
    intros d m O E NE. rewrite <- (expected_mean R d (obtainable_dinv R d O)). now apply sum_expected.
  Qed.

  Lemma qabs_trans : forall a b x e f, (Qabs (a - x) <= e)%Q -> (Qabs (b - x) <= f)%Q -> (Qabs (a - b) <= e + f)%Q.
  Proof. intros a b x e f A B. apply Qabs_Qle_condition in A. apply Qabs_Qle_condition in B. apply Qabs_Qle_condition. lra. Qed.
  Lemma counted_sum : forall (d : dist) m test, obtainable R d -> get_dict_form R d = Ok m -> m <> [] ->
    (Qabs (shown_sum (counted test) m - inject_Z (ways_where R d test) / inject_Z (total_ways R d)) <= inject_Z (Z.of_nat (length m)) * 2 ^ (-54))%Q.
  Proof.
    intros d m test O E NE. rewrite <- expected_one. eapply Qle_trans; [now apply sum_expected|]. apply Qmult_le_compat_r; [|discriminate]. rewrite <- Zle_Qle. apply counted_rounding.
  Qed.
  Lemma extremes_unique : forall (d : dist) lo hi lo' hi', extremes R d lo hi -> extremes R d lo' hi' -> lo = lo' /\ hi = hi'.
  Proof. intros d lo hi lo' hi' [A [B C]] [A' [B' C']]. pose proof (C _ A'). pose proof (C _ B'). pose proof (C' _ A). pose proof (C' _ B). lia. Qed.
  Lemma table_nonempty : forall (d : dist) m lo hi, obtainable R d -> get_dict_form R d = Ok m -> extremes R d lo hi -> m <> [].
  Proof. intros d m lo hi O E [L _] ->. destruct (dict_nearest R d [] O E) as [K _]. unfold listed in L. now rewrite <- K in L. Qed.

  Lemma at_least_sums : forall (d : dist) m t lo hi v f, obtainable R d -> get_dict_form R d = Ok m -> at_least R d = Ok t -> extremes R d lo hi -> In (v, f) t ->
    exists y, fvalue f = Some y /\ (Qabs (y - shown_sum (counted (fun w => v <=? w)%Z) m) <= inject_Z (v - lo) * 2 ^ (-50) + inject_Z (Z.of_nat (length m)) * 2 ^ (-54))%Q.
  Proof.
    intros d m t lo hi v f O E A X I. destruct (at_least_survival R d t O A) as [lo' [hi' [X' [_ [_ [_ W]]]]]]. destruct (extremes_unique d _ _ _ _ X X') as [<- <-].
    destruct (W v f I) as [y [Y B]]. exists y. split; [exact Y|]. eapply qabs_trans; [exact B|]. unfold probability_at_least. eapply counted_sum; eauto. eapply table_nonempty; eauto.
  Qed.
  Lemma at_most_sums : forall (d : dist) m t lo hi v f, obtainable R d -> get_dict_form R d = Ok m -> at_most R d = Ok t -> extremes R d lo hi -> In (v, f) t ->
    exists y, fvalue f = Some y /\ (Qabs (y - shown_sum (counted (fun w => w <=? v)%Z) m) <= inject_Z (v - lo + 1) * 2 ^ (-50) + inject_Z (Z.of_nat (length m)) * 2 ^ (-54))%Q.
  Proof.
    intros d m t lo hi v f O E A X I. destruct (at_most_distribution R d t O A) as [lo' [hi' [X' [_ [_ [_ W]]]]]]. destruct (extremes_unique d _ _ _ _ X X') as [<- <-].
    destruct (W v f I) as [y [Y B]]. exists y. split; [exact Y|]. eapply qabs_trans; [exact B|]. unfold probability_at_most. eapply counted_sum; eauto. eapply table_nonempty; eauto.
  Qed.
  Lemma tables_complement : forall (d : dist) t t' lo hi v f f', obtainable R d -> at_least R d = Ok t -> at_most R d = Ok t' -> extremes R d lo hi -> In (v, f) t -> In (v - 1, f') t' ->
    exists y y', fvalue f = Some y /\ fvalue f' = Some y' /\ (Qabs (y + y' - 1) <= inject_Z (2 * (v - lo)) * 2 ^ (-50))%Q.
  Proof.
    intros d t t' lo hi v f f' O A A' X I I'. destruct (at_least_survival R d t O A) as [lo1 [hi1 [X1 [_ [_ [_ W]]]]]]. destruct (extremes_unique d _ _ _ _ X X1) as [<- <-].
    destruct (at_most_distribution R d t' O A') as [lo2 [hi2 [X2 [_ [_ [_ W']]]]]]. destruct (extremes_unique d _ _ _ _ X X2) as [<- <-].
    destruct (W v f I) as [y [Y B]]. destruct (W' (v - 1) f' I') as [y' [Y' B']]. exists y, y'. split; [exact Y|]. split; [exact Y'|].
    assert (T : total_ways R d <> 0).
    { intros T. assert (P : at_least R d = Raise ZeroDivisionError); [|congruence]. apply at_least_raises; [exact O|]. left. split; [reflexivity|]. split; [exact T|]. exists lo. apply X. }
    assert (S : (probability_at_least R d v + probability_at_most R d (v - 1) == 1)%Q).
    { unfold probability_at_least, probability_at_most. rewrite <- (ways_split d v) in *. set (a := ways_where R d _) in *. set (b := ways_where R d _) in *.
      apply inject_Z_nonzero in T. rewrite inject_Z_plus in *. field. exact T. }
    replace (v - 1 - lo + 1) with (v - lo) in B' by ring. apply Qabs_Qle_condition in B. apply Qabs_Qle_condition in B'. apply Qabs_Qle_condition.
    replace (2 * (v - lo)) with ((v - lo) + (v - lo)) by ring. rewrite inject_Z_plus. set (e := (inject_Z (v - lo))%Q) in *. set (k := (2 ^ (-50))%Q) in *.
    assert (Q : ((e + e) * k == e * k + e * k)%Q) by ring. rewrite Q. lra.
  Qed.

  Lemma shown_total_call : forall lines s s' shown n m, reachable R s -> get_probability_distributions_dict R lines s = (s', Ok shown) -> In (n, m) shown -> m <> [] ->
    (Qabs (shown_sum (fun _ => 1%Z) m - 1) <= inject_Z (Z.of_nat (length m)) * 2 ^ (-54))%Q.
  Proof.
    intros lines s s' shown n m Rs E I NE.
    destruct (table_call R _ _ (fun _ m => m <> [] -> (Qabs (shown_sum (fun _ => 1%Z) m - 1) <= inject_Z (Z.of_nat (length m)) * 2 ^ (-54))%Q) lines s s' shown Rs (fun d b O X N => shown_total d b O X N) E) as [ds [_ F]].
    clear E. induction F as [|nd nm ds shown [_ P] F IH]; [destruct I|]. destruct I as [->|I]; [exact (P NE) | exact (IH I)].
  Qed.
End Sums.
