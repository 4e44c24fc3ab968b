(** * AfreshProofs: what a self-contained program gives does not depend on what was done before (C76) *)
From Coq Require Import Permutation Sorted SpecFloat.
From Verif Require Import Py PyFacts PyFloat Constraint Distribution DiceModel Expr Parser Interp SpecDice SpecProgram SpecInterp SpecRoll SpecExtreme SpecAlgebra DistFacts ExprFacts StateFacts ProgramFacts
  RaiseFacts InterpRun ProgramProofs AlgebraFacts FloatProofs ProbProofs ExtFacts ExtremeFacts ExtProofs PlotProofs RollFacts SpecAfresh.

(** ** Dictionaries with the same entries *)
Lemma fget_perm : forall m m' : list (Z * pyfloat), NoDup (map fst m) -> Permutation m m' -> forall v, fget m v = fget m' v.
Proof.
  intros m m' N P v. assert (N' := Permutation_NoDup (Permutation_map fst P) N). destruct (in_dec Z.eq_dec v (map fst m)) as [I|I].
  - apply in_map_iff in I. destruct I as [[w f] [<- I]]. cbn [fst]. rewrite (fget_in m w f N I). symmetry. apply fget_in; [exact N'|]. now apply (Permutation_in _ P).
  - unfold fget. rewrite (proj2 (dget_none Z.eqb zeqb_iff m v) I). rewrite (proj2 (dget_none Z.eqb zeqb_iff m' v)); [reflexivity|].
    intros J. apply I. apply (Permutation_in _ (Permutation_sym (Permutation_map fst P)) J).
Qed.
Lemma points_perm : forall m m' : list (Z * pyfloat), NoDup (map fst m) -> NoDup (map fst m') -> (forall v, In v (map fst m) <-> In v (map fst m')) ->
  (forall v, fget m v = fget m' v) -> Permutation m m'.
Proof.
  intros m m' N N' K F. apply NoDup_Permutation; [now apply NoDup_map_inv in N|now apply NoDup_map_inv in N'|]. intros [v f]. split; intros I.
  - assert (J : In v (map fst m')) by (apply K; exact (in_map fst _ _ I)). apply in_map_iff in J. destruct J as [[w g] [E J]]. cbn [fst] in E. subst w.
    rewrite <- (fget_in m v f N I), F, (fget_in m' v g N' J). exact J.
  - assert (J : In v (map fst m)) by (apply K; exact (in_map fst _ _ I)). apply in_map_iff in J. destruct J as [[w g] [E J]]. cbn [fst] in E. subst w.
    rewrite <- (fget_in m' v f N' I), <- F, (fget_in m v g N J). exact J.
Qed.

Lemma truediv_raises : forall a n x, int_truediv a n = Raise x -> x = if n =? 0 then ZeroDivisionError else OverflowError.
Proof.
  intros a n x. unfold int_truediv. destruct (n =? 0); [congruence|]. destruct (a =? 0); [discriminate|].
  destruct (SFdiv_core_binary _ _ _ _ _ _) as [[mz ez] lz]. destruct (binary_round_aux _ _ _ _ _ _); congruence.
Qed.
Lemma divide_raises : forall m n x, divide_counts m n = Raise x -> x = if n =? 0 then ZeroDivisionError else OverflowError.
Proof.
  induction m as [|[v c] m IH]; intros n x; cbn [divide_counts]; [discriminate|]. destruct (int_truediv c n) as [f|y] eqn:E; cbn [rbind].
  - destruct (divide_counts m n) as [l|y] eqn:E2; [discriminate|]. cbn. intros H. injection H as <-. now apply IH.
  - intros H. injection H as <-. now apply truediv_raises in E.
Qed.
Lemma divide_perm : forall n m m', Permutation m m' -> same_answer (@Permutation _) (divide_counts m n) (divide_counts m' n).
Proof.
  intros n m m' P. induction P as [|[v c] m m' P IH|[v c] [w e] m|m1 m2 m3 P1 IH1 P2 IH2].
  - constructor.
  - cbn [divide_counts]. destruct (int_truediv c n) as [f|y]; cbn [rbind]; [|reflexivity].
    destruct (divide_counts m n), (divide_counts m' n); cbn in *; auto.
  - cbn [divide_counts]. destruct (int_truediv c n) as [f|y] eqn:E1, (int_truediv e n) as [g|z] eqn:E2; cbn [rbind].
    + destruct (divide_counts m n); cbn; [apply perm_swap|reflexivity].
    + reflexivity.
    + reflexivity.
    + apply truediv_raises in E1. apply truediv_raises in E2. cbn. congruence.
  - destruct (divide_counts m1 n), (divide_counts m2 n), (divide_counts m3 n); cbn in *; try contradiction; try congruence. now transitivity a0.
Qed.
Lemma divide_keys : forall m n l, divide_counts m n = Ok l -> map fst l = map fst m.
Proof.
  induction m as [|[v c] m IH]; intros n l; cbn [divide_counts]; [intros E; injection E as <-; reflexivity|].
  destruct (int_truediv c n) as [f|y]; cbn [rbind]; [|discriminate]. destruct (divide_counts m n) as [l'|y] eqn:E; [|discriminate].
  cbn. intros H. injection H as <-. cbn [map fst]. f_equal. now apply (IH n).
Qed.

Lemma form_perm : forall m m', NoDup (map fst m) -> Permutation m m' ->
  same_answer (fun h h' => NoDup (map fst h) /\ Permutation h h' /\ zsort (map fst h) = zsort (map fst h')) (histogram_form m) (histogram_form m').
Proof.
  intros m m' N P. assert (Pk := Permutation_map fst P). assert (N' := Permutation_NoDup Pk N). destruct (list_eq_dec Z.eq_dec (map fst m) []) as [E|Ne].
  - apply map_eq_nil in E. subst m. apply Permutation_nil in P. subst m'. reflexivity.
  - destruct (pymin_some _ Ne) as [lo Hlo]. destruct (pymax_some _ Ne) as [hi Hhi]. apply pymin_ok in Hlo. apply pymax_ok in Hhi. destruct Hlo as [L1 L2], Hhi as [H1 H2].
    destruct (histogram_form_ok m lo hi N L1 H1) as [h [Eh [Nh [Kh [Fh Zh]]]]]; [intros v I; split; auto|].
    destruct (histogram_form_ok m' lo hi N') as [h' [Eh' [Nh' [Kh' [Fh' Zh']]]]].
    { now apply (Permutation_in _ Pk). } { now apply (Permutation_in _ Pk). } { intros v I. apply (Permutation_in _ (Permutation_sym Pk)) in I. split; auto. }
    rewrite Eh, Eh'. cbn. split; [exact Nh|]. split; [|congruence]. apply points_perm; auto.
    + intros v. now rewrite Kh, Kh'.
    + intros v. rewrite Fh, Fh'. now apply fget_perm.
Qed.

Lemma insert_swap : forall p q l, fst p <> fst q -> insert_point p (insert_point q l) = insert_point q (insert_point p l).
Proof.
  intros p q l Ne. induction l as [|r l IH]; cbn [insert_point].
  - destruct (Z.leb_spec (fst p) (fst q)), (Z.leb_spec (fst q) (fst p)); try reflexivity; lia.
  - destruct (Z.leb_spec (fst q) (fst r)), (Z.leb_spec (fst p) (fst r)); cbn [insert_point];
      repeat match goal with |- context [?a <=? ?b] => destruct (Z.leb_spec a b) end; try lia; try reflexivity. now rewrite IH.
Qed.
Lemma sort_perm : forall m m', NoDup (map fst m) -> Permutation m m' -> sort_points m = sort_points m'.
Proof.
  intros m m' N P. induction P as [|p m m' P IH|p q m|m1 m2 m3 P1 IH1 P2 IH2].
  - reflexivity.
  - cbn [map] in N. inversion N; subst. cbn [sort_points fold_right]. fold (sort_points m) (sort_points m'). now rewrite IH.
  - cbn [map] in N. inversion N as [|? ? N1 N2]; subst. cbn [sort_points fold_right]. apply insert_swap. intros E. apply N1. left. auto.
  - rewrite IH1 by exact N. apply IH2. apply (Permutation_NoDup (Permutation_map fst P1) N).
Qed.
Lemma at_least_loop_ext : forall h h' keys t, (forall v, fget h v = fget h' v) -> at_least_loop h keys t = at_least_loop h' keys t.
Proof. intros h h' keys t F. revert t. induction keys as [|k keys IH]; intros t; [reflexivity|]. cbn [at_least_loop]. now rewrite F, IH. Qed.
Lemma at_most_loop_ext : forall h h' keys t, (forall v, fget h v = fget h' v) -> at_most_loop h keys t = at_most_loop h' keys t.
Proof. intros h h' keys t F. revert t. induction keys as [|k keys IH]; intros t; [reflexivity|]. cbn [at_most_loop]. now rewrite F, IH. Qed.

Lemma added_perm : forall (m m' : list (Z * Z)), Permutation m m' -> forall t, fold_left (fun t vc => t + fst vc * snd vc) m t = fold_left (fun t vc => t + fst vc * snd vc) m' t.
Proof.
  intros m m' P. induction P as [|p m m' P IH|p q m|m1 m2 m3 P1 IH1 P2 IH2]; intros t; cbn [fold_left]; auto.
  - f_equal. lia.
  - now rewrite IH1.
Qed.

Section Two.
  Context (R1 R2 : Runtime).

  Lemma counts_perm : forall (d1 : dist R1) (d2 : dist R2), (forall v, listed R1 d1 v <-> listed R2 d2 v) -> (forall v, reported R1 d1 v = reported R2 d2 v) ->
    Permutation (get_result_map R1 d1) (get_result_map R2 d2).
  Proof.
    intros d1 d2 L C. assert (N1 := result_map_nodup R1 d1). assert (N2 := result_map_nodup R2 d2).
    assert (G : forall (m : list (Z * Z)) v c, NoDup (map fst m) -> In (v, c) m -> match dget Z.eqb m v with Some c => c | None => 0 end = c).
    { clear. induction m as [|[w e] m IH]; intros v c N I; [destruct I|]. cbn [map fst] in N. inversion N as [|? ? N1 N2]; subst. cbn [dget].
      destruct I as [E|I]; [injection E as -> ->; now rewrite Z.eqb_refl|]. destruct (Z.eqb_spec w v) as [->|Ne]; [|now apply IH].
      exfalso. apply N1. exact (in_map fst _ _ I). }
    unfold listed, reported in *.
    apply NoDup_Permutation; [now apply NoDup_map_inv in N1|now apply NoDup_map_inv in N2|]. intros [v c]. split; intros I.
    - assert (J : In v (map fst (get_result_map R2 d2))) by (apply L; exact (in_map fst _ _ I)). apply in_map_iff in J. destruct J as [[w e] [E J]]. cbn [fst] in E. subst w.
      rewrite <- (G _ v c N1 I), C, (G _ v e N2 J). exact J.
    - assert (J : In v (map fst (get_result_map R1 d1))) by (apply L; exact (in_map fst _ _ I)). apply in_map_iff in J. destruct J as [[w e] [E J]]. cbn [fst] in E. subst w.
      rewrite <- (G _ v c N2 I), <- C, (G _ v e N1 J). exact J.
  Qed.

  Lemma counts_shows : forall (d1 : dist R1) (d2 : dist R2), dinv R1 d1 -> dinv R2 d2 -> (forall v, listed R1 d1 v <-> listed R2 d2 v) -> (forall v, reported R1 d1 v = reported R2 d2 v) ->
    shows_same R1 R2 d1 d2.
  Proof.
    intros d1 d2 D1 D2 L C. assert (P := counts_perm d1 d2 L C).
    assert (Ct : d_count d1 = d_count d2) by (rewrite <- (total_count R1 d1 D1), <- (total_count R2 d2 D2); unfold total_ways; apply zsum_perm, Permutation_map; exact P).
    assert (F : same_answer (@Permutation _) (get_dict_form R1 d1) (get_dict_form R2 d2)) by (unfold get_dict_form; rewrite Ct; now apply divide_perm).
    assert (T : forall k : list (Z * pyfloat) -> list (Z * pyfloat),
      (forall h h', NoDup (map fst h) -> Permutation h h' -> zsort (map fst h) = zsort (map fst h') -> k h = k h') -> table_of R1 k d1 = table_of R2 k d2).
    { intros k K. unfold table_of. destruct (get_dict_form R1 d1) as [m|x] eqn:E1, (get_dict_form R2 d2) as [m'|y] eqn:E2; cbn in F; try contradiction; [|cbn; congruence].
      assert (N : NoDup (map fst m)) by (unfold get_dict_form in E1; rewrite (divide_keys _ _ _ E1); apply result_map_nodup).
      cbn [rbind]. assert (H := form_perm m m' N F). destruct (histogram_form m) as [h|x], (histogram_form m') as [h'|y]; cbn in *; try contradiction; [|congruence].
      f_equal. now apply K. }
    split; [exact P|]. split; [exact F|]. split; [unfold d_average; now rewrite Ct, (added_perm _ _ P)|].
    split; [|split].
    - apply (T (fun h => at_least_loop h (zsort (map fst h)) fone)). intros h h' N Q E. rewrite E. apply at_least_loop_ext. now apply fget_perm.
    - apply (T (fun h => at_most_loop h (zsort (map fst h)) fzero)). intros h h' N Q E. rewrite E. apply at_most_loop_ext. now apply fget_perm.
    - rewrite !histogram_eq. apply T. intros h h' N Q E. now apply sort_perm.
  Qed.

  (** ** Runs *)
  Lemma runs_show : forall so p s1 s2, sinv R1 s1 -> sinv R2 s2 -> good_program p -> sided p ->
    same_answer (shows_same R1 R2) (snd (run R1 so p s1)) (snd (run R2 so p s2)).
  Proof.
    intros so p s1 s2 I1 I2 G S. destruct (run R1 so p s1) as [t1 [d1|x1]] eqn:E1, (run R2 so p s2) as [t2 [d2|x2]] eqn:E2; cbn [snd same_answer].
    - apply counts_shows; [exact (run_dinv R1 so p s1 t1 d1 I1 G E1)|exact (run_dinv R2 so p s2 t2 d2 I2 G E2)| |].
      + intros v. rewrite (run_listed R1 so p s1 t1 d1 I1 G E1 v), (run_listed R2 so p s2 t2 d2 I2 G E2 v). reflexivity.
      + intros v. rewrite (run_reported R1 so p s1 t1 d1 I1 G E1 v), (run_reported R2 so p s2 t2 d2 I2 G E2 v). reflexivity.
    - destruct (run_raises R2 so p s2 t2 x2 I2 G S E2) as [_ C]. exact (run_none R1 so p s1 t1 d1 I1 G E1 C).
    - destruct (run_raises R1 so p s1 t1 x1 I1 G S E1) as [_ C]. exact (run_none R2 so p s2 t2 d2 I2 G E2 C).
    - destruct (run_raises R1 so p s1 t1 x1 I1 G S E1) as [-> _]. destruct (run_raises R2 so p s2 t2 x2 I2 G S E2) as [-> _]. reflexivity.
  Qed.
End Two.

Lemma closed_more : forall p kn n e, closed kn p -> In (Some n, e) p \/ In n kn -> closed kn (p ++ [(None, EVar n)]).
Proof.
  induction p as [|[m f] p IH]; intros kn n e C H; cbn [app closed] in *.
  - destruct H as [[]|H]. split; [|exact Logic.I]. intros k [<-|[]]. exact H.
  - destruct C as [C1 C2]. split; [exact C1|]. apply (IH _ n e C2). destruct H as [[E|H]|H]; [injection E as -> ->; right; now left|now left|right; destruct m; [now right|exact H]].
Qed.
Lemma good_more : forall p n, good_program p -> assigned p n -> good_program (p ++ [(None, EVar n)]).
Proof.
  intros p n [Hp [C G]] [e I]. split; [destruct p; discriminate|]. split; [apply (closed_more p [] n e C); now left|].
  intros m f J. apply in_app_or in J. destruct J as [J|[E|[]]]; [exact (G m f J)|]. injection E as <- <-. split; [exact Logic.I|exact Logic.I].
Qed.
Lemma sided_more : forall p n, sided p -> sided (p ++ [(None, EVar n)]).
Proof. intros p n S m I. apply S. unfold program_dice in *. rewrite flat_map_app in I. apply in_app_or in I. destruct I as [I|I]; [exact I|destruct I]. Qed.

Section One.
  Context (R : Runtime).
  Lemma run_more : forall so p n s, p <> [] -> run R so (p ++ [(None, EVar n)]) s =
    match run R so p s with
    | (s', Ok _) => match dget text_eqb (st_var s') n with Some d => (after_line R so d s', Ok d) | None => (s', Raise KeyError) end
    | (s', Raise x) => (s', Raise x) end.
  Proof.
    intros so p n. induction p as [|l p IH]; intros s Hp; [congruence|]. clear Hp. destruct p as [|l2 p].
    - cbn [app run]. unfold bind. destruct (dist_of R (line_expr l) s) as [s1 [d|x]]; [|reflexivity].
      cbn [line_expr dist_of]. unfold get_var. destruct (dget text_eqb (st_var (after_line R so d s1)) n); reflexivity.
    - change ((l :: l2 :: p) ++ [(None, EVar n)]) with (l :: l2 :: (p ++ [(None, EVar n)])).
      change (run R so (l :: l2 :: p ++ [(None, EVar n)])) with (bind R (dist_of R (line_expr l)) (fun d s => run R so ((l2 :: p) ++ [(None, EVar n)]) (after_line R so d s))).
      change (run R so (l :: l2 :: p)) with (bind R (dist_of R (line_expr l)) (fun d s => run R so (l2 :: p) (after_line R so d s))).
      unfold bind. destruct (dist_of R (line_expr l) s) as [s1 [d|x]]; [|reflexivity]. apply IH. discriminate.
  Qed.
End One.

Section Calls.
  Context (R1 R2 : Runtime).

  Lemma same_distributions : forall s1 s2 lines p, reachable R1 s1 -> reachable R2 s2 -> program_text lines p -> good_program p -> sided p ->
    same_answer (fun dict1 dict2 => forall n, n = stdout \/ assigned p n ->
      exists d1 d2, dget text_eqb dict1 n = Some d1 /\ dget text_eqb dict2 n = Some d2 /\ shows_same R1 R2 d1 d2)
      (snd (get_probability_distributions R1 lines s1)) (snd (get_probability_distributions R2 lines s2)).
  Proof.
    intros s1 s2 lines p H1 H2 T G S. assert (I1 := reachable_sinv R1 s1 H1). assert (I2 := reachable_sinv R2 s2 H2). assert (Hp := proj1 G).
    unfold get_probability_distributions. destruct (dist_lines_run R1 p lines s1 false Hp T) as [E1 O1]. destruct (dist_lines_run R2 p lines s2 false Hp T) as [E2 O2].
    rewrite E1, E2. assert (A := runs_show R1 R2 true p s1 s2 I1 I2 G S).
    assert (B : forall n, assigned p n -> same_answer (shows_same R1 R2) (snd (run R1 true (p ++ [(None, EVar n)]) s1)) (snd (run R2 true (p ++ [(None, EVar n)]) s2)))
      by (intros n Hn; apply runs_show; auto using good_more, sided_more).
    assert (K1 : forall n, assigned p n -> snd (run R1 true (p ++ [(None, EVar n)]) s1) <> Raise KeyError).
    { intros n Hn E. destruct (run_good R1 true (p ++ [(None, EVar n)]) s1 I1 (good_more p n G Hn)) as [s' [r [Er Hr]]]. rewrite Er in E. cbn [snd] in E. subst r. discriminate. }
    assert (K2 : forall n, assigned p n -> snd (run R2 true (p ++ [(None, EVar n)]) s2) <> Raise KeyError).
    { intros n Hn E. destruct (run_good R2 true (p ++ [(None, EVar n)]) s2 I2 (good_more p n G Hn)) as [s' [r [Er Hr]]]. rewrite Er in E. cbn [snd] in E. subst r. discriminate. }
    setoid_rewrite (fun n => run_more R1 true p n s1 Hp) in B. setoid_rewrite (fun n => run_more R2 true p n s2 Hp) in B.
    setoid_rewrite (fun n => run_more R1 true p n s1 Hp) in K1. setoid_rewrite (fun n => run_more R2 true p n s2 Hp) in K2.
    destruct (run R1 true p s1) as [t1 [d1|x1]], (run R2 true p s2) as [t2 [d2|x2]]; cbn [fst snd rmap rbind same_answer] in *; try contradiction; [|exact A].
    intros n [->|Hn]; [exists d1, d2; auto|]. specialize (B n Hn). specialize (K1 n Hn). specialize (K2 n Hn).
    destruct (dget text_eqb (st_var t1) n) as [e1|], (dget text_eqb (st_var t2) n) as [e2|]; cbn [snd same_answer] in *; try congruence. eauto.
  Qed.

  Lemma same_plot : forall (f1 : dist R1 -> res (list (Z * pyfloat))) (f2 : dist R2 -> res (list (Z * pyfloat))),
    (forall d1 d2, shows_same R1 R2 d1 d2 -> f1 d1 = f2 d2) -> forall s1 s2 lines p, reachable R1 s1 -> reachable R2 s2 -> program_text lines p -> good_program p -> sided p ->
    snd (bind R1 (last_dist R1 (empty_dist R1) lines) (fun d => lift R1 (with_average R1 f1 d)) s1) = snd (bind R2 (last_dist R2 (empty_dist R2) lines) (fun d => lift R2 (with_average R2 f2 d)) s2).
  Proof.
    intros f1 f2 F s1 s2 lines p H1 H2 T G S. assert (A := runs_show R1 R2 false p s1 s2 (reachable_sinv R1 s1 H1) (reachable_sinv R2 s2 H2) G S).
    unfold bind. rewrite (last_dist_run R1 p lines s1 _ (proj1 G) T), (last_dist_run R2 p lines s2 _ (proj1 G) T).
    destruct (run R1 false p s1) as [t1 [d1|x1]], (run R2 false p s2) as [t2 [d2|x2]]; cbn [snd same_answer lift] in *; try contradiction; [|congruence].
    unfold lift. cbn [snd]. unfold with_average. now rewrite (F d1 d2 A), (proj1 (proj2 (proj2 A))).
  Qed.
  Lemma same_histograms : forall s1 s2 lines p, reachable R1 s1 -> reachable R2 s2 -> program_text lines p -> good_program p -> sided p ->
    snd (get_histogram R1 lines s1) = snd (get_histogram R2 lines s2) /\
    snd (get_at_least_histogram R1 lines s1) = snd (get_at_least_histogram R2 lines s2) /\
    snd (get_at_most_histogram R1 lines s1) = snd (get_at_most_histogram R2 lines s2).
  Proof.
    intros s1 s2 lines p H1 H2 T G S. split; [|split].
    - apply (same_plot (histogram_data R1) (histogram_data R2)) with (p := p); auto. intros d1 d2 H. apply H.
    - apply (same_plot (at_least_histogram_data R1) (at_least_histogram_data R2)) with (p := p); auto. intros d1 d2 H. unfold at_least_histogram_data. f_equal. apply H.
    - apply (same_plot (at_most_histogram_data R1) (at_most_histogram_data R2)) with (p := p); auto. intros d1 d2 H. unfold at_most_histogram_data. f_equal. apply H.
  Qed.

  Lemma same_tables : forall s1 s2 lines p n, reachable R1 s1 -> reachable R2 s2 -> program_text lines p -> good_program p -> sided p -> n = stdout \/ assigned p n ->
    (forall a1 a2, snd (get_average R1 lines s1) = Ok a1 -> snd (get_average R2 lines s2) = Ok a2 ->
       exists f, dget text_eqb a1 n = Some f /\ dget text_eqb a2 n = Some f) /\
    (forall m1 m2, snd (get_probability_distributions_dict R1 lines s1) = Ok m1 -> snd (get_probability_distributions_dict R2 lines s2) = Ok m2 ->
       exists t1 t2, dget text_eqb m1 n = Some t1 /\ dget text_eqb m2 n = Some t2 /\ Permutation t1 t2).
  Proof.
    intros s1 s2 lines p n H1 H2 T G S Hn. assert (A := same_distributions s1 s2 lines p H1 H2 T G S). unfold get_probability_distributions in A.
    assert (M : forall X Y (f : X -> res Y) (l : list (text * X)) r, map_res f l = Ok r -> forall d, dget text_eqb l n = Some d -> exists b, f d = Ok b /\ dget text_eqb r n = Some b).
    { clear. intros X Y f l. induction l as [|[k a] l IH]; intros r E d D; cbn [map_res dget] in *; [discriminate|].
      destruct (f a) as [b|x] eqn:Ef; [|discriminate]. cbn [rbind] in E. destruct (map_res f l) as [r'|x]; [|discriminate]. cbn in E. injection E as <-. cbn [dget].
      destruct (text_eqb k n); [injection D as <-; eauto|]. now apply IH. }
    unfold get_average, get_probability_distributions_dict, bind.
    destruct (dist_lines R1 false lines s1) as [t1 [l1|x1]], (dist_lines R2 false lines s2) as [t2 [l2|x2]]; cbn [snd same_answer lift] in *; try contradiction; [|split; discriminate].
    destruct (A n Hn) as [d1 [d2 [E1 [E2 [_ [F [Av _]]]]]]]. split.
    - intros a1 a2 B1 B2. destruct (M _ _ _ _ _ B1 d1 E1) as [f1 [F1 D1]]. destruct (M _ _ _ _ _ B2 d2 E2) as [f2 [F2 D2]].
      exists f1. split; [exact D1|]. rewrite D2. congruence.
    - intros m1 m2 B1 B2. destruct (M _ _ _ _ _ B1 d1 E1) as [f1 [F1 D1]]. destruct (M _ _ _ _ _ B2 d2 E2) as [f2 [F2 D2]].
      exists f1, f2. split; [exact D1|]. split; [exact D2|]. rewrite F1, F2 in F. exact F.
  Qed.

  Lemma same_extremes : forall mx s1 s2 lines p, reachable R1 s1 -> reachable R2 s2 -> program_text lines p -> good_program p -> sided p ->
    (forall v, extreme_is R1 mx s1 lines v <-> extreme_is R2 mx s2 lines v) /\ (forall x, extreme_raises R1 mx s1 lines x <-> extreme_raises R2 mx s2 lines x).
  Proof.
    intros mx s1 s2 lines p H1 H2 T G S. split.
    - destruct (extreme_cases R1 mx p lines s1 H1 T G S) as [[v1 [E1 [_ [N1 _]]]]|[_ [E1 N1]]], (extreme_cases R2 mx p lines s2 H2 T G S) as [[v2 [E2 [_ [N2 _]]]]|[_ [E2 N2]]]; try contradiction.
      + intros v. rewrite E1, E2. destruct (extreme_worked_out R1 mx s1 lines p v1 H1 T G S (proj2 (E1 v1) eq_refl)) as [W1 _].
        destruct (extreme_worked_out R2 mx s2 lines p v2 H2 T G S (proj2 (E2 v2) eq_refl)) as [_ U2]. rewrite (U2 v1 W1). reflexivity.
      + intros v. split; intros H; exfalso; [now apply (E1 v)|now apply (E2 v)].
    - intros x. rewrite (extreme_raises_exactly R1 mx s1 lines p x H1 T G S), (extreme_raises_exactly R2 mx s2 lines p x H2 T G S). reflexivity.
  Qed.

  (** ** Estimated costs *)
  Definition same_values (known : list text) (s1 : state R1) (s2 : state R2) : Prop := forall n, In n known -> dget text_eqb (st_const s1) n = dget text_eqb (st_const s2) n.
  Definition same_run {A} (s1 : state R1) (s2 : state R2) (o1 : state R1 * res A) (o2 : state R2 * res A) : Prop := exists r, o1 = (s1, r) /\ o2 = (s2, r).
  Lemma run_one : forall A (r : res A) s1 s2, same_run s1 s2 (s1, r) (s2, r).
  Proof. intros A r s1 s2. now exists r. Qed.
  Lemma run_bind : forall A B (c1 : M R1 A) (c2 : M R2 A) (f1 : A -> M R1 B) (f2 : A -> M R2 B) s1 s2, same_run s1 s2 (c1 s1) (c2 s2) ->
    (forall a, same_run s1 s2 (f1 a s1) (f2 a s2)) -> same_run s1 s2 (bind R1 c1 f1 s1) (bind R2 c2 f2 s2).
  Proof. intros A B c1 c2 f1 f2 s1 s2 [r [E1 E2]] H. unfold bind. rewrite E1, E2. destruct r as [a|x]; [apply H|apply run_one]. Qed.
  Lemma cost_alike : forall e known s1 s2, no_assignment e -> (forall n, In n (reads e) -> In n known) -> same_values known s1 s2 -> same_run s1 s2 (cost_of R1 e s1) (cost_of R2 e s2).
  Proof.
    assert (B : forall a b known s1 s2, (forall s1 s2, no_assignment a -> (forall n, In n (reads a) -> In n known) -> same_values known s1 s2 -> same_run s1 s2 (cost_of R1 a s1) (cost_of R2 a s2)) ->
      (forall s1 s2, no_assignment b -> (forall n, In n (reads b) -> In n known) -> same_values known s1 s2 -> same_run s1 s2 (cost_of R1 b s1) (cost_of R2 b s2)) ->
      no_assignment a /\ no_assignment b -> (forall n, In n (reads a ++ reads b) -> In n known) -> same_values known s1 s2 -> same_run s1 s2 (cost_sum R1 (cost_of R1 a) (cost_of R1 b) s1) (cost_sum R2 (cost_of R2 a) (cost_of R2 b) s2)).
    { intros a b known s1 s2 Ha Hb [Na Nb] Rd V. unfold cost_sum. apply run_bind; [apply Ha; auto; intros; apply Rd, in_or_app; auto|]. intros x.
      apply run_bind; [apply Hb; auto; intros; apply Rd, in_or_app; auto|]. intros y. apply run_one. }
    induction e; intros known s1 s2 N Rd V; cbn [no_assignment reads cost_of] in *; try (apply run_one; fail); try (apply (B _ _ known); eauto; fail).
    - eauto.
    - apply run_bind; [eauto|]. intros a. unfold lift. apply run_one.
    - destruct (dk_simple d) as [[d0|t]|]; apply run_one.
    - eauto.
    - destruct N.
    - unfold get_constant. rewrite (V name) by (apply Rd; now left). apply run_one.
  Qed.
  Lemma values_set : forall known n v s1 s2, same_values known s1 s2 -> same_values (n :: known) (set_constant R1 n v s1) (set_constant R2 n v s2).
  Proof.
    intros known n v s1 s2 A m H. cbn [set_constant st_const]. destruct (text_eq_dec m n) as [->|Ne].
    - now rewrite !(dget_dset_same text_eqb text_eqb_eq).
    - rewrite !(dget_dset_other text_eqb text_eqb_eq) by exact Ne. apply A. destruct H; [congruence|assumption].
  Qed.
  Lemma cost_from_same : forall p lines, program_text lines p -> (forall n e, In (n, e) p -> no_assignment e) -> forall known total s1 s2, closed known p -> same_values known s1 s2 ->
    snd (cost_from R1 total lines s1) = snd (cost_from R2 total lines s2).
  Proof.
    induction p as [|[n e] p IH]; intros lines T N known total s1 s2 C V; inversion T as [|t ? lines' ? P T']; subst; [reflexivity|]. cbn [closed] in C. destruct C as [C1 C2].
    destruct (cost_alike e known s1 s2 (N n e (or_introl eq_refl)) C1 V) as [r [E1 E2]].
    cbn [cost_from]. unfold bind, lift. rewrite P. destruct n as [n|]; cbn [line_expr cost_of] in *.
    - unfold bind. rewrite E1, E2. destruct r as [c|x]; [|reflexivity]. unfold ret.
      apply (IH lines' T' (fun n e H => N n e (or_intror H)) (n :: known)); [exact C2|]. now apply values_set.
    - rewrite E1, E2. destruct r as [c|x]; [|reflexivity]. now apply (IH lines' T' (fun n e H => N n e (or_intror H)) known).
  Qed.
  Lemma same_cost : forall s1 s2 lines p, program_text lines p -> runnable p -> snd (get_estimated_cost R1 lines s1) = snd (get_estimated_cost R2 lines s2).
  Proof. intros s1 s2 lines p T [_ [C W]]. apply (cost_from_same p lines T (fun n e H => proj1 (proj2 (W n e H))) [] 0 s1 s2 C). intros n []. Qed.

  Lemma same_roll : forall s1 s2 lines p, program_text lines p -> runnable p -> drawable p ->
    (forall v, roll_weight R1 s1 lines v = roll_weight R2 s2 lines v) /\ (forall v, can_roll R1 s1 lines v <-> can_roll R2 s2 lines v) /\
    (forall x, can_raise R1 s1 lines x <-> can_raise R2 s2 lines x).
  Proof.
    intros s1 s2 lines p T P D. split; [|split].
    - intros v. now rewrite (roll_weight_is R1 p lines s1 v T P D), (roll_weight_is R2 p lines s2 v T P D).
    - intros v. rewrite (can_roll_iff R1 p lines s1 v T P D), (can_roll_iff R2 p lines s2 v T P D). reflexivity.
    - intros x. rewrite (can_raise_iff R1 p lines s1 x T P D), (can_raise_iff R2 p lines s2 x T P D). reflexivity.
  Qed.
End Calls.
