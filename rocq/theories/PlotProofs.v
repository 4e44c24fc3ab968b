(** * PlotProofs: the tables and plots that an interpreter gives for a program, and comparisons of distributions *)
From Coq Require Import QArith Qabs Qpower Sorted Permutation Floats.SpecFloat.
From Verif Require Import Py PyFacts PyFloat StateFacts Constraint Distribution DistFacts DiceModel Expr Parser Interp FloatFacts FloatProofs SpecDice SpecAlgebra SpecProgram SpecInterp SpecCalls SpecProb ProgramProofs ProbProofs FigureProofs.
Local Open Scope Z_scope.

Section Proofs.
  Context (R : Runtime).
  Notation dist := (dist R).
  Notation state := (state R).
  Notation U := (units (-1074)).

  (** ** Tables for all variables *)
  Lemma map_res_ok : forall A B (f : A -> res B) l r, map_res f l = Ok r -> Forall2 (fun a b => fst a = fst b /\ f (snd a) = Ok (snd b)) l r.
  Proof.
    intros A B f l. induction l as [|[k a] l IH]; intros r E; cbn [map_res] in E; [injection E as <-; constructor|].
    destruct (f a) as [b|x] eqn:Ef; [|discriminate]. cbn [rbind] in E. destruct (map_res f l) as [r'|x]; [|discriminate]. cbn [rmap rbind] in E. injection E as <-.
    constructor; [auto|now apply IH].
  Qed.
  Lemma map_res_raise : forall A B (f : A -> res B) l x, map_res f l = Raise x -> exists k a, In (k, a) l /\ f a = Raise x.
  Proof.
    intros A B f l x. induction l as [|[k a] l IH]; intros E; cbn [map_res] in E; [discriminate|].
    destruct (f a) as [b|y] eqn:Ef; [|cbn [rbind] in E; injection E as ->; exists k, a; split; [now left|exact Ef]]. cbn [rbind] in E.
    destruct (map_res f l) as [r'|y]; [discriminate|]. cbn [rmap rbind] in E. injection E as ->. destruct (IH eq_refl) as [k' [a' [I H]]]. exists k', a'. split; [now right|exact H].
  Qed.

  Lemma table_call : forall B (f : dist -> res B) (Q : dist -> B -> Prop) lines s s' dd, reachable R s -> (forall d b, obtainable R d -> f d = Ok b -> Q d b) ->
    bind R (dist_lines R false lines) (fun d => lift R (map_res f d)) s = (s', Ok dd) ->
    exists ds, get_probability_distributions R lines s = (s', Ok ds) /\ Forall2 (fun nd nf => fst nd = fst nf /\ Q (snd nd) (snd nf)) ds dd.
  Proof.
    intros B f Q lines s s' dd Rs HQ E. unfold bind in E. unfold get_probability_distributions.
    destruct (dist_lines R false lines s) as [s1 [ds|x]] eqn:El; [|discriminate]. unfold lift in E. injection E as -> E.
    exists ds. split; [reflexivity|]. apply map_res_ok in E.
    assert (Ob : forall n d, In (n, d) ds -> obtainable R d) by (intros n d I; exact (ob_returned R s lines s' ds n d Rs El I)).
    clear El. induction E as [|[n d] [n' b] ds dd [E1 E2] E IH]; constructor.
    - cbn [fst snd] in *. split; [exact E1|]. apply HQ; [apply (Ob n); now left|exact E2].
    - apply IH. intros; eapply Ob; right; eassumption.
  Qed.
  Lemma table_call_raises : forall B (f : dist -> res B) lines s x, reachable R s ->
    snd (bind R (dist_lines R false lines) (fun d => lift R (map_res f d)) s) = Raise x ->
    distribution_raises R s lines x \/ exists s' ds n d, get_probability_distributions R lines s = (s', Ok ds) /\ In (n, d) ds /\ obtainable R d /\ f d = Raise x.
  Proof.
    intros B f lines s x Rs E. unfold bind in E. unfold distribution_raises, get_probability_distributions.
    destruct (dist_lines R false lines s) as [s1 [ds|y]] eqn:El; [|left; cbn [snd] in *; congruence]. right. unfold lift in E. cbn [snd] in E.
    apply map_res_raise in E. destruct E as [n [d [I H]]]. exists s1, ds, n, d. split; [reflexivity|]. split; [exact I|]. split; [|exact H].
    exact (ob_returned R s lines s1 ds n d Rs El I).
  Qed.

  Lemma dict_call : forall lines s s' dd, reachable R s -> get_probability_distributions_dict R lines s = (s', Ok dd) ->
    exists ds, get_probability_distributions R lines s = (s', Ok ds) /\ Forall2 (fun nd nf => fst nd = fst nf /\ shows_probabilities R (snd nd) (snd nf)) ds dd.
  Proof. intros lines s s' dd Rs E. refine (table_call _ _ _ lines s s' dd Rs _ E). intros d b O. now apply dict_nearest. Qed.
  Lemma average_call : forall lines s s' dd, reachable R s -> get_average R lines s = (s', Ok dd) ->
    exists ds, get_probability_distributions R lines s = (s', Ok ds) /\ Forall2 (fun nd nf => fst nd = fst nf /\ shows_mean R (snd nd) (snd nf)) ds dd.
  Proof. intros lines s s' dd Rs E. refine (table_call _ _ _ lines s s' dd Rs _ E). intros d b O. now apply average_nearest. Qed.
  Lemma dict_call_raises : forall lines s x, reachable R s -> snd (get_probability_distributions_dict R lines s) = Raise x ->
    distribution_raises R s lines x \/ (x = ZeroDivisionError /\ exists s' ds n d, get_probability_distributions R lines s = (s', Ok ds) /\ In (n, d) ds /\ no_ways R d).
  Proof.
    intros lines s x Rs E. destruct (table_call_raises _ _ lines s x Rs E) as [H|[s' [ds [n [d [E1 [I [O H]]]]]]]]; [now left|right].
    apply (dict_raises R d x O) in H. destruct H as [-> H]. split; [reflexivity|]. exists s', ds, n, d. auto.
  Qed.

  (** ** The distribution behind a histogram is the one that get_probability_distributions reports *)
  Definition but_stdout (s s' : state) : Prop := st_const s = st_const s' /\ st_times s = st_times s' /\
    forall n, n <> stdout -> dget text_eqb (st_var s) n = dget text_eqb (st_var s') n.
  Definition same_run {A} (m : M R A) : Prop := forall s s', but_stdout s s' -> snd (m s) = snd (m s') /\ but_stdout (fst (m s)) (fst (m s')).
  Lemma same_bind : forall A B (m : M R A) (f : A -> M R B), same_run m -> (forall a, same_run (f a)) -> same_run (bind R m f).
  Proof.
    intros A B m f Hm Hf s s' H. unfold bind. destruct (Hm s s' H) as [E S]. destruct (m s) as [s1 [a|x]], (m s') as [s1' [a'|x']]; cbn [fst snd] in *; try discriminate.
    - injection E as ->. now apply Hf.
    - injection E as ->. auto.
  Qed.
  Lemma same_lift : forall A (r : res A), same_run (lift R r).
  Proof. intros A r s s' H. cbn. auto. Qed.
  Lemma same_ret : forall A (a : A), same_run (ret R a).
  Proof. intros A a s s' H. cbn. auto. Qed.
  Lemma same_set : forall n d, same_run (set_var R n d).
  Proof.
    intros n d s s' [C [T V]]. unfold set_var. cbn zeta. unfold times_of. cbn [st_times]. rewrite <- T.
    destruct (tag_dist R (instance_name n match dget text_eqb (bump (st_times s) n) n with Some k => k | None => 0 end) d) as [d'|x]; cbn [fst snd st_var st_const st_times].
    - split; [reflexivity|]. unfold but_stdout. cbn [st_var st_const st_times]. split; [exact C|]. split; [now rewrite T|]. intros k K.
      destruct (text_eqb k n) eqn:E.
      + apply text_eqb_eq in E. subst. now rewrite !(dget_dset_same text_eqb text_eqb_iff).
      + apply text_eqb_neq in E. rewrite !(dget_dset_other text_eqb text_eqb_iff) by auto. now apply V.
    - split; [reflexivity|]. unfold but_stdout. cbn [st_var st_const st_times]. split; [exact C|]. split; [now rewrite T|]. exact V.
  Qed.
  Lemma same_dist : forall e, ~ In stdout (reads e) -> same_run (dist_of R e).
  Proof.
    induction e; intros H; cbn [dist_of reads] in *; try (rewrite in_app_iff in H);
      try (unfold binop_m; apply same_bind; [apply IHe1; tauto|]; intros x; apply same_bind; [apply IHe2; tauto|]; intros y; apply same_lift);
      try (apply same_lift); try (apply IHe; assumption); try (apply same_bind; [apply IHe; assumption|]; intros x; apply same_ret).
    - destruct (dk_simple d) as [[]|]; apply same_lift.
    - destruct (dist_operator operator); [|apply same_lift].
      unfold binop_m. apply same_bind; [apply IHe1; tauto|]. intros x. apply same_bind; [apply IHe2; tauto|]. intros y. apply same_lift.
    - apply same_bind; [apply IHe; assumption|]. intros x. apply same_bind; [apply same_set|]. intros _. apply same_ret.
    - intros s s' [C [T V]]. cbn [fst snd]. split; [|repeat split; auto]. unfold get_var. rewrite V; [reflexivity|]. intros ->. apply H. now left.
  Qed.

  Lemma last_dist_reports : forall lines d0 ran s s' s1 d, lines <> [] -> ~ mentions_name lines stdout -> but_stdout s s' ->
    last_dist R d0 lines s = (s1, Ok d) -> exists s1' dict, dist_lines R ran lines s' = (s1', Ok dict) /\ dget text_eqb dict stdout = Some d /\ but_stdout s1 s1'.
  Proof.
    induction lines as [|l lines IH]; intros d0 ran s s' s1 d NE NM H E; [congruence|]. cbn [last_dist dist_lines] in *. unfold dist_line. unfold bind, lift in *.
    destruct (parse l) as [e|x] eqn:P; [|discriminate].
    assert (Ne : ~ In stdout (reads e)) by (intros I; apply NM; exists l, e; split; [now left|]; auto).
    destruct (same_dist e Ne s s' H) as [Ed Sd]. destruct (dist_of R e s) as [s2 [d2|x]], (dist_of R e s') as [s2' [d2'|x']]; cbn [fst snd] in *; try discriminate.
    injection Ed as <-.
    assert (S2 : but_stdout s2 (set_stdout_var R d2 s2')).
    { destruct Sd as [C [T V]]. repeat split; auto. intros n Nn. cbn [set_stdout_var st_var]. rewrite (dget_dset_other text_eqb text_eqb_iff) by auto. now apply V. }
    destruct lines as [|l2 lines].
    - cbn [last_dist dist_lines] in *. unfold ret in E. injection E as <- <-. do 2 eexists. split; [reflexivity|]. split; [|exact S2].
      cbn [set_stdout_var st_var]. now rewrite (dget_dset_same text_eqb text_eqb_iff).
    - apply (IH d2 true s2 (set_stdout_var R d2 s2') s1 d); auto; [discriminate|]. intros [t [e' [I J]]]. apply NM. exists t, e'. split; [now right|exact J].
  Qed.
  Lemma last_dist_fails : forall lines d0 ran s s' x, ~ mentions_name lines stdout -> but_stdout s s' ->
    (snd (last_dist R d0 lines s) = Raise x <-> snd (dist_lines R ran lines s') = Raise x).
  Proof.
    induction lines as [|l lines IH]; intros d0 ran s s' x NM H; cbn [last_dist dist_lines]; [cbn; split; discriminate|]. unfold dist_line. unfold bind, lift.
    destruct (parse l) as [e|y] eqn:P; [|reflexivity || (cbn [snd]; split; intros X; injection X as ->; reflexivity)].
    assert (Ne : ~ In stdout (reads e)) by (intros I; apply NM; exists l, e; split; [now left|]; auto).
    destruct (same_dist e Ne s s' H) as [Ed Sd]. destruct (dist_of R e s) as [s2 [d2|y]], (dist_of R e s') as [s2' [d2'|y']]; cbn [fst snd] in *; try discriminate.
    - injection Ed as <-. apply IH.
      + intros [t [e' [I J]]]. apply NM. exists t, e'. split; [now right|exact J].
      + destruct Sd as [C [T V]]. repeat split; auto. intros n Nn. cbn [set_stdout_var st_var]. rewrite (dget_dset_other text_eqb text_eqb_iff) by auto. now apply V.
    - injection Ed as <-. split; intros X; injection X as ->; reflexivity.
  Qed.
  Lemma but_stdout_refl : forall s, but_stdout s s.
  Proof. intros s. repeat split; auto. Qed.

  Lemma plot_call : forall (f : dist -> res (list (Z * pyfloat))) (Q : dist -> list (Z * pyfloat) -> Prop) lines s s' h, reachable R s ->
    (forall d b, obtainable R d -> f d = Ok b -> Q d b /\ plottable b) -> lines <> [] -> ~ mentions_name lines stdout ->
    bind R (last_dist R (empty_dist R) lines) (fun d => lift R (with_average R f d)) s = (s', Ok h) ->
    exists d, reports R s lines d /\ Q d (h_points h) /\ marks_mean R d h.
  Proof.
    intros f Q lines s s' h Rs HQ NE NM E. unfold bind in E. destruct (last_dist R (empty_dist R) lines s) as [s1 [d|x]] eqn:El; [|discriminate].
    unfold lift in E. injection E as _ E.
    assert (O : obtainable R d) by exact (ob_shown R s lines s1 d Rs El).
    destruct (figure_line R f d h O (fun m Em => proj2 (HQ d m O Em)) E) as [Ef Hm].
    exists d. split; [|split; [now apply HQ|exact Hm]].
    destruct (last_dist_reports lines _ false s s s1 d NE NM (but_stdout_refl s) El) as [s1' [dict [E1 [E2 _]]]]. exists s1', dict. split; [exact E1|exact E2].
  Qed.
  Lemma histogram_call : forall lines s s' h, reachable R s -> lines <> [] -> ~ mentions_name lines stdout ->
    get_histogram R lines s = (s', Ok h) -> exists d, reports R s lines d /\ is_histogram R d (h_points h) /\ marks_mean R d h.
  Proof.
    intros lines s s' h Rs NE NM E. refine (plot_call _ _ lines s s' h Rs _ NE NM E). intros d b O Eb.
    split; [now apply histogram_bars|now apply (plottable_histogram R d)].
  Qed.
  Lemma at_least_call : forall lines s s' h, reachable R s -> lines <> [] -> ~ mentions_name lines stdout ->
    get_at_least_histogram R lines s = (s', Ok h) -> exists d, reports R s lines d /\ is_survival_function R d (h_points h) /\ marks_mean R d h.
  Proof.
    intros lines s s' h Rs NE NM E. refine (plot_call _ _ lines s s' h Rs _ NE NM E). intros d b O. rewrite (at_least_plotted R d O). intros Eb.
    split; [now apply at_least_survival|now apply (plottable_at_least R d)].
  Qed.
  Lemma at_most_call : forall lines s s' h, reachable R s -> lines <> [] -> ~ mentions_name lines stdout ->
    get_at_most_histogram R lines s = (s', Ok h) -> exists d, reports R s lines d /\ is_distribution_function R d (h_points h) /\ marks_mean R d h.
  Proof.
    intros lines s s' h Rs NE NM E. refine (plot_call _ _ lines s s' h Rs _ NE NM E). intros d b O. rewrite (at_most_plotted R d O). intros Eb.
    split; [now apply at_most_distribution|now apply (plottable_at_most R d)].
  Qed.

  (** ** Comparing two distributions *)
  Lemma fadd_zero : forall f, finite_float f -> finite_float (fadd fzero f) /\ U (fadd fzero f) = U f.
  Proof.
    intros [s|s| |s m e] F; cbn in F; try contradiction; unfold fadd, fzero, SFadd; [destruct s; split; [exact Logic.I|reflexivity|exact Logic.I|reflexivity]|].
    split; [exact F|reflexivity].
  Qed.
  Lemma fget_some : forall (h : list (Z * pyfloat)) k, fget h k = match dget Z.eqb h k with Some f => f | None => fzero end.
  Proof. reflexivity. Qed.

  Lemma y_value_near : forall ha hb k, finite_float (fget ha k) -> finite_float (fget hb k) -> 0 <= U (fget ha k) <= K -> 0 <= U (fget hb k) <= K ->
    let y := y_value ha hb k in finite_float y /\ 2 ^ 53 * Z.abs (U y - (U (fget ha k) - U (fget hb k))) <= K.
  Proof.
    intros ha hb k Fa Fb Ba Bb y. pose proof K_pos as K0.
    assert (V1 : exists v1, finite_float v1 /\ U v1 = U (fget ha k) /\ y = match dget Z.eqb hb k with Some f => fsub v1 f | None => v1 end).
    { unfold y, y_value. rewrite fget_some in *. destruct (dget Z.eqb ha k) as [f|].
      - destruct (fadd_zero f Fa) as [F1 U1]. exists (fadd fzero f). auto.
      - exists fzero. auto. }
    destruct V1 as [v1 [F1 [U1 ->]]]. rewrite <- U1 in *. rewrite (fget_some hb) in *. destruct (dget Z.eqb hb k) as [f|].
    - destruct (fsub_spec (-1074) v1 f ltac:(lia) F1 Fb) as [[Un _]|[s [_ Ov]]].
      + split; [exact (proj1 Un)|]. pose proof (small_sum _ (U v1 - U f) ltac:(lia) Un). lia.
      + exfalso. revert Ov. apply no_overflow_small; lia.
    - split; [exact F1|]. change (U fzero) with 0. replace (U v1 - (U v1 - 0)) with 0 by lia. cbn [Z.abs]. lia.
  Qed.

  Lemma extremes_of : forall d : dist, total_ways R d <> 0 -> exists lo hi, extremes R d lo hi.
  Proof.
    intros d T. apply (extremes_exist R d). destruct (get_result_map R d) as [|p m] eqn:E.
    - exfalso. apply T. unfold total_ways. now rewrite E.
    - apply (listed_some R d). congruence.
  Qed.
  Lemma sorted_count : forall (l : list Z) x, NoDup l -> count_occ Z.eq_dec l x = if in_dec Z.eq_dec x l then 1%nat else 0%nat.
  Proof.
    intros l x N. destruct (in_dec Z.eq_dec x l) as [I|I]; [now apply NoDup_count_occ'|now apply count_occ_not_In].
  Qed.
  Lemma perm_count : forall (l l' : list Z) x, Permutation l l' -> count_occ Z.eq_dec l x = count_occ Z.eq_dec l' x.
  Proof. intros l l' x P. apply (Permutation_count_occ Z.eq_dec). exact P. Qed.

  Lemma compare_raises : forall a b x, obtainable R a -> obtainable R b ->
    (compare_histogram_data R a b = Raise x <-> plot_fails R a x \/ ((forall y, ~ plot_fails R a y) /\ plot_fails R b x)).
  Proof.
    intros a b x Oa Ob.
    pose proof (fun y => table_raises R (fun h => h) a y Oa) as Ra. pose proof (fun y => table_raises R (fun h => h) b y Ob) as Rb.
    unfold table_of in Ra, Rb. unfold compare_histogram_data.
    destruct (get_dict_form R a) as [ma|xa]; cbn [rbind] in *; [destruct (histogram_form ma) as [ha|xa]; cbn [rbind] in *|].
    - assert (NF : forall y, ~ plot_fails R a y) by (intros y P; apply Ra in P; discriminate).
      destruct (get_dict_form R b) as [mb|xb]; cbn [rbind] in *; [destruct (histogram_form mb) as [hb|xb]; cbn [rbind] in *|].
      + split; [discriminate|]. intros [P|[_ P]]; [now apply NF in P|apply Rb in P; discriminate].
      + split; [intros E; right; split; [exact NF|]; apply Rb; congruence|]. intros [P|[_ P]]; [now apply NF in P|]. apply Rb in P. congruence.
      + split; [intros E; right; split; [exact NF|]; apply Rb; congruence|]. intros [P|[_ P]]; [now apply NF in P|]. apply Rb in P. congruence.
    - split; [intros E; left; apply Ra; congruence|]. intros [P|[P _]]; [apply Ra in P; congruence|]. exfalso. apply (P xa). now apply Ra.
    - split; [intros E; left; apply Ra; congruence|]. intros [P|[P _]]; [apply Ra in P; congruence|]. exfalso. apply (P xa). now apply Ra.
  Qed.

  Lemma compare_bars : forall a b m, obtainable R a -> obtainable R b -> compare_histogram_data R a b = Ok m -> is_comparison R a b m.
  Proof.
    intros a b m Oa Ob E. pose proof K_pos as K0. pose proof E50_eq as EE.
    assert (Pa : forall x, ~ plot_fails R a x).
    { intros x P. assert (X : compare_histogram_data R a b = Raise x) by (apply compare_raises; auto). congruence. }
    assert (Pb : forall x, ~ plot_fails R b x).
    { intros x P. assert (X : compare_histogram_data R a b = Raise x) by (apply compare_raises; auto). congruence. }
    destruct (shown_extremes R a Oa Pa) as [lo [hi Xa]]. destruct (shown_extremes R b Ob Pb) as [lo' [hi' Xb]].
    pose proof (has_ways R a lo hi _ Oa Xa (Pa ZeroDivisionError) eq_refl) as Ta. pose proof (has_ways R b lo' hi' _ Ob Xb (Pb ZeroDivisionError) eq_refl) as Tb.
    exists lo, hi, lo', hi'. split; [exact Xa|]. split; [exact Xb|].
    destruct (filled R a lo hi Oa Ta Xa) as [fa [ha [Efa [Eha [Nha [Kha [_ Una]]]]]]].
    destruct (filled R b lo' hi' Ob Tb Xb) as [fb [hb [Efb [Ehb [Nhb [Khb [_ Unb]]]]]]].
    unfold compare_histogram_data in E. rewrite Efa in E. cbn [rbind] in E. rewrite Eha in E. cbn [rbind] in E. rewrite Efb in E. cbn [rbind] in E. rewrite Ehb in E. cbn [rbind] in E.
    injection E as <-. set (pts := map (fun x => (x, y_value ha hb x)) (map fst ha ++ map fst hb)).
    split; [apply sort_points_sorted|]. split.
    - intros v. rewrite (perm_count _ _ v (Permutation_map fst (sort_points_perm pts))).
      assert (Ep : map fst pts = map fst ha ++ map fst hb) by (unfold pts; rewrite map_map; apply map_id).
      rewrite Ep, count_occ_app, !sorted_count by assumption. unfold between. f_equal.
      + destruct (in_dec Z.eq_dec v (map fst ha)) as [I|I]; rewrite Kha in I; destruct (Z.leb_spec lo v), (Z.leb_spec v hi); cbn [andb]; auto; exfalso; lia.
      + destruct (in_dec Z.eq_dec v (map fst hb)) as [I|I]; rewrite Khb in I; destruct (Z.leb_spec lo' v), (Z.leb_spec v hi'); cbn [andb]; auto; exfalso; lia.
    - intros v f I. apply (Permutation_in _ (sort_points_perm pts)) in I. unfold pts in I. apply in_map_iff in I. destruct I as [v' [Ev _]]. injection Ev as -> <-.
      destruct (obtainable_counts R a Oa) as [_ [_ [_ T0a]]]. destruct (obtainable_counts R b Ob) as [_ [_ [_ T0b]]].
      assert (Na : 0 < total_ways R a) by lia. assert (Nb : 0 < total_ways R b) by lia.
      destruct (rounded_probability _ _ _ Na (reported_range R a v Oa) (Una v)) as [A1 [A2 [_ A3]]].
      destruct (rounded_probability _ _ _ Nb (reported_range R b v Ob) (Unb v)) as [B1 [B2 [_ B3]]].
      destruct (y_value_near ha hb v (proj1 (Una v)) (proj1 (Unb v)) (conj A1 A2) (conj B1 B2)) as [Fy Ey].
      set (y := y_value ha hb v) in *. clearbody y. set (ua := U (fget ha v)) in *. set (ub := U (fget hb v)) in *. clearbody ua ub.
      set (ca := reported R a v) in *. set (cb := reported R b v) in *. set (na := total_ways R a) in *. set (nb := total_ways R b) in *.
      assert (W : within_rounding 1 (inject_Z (ca * nb - cb * na) / inject_Z (na * nb)) y).
      { apply rounding_frac; [nia|exact Fy|]. rewrite Z.mul_1_l. clearbody ca cb na nb. clear - A3 B3 Ey Na Nb EE K0.
        set (u := U y) in *. clearbody u.
        assert (D : u * (na * nb) - K * (ca * nb - cb * na) = (u - (ua - ub)) * (na * nb) + (ua * na - ca * K) * nb - (ub * nb - cb * K) * na) by ring.
        rewrite D. clear D. set (p := u - (ua - ub)) in *. set (q := ua * na - ca * K) in *. set (r := ub * nb - cb * K) in *. clearbody p q r.
        assert (P : 2 ^ 53 * Z.abs (p * (na * nb)) <= K * (na * nb)) by (rewrite Z.abs_mul, (Z.abs_eq (na * nb)) by nia; nia).
        assert (Q : 2 ^ 53 * Z.abs (q * nb) <= K * (na * nb)) by (rewrite Z.abs_mul, (Z.abs_eq nb) by lia; nia).
        assert (S : 2 ^ 53 * Z.abs (r * na) <= K * (na * nb)) by (rewrite Z.abs_mul, (Z.abs_eq na) by lia; nia).
        set (n := na * nb) in *. assert (0 < n) by nia. clearbody n. set (x1 := p * n) in *. set (x2 := q * nb) in *. set (x3 := r * na) in *. clearbody x1 x2 x3.
        assert (2 ^ 53 * Z.abs (x1 + x2 - x3) <= 3 * (K * n)) by lia.
        assert (2 ^ 53 * (E50 * n) = 8 * (K * n)) by (rewrite Z.mul_assoc, EE; ring). nia. }
      destruct W as [w [Ew Hw]]. exists w. split; [exact Ew|]. apply Qle_trans with (2 := Hw), Qle_lteq. right.
      apply Qabs_wd. apply Qplus_comp; [reflexivity|]. apply Qopp_comp. unfold probability. fold ca cb na nb.
      clearbody ca cb na nb. unfold Z.sub. rewrite inject_Z_mult, (inject_Z_plus (ca * nb) (- (cb * na))), inject_Z_opp, !inject_Z_mult. field.
      split; unfold Qeq; cbn [inject_Z Qnum Qden]; lia.
  Qed.

  (** the comparison plot in terms of pairs of distributions that overlap *)
  Lemma compare_twice : forall a b m lo hi lo' hi' v, obtainable R a -> obtainable R b -> compare_histogram_data R a b = Ok m ->
    extremes R a lo hi -> extremes R b lo' hi' -> lo <= v <= hi -> lo' <= v <= hi' -> count_occ Z.eq_dec (map fst m) v = 2%nat.
  Proof.
    intros a b m lo hi lo' hi' v Oa Ob E Xa Xb V V'. destruct (compare_bars a b m Oa Ob E) as [l [h [l' [h' [Ya [Yb [_ [C _]]]]]]]].
    destruct (extremes_unique R a _ _ _ _ Xa Ya) as [<- <-]. destruct (extremes_unique R b _ _ _ _ Xb Yb) as [<- <-].
    rewrite C. unfold between. destruct (Z.leb_spec lo v), (Z.leb_spec v hi), (Z.leb_spec lo' v), (Z.leb_spec v hi'); cbn [andb]; auto; lia.
  Qed.
  Lemma compare_apart : forall a b m lo hi lo' hi', obtainable R a -> obtainable R b -> compare_histogram_data R a b = Ok m ->
    extremes R a lo hi -> extremes R b lo' hi' -> (shows_each_once R a b m <-> hi < lo' \/ hi' < lo).
  Proof.
    intros a b m lo hi lo' hi' Oa Ob E Xa Xb. destruct (compare_bars a b m Oa Ob E) as [l [h [l' [h' [Ya [Yb [_ [C _]]]]]]]].
    destruct (extremes_unique R a _ _ _ _ Xa Ya) as [<- <-]. destruct (extremes_unique R b _ _ _ _ Xb Yb) as [<- <-]. clear Ya Yb.
    pose proof (proj2 (proj2 Xa)) as Ba. pose proof (proj2 (proj2 Xb)) as Bb. pose proof (Ba lo (proj1 Xa)) as La. pose proof (Bb lo' (proj1 Xb)) as Lb.
    unfold between in C. split.
    - intros [N _]. destruct (Z.lt_ge_cases hi lo') as [H|H]; [now left|]. destruct (Z.lt_ge_cases hi' lo) as [H'|H']; [now right|exfalso].
      assert (T : count_occ Z.eq_dec (map fst m) (Z.max lo lo') = 2%nat) by (apply (compare_twice a b m lo hi lo' hi'); auto; lia).
      rewrite (NoDup_count_occ Z.eq_dec) in N. specialize (N (Z.max lo lo')). lia.
    - intros H. split.
      + apply (NoDup_count_occ Z.eq_dec). intros v. rewrite C.
        destruct (Z.leb_spec lo v), (Z.leb_spec v hi), (Z.leb_spec lo' v), (Z.leb_spec v hi'); cbn [andb]; lia.
      + intros v L. apply (count_occ_In Z.eq_dec). rewrite C. assert (X : lo <= v <= hi \/ lo' <= v <= hi') by (destruct L as [L|L]; auto).
        destruct (Z.leb_spec lo v), (Z.leb_spec v hi), (Z.leb_spec lo' v), (Z.leb_spec v hi'); cbn [andb]; lia.
  Qed.

  (** *** The heights of the bars of a comparison *)
  Lemma height_sum : forall (m : list (Z * pyfloat)) v x, (forall f, In (v, f) m -> within_rounding 1 x f) ->
    let n := inject_Z (Z.of_nat (count_occ Z.eq_dec (map fst m) v)) in (Qabs (height m v - n * x) <= n * 2 ^ (-50))%Q.
  Proof.
    intros m v x. induction m as [|[w f] m IH]; intros H n; unfold n.
    - cbn [map count_occ height fold_right Z.of_nat]. setoid_replace (0 - inject_Z 0 * x)%Q with 0%Q by ring. setoid_replace (inject_Z 0 * 2 ^ (-50))%Q with 0%Q by ring. discriminate.
    - cbn [map fst count_occ height fold_right snd]. fold (height m v). destruct (Z.eq_dec w v) as [->|Ne].
      + rewrite Z.eqb_refl. destruct (H f (or_introl eq_refl)) as [y [Ey Hy]]. rewrite Ey.
        specialize (IH (fun g G => H g (or_intror G))). cbn zeta in IH. set (k := count_occ Z.eq_dec (map fst m) v) in *. clearbody k.
        rewrite Nat2Z.inj_succ. unfold Z.succ. rewrite inject_Z_plus.
        setoid_replace (y + height m v - (inject_Z (Z.of_nat k) + inject_Z 1) * x)%Q with ((height m v - inject_Z (Z.of_nat k) * x) + (y - x))%Q by ring.
        eapply Qle_trans; [apply Qabs_triangle|]. rewrite Qmult_plus_distr_l. apply Qplus_le_compat; [exact IH|exact Hy].
      + replace (w =? v) with false by (symmetry; now apply Z.eqb_neq). apply IH. intros g G. apply H. now right.
  Qed.
  Lemma compare_heights : forall a b m lo hi lo' hi' v, obtainable R a -> obtainable R b -> compare_histogram_data R a b = Ok m ->
    extremes R a lo hi -> extremes R b lo' hi' ->
    let n := inject_Z (Z.of_nat (between lo hi v + between lo' hi' v)) in
    (Qabs (height m v - n * (probability R a v - probability R b v)) <= n * 2 ^ (-50))%Q.
  Proof.
    intros a b m lo hi lo' hi' v Oa Ob E Xa Xb n. destruct (compare_bars a b m Oa Ob E) as [l [h [l' [h' [Ya [Yb [_ [C W]]]]]]]].
    destruct (extremes_unique R a _ _ _ _ Xa Ya) as [<- <-]. destruct (extremes_unique R b _ _ _ _ Xb Yb) as [<- <-].
    unfold n. rewrite <- C. apply height_sum. intros f I. now apply W.
  Qed.

  (** *** The figure of a comparison *)
  Lemma consecutive_nth : forall xs, consecutive xs -> forall k i x y, nth_error xs i = Some x -> nth_error xs (i + k) = Some y -> y = x + Z.of_nat k.
  Proof.
    intros xs C. induction k as [|k IH]; intros i x y X Y.
    - rewrite Nat.add_0_r in Y. rewrite X in Y. injection Y. lia.
    - destruct (nth_error xs (i + k)) as [z|] eqn:Z.
      + pose proof (IH i x z X Z). rewrite Nat.add_succ_r in Y. pose proof (C _ z y Z Y). lia.
      + apply nth_error_None in Z. assert (i + S k < length xs)%nat by (apply nth_error_Some; congruence). lia.
  Qed.
  Lemma consecutive_nodup : forall xs, consecutive xs -> NoDup xs.
  Proof.
    intros xs C. apply NoDup_nth_error. intros i j L E. destruct (nth_error xs i) as [x|] eqn:X; [|apply nth_error_None in X; lia]. symmetry in E.
    destruct (Nat.le_gt_cases i j) as [H|H].
    - replace j with (i + (j - i))%nat in E by lia. pose proof (consecutive_nth xs C _ _ _ _ X E). lia.
    - replace i with (j + (i - j))%nat in X by lia. pose proof (consecutive_nth xs C _ _ _ _ E X). lia.
  Qed.
  Lemma consecutive_between : forall xs x y z, consecutive xs -> In x xs -> In y xs -> x <= z <= y -> In z xs.
  Proof.
    intros xs x y z C X Y Zb. apply In_nth_error in X. apply In_nth_error in Y. destruct X as [i X]. destruct Y as [j Y].
    assert (L : (i <= j)%nat).
    { destruct (Nat.le_gt_cases i j) as [H|H]; [exact H|]. replace i with (j + (i - j))%nat in X by lia. pose proof (consecutive_nth xs C _ _ _ _ Y X). lia. }
    replace j with (i + (j - i))%nat in Y by lia. pose proof (consecutive_nth xs C _ _ _ _ X Y) as E.
    assert (Lj : (i + (j - i) < length xs)%nat) by (apply nth_error_Some; congruence).
    destruct (nth_error xs (i + Z.to_nat (z - x))) as [w|] eqn:W; [|apply nth_error_None in W; lia].
    pose proof (consecutive_nth xs C _ _ _ _ X W). assert (w = z) as <- by lia. exact (nth_error_In _ _ W).
  Qed.

  Lemma compare_own_bins : forall a b h lo hi lo' hi', obtainable R a -> obtainable R b -> compare_plot R a b = Ok h ->
    extremes R a lo hi -> extremes R b lo' hi' ->
    (own_bins (map fst (h_points h)) (h_bins h) <->
     (hi + 1 = lo' \/ hi' + 1 = lo) /\ forall v, listed R a v \/ listed R b v -> Z.abs v < 2 ^ 52).
  Proof.
    intros a b h lo hi lo' hi' Oa Ob E Xa Xb. unfold compare_plot in E. destruct (compare_histogram_data R a b) as [m|] eqn:Em; [|discriminate]. cbn [rbind] in E.
    rewrite (bins_own m None h E). unfold small. destruct (compare_bars a b m Oa Ob Em) as [l [r [l' [r' [Ya [Yb [So [C _]]]]]]]].
    destruct (extremes_unique R a _ _ _ _ Xa Ya) as [<- <-]. destruct (extremes_unique R b _ _ _ _ Xb Yb) as [<- <-]. clear Ya Yb.
    pose proof (compare_apart a b m lo hi lo' hi' Oa Ob Em Xa Xb) as Ap.
    destruct Xa as [La [Ha Ba]]. destruct Xb as [Lb [Hb Bb]]. pose proof (Ba lo La) as B1. pose proof (Bb lo' Lb) as B2.
    assert (I : forall v, In v (map fst m) <-> lo <= v <= hi \/ lo' <= v <= hi').
    { intros v. rewrite (count_occ_In Z.eq_dec), C. unfold between.
      destruct (Z.leb_spec lo v), (Z.leb_spec v hi), (Z.leb_spec lo' v), (Z.leb_spec v hi'); cbn [andb]; lia. }
    split.
    - intros [Co Sm]. split; [|intros v [V|V]; apply Sm, I; [left; now apply Ba|right; now apply Bb]].
      assert (A : hi < lo' \/ hi' < lo).
      { apply Ap. split; [now apply consecutive_nodup|]. intros v [V|V]; apply I; [left; now apply Ba|right; now apply Bb]. }
      destruct A as [A|A]; [left|right].
      + destruct (Z.eq_dec (hi + 1) lo') as [Eq|Ne]; [exact Eq|exfalso].
        assert (X : In (hi + 1) (map fst m)) by (apply (consecutive_between _ hi lo'); [exact Co|apply I; lia|apply I; lia|lia]). apply I in X. lia.
      + destruct (Z.eq_dec (hi' + 1) lo) as [Eq|Ne]; [exact Eq|exfalso].
        assert (X : In (hi' + 1) (map fst m)) by (apply (consecutive_between _ hi' lo); [exact Co|apply I; lia|apply I; lia|lia]). apply I in X. lia.
    - intros [A Sm]. assert (N : NoDup (map fst m)) by (apply Ap; lia).
      assert (S1 : StronglySorted Z.lt (map fst m)) by (now apply sorted_nodup).
      pose proof (Sm lo (or_introl La)) as M1. pose proof (Sm hi (or_introl Ha)) as M2. pose proof (Sm lo' (or_intror Lb)) as M3. pose proof (Sm hi' (or_intror Hb)) as M4.
      split; [|intros v V; apply I in V; lia].
      apply (covers_consecutive (Z.min lo lo') (Z.max hi hi')). split; [exact S1|]. intros v. rewrite I. lia.
  Qed.

  Lemma compare_fails : forall a b x, obtainable R a -> obtainable R b ->
    (compare_plot R a b = Raise x <-> comparison_fails R a b x \/
      (x = OverflowError /\ (forall y, ~ comparison_fails R a b y) /\ exists v, (listed R a v \/ listed R b v) /\ too_large (inject_Z v))).
  Proof.
    intros a b x Oa Ob. unfold compare_plot. pose proof (fun y => compare_raises a b y Oa Ob) as Rc. fold (comparison_fails R a b) in Rc.
    destruct (compare_histogram_data R a b) as [m|z] eqn:Em; cbn [rbind].
    - assert (NF : forall y, ~ comparison_fails R a b y) by (intros y P; apply Rc in P; discriminate).
      destruct (compare_bars a b m Oa Ob Em) as [lo [hi [lo' [hi' [[La [Ha Ba]] [[Lb [Hb Bb]] [_ [C _]]]]]]]]. pose proof (Ba lo La) as B1. pose proof (Bb lo' Lb) as B2.
      assert (I : forall v, In v (map fst m) <-> lo <= v <= hi \/ lo' <= v <= hi').
      { intros v. rewrite (count_occ_In Z.eq_dec), C. unfold between.
        destruct (Z.leb_spec lo v), (Z.leb_spec v hi), (Z.leb_spec lo' v), (Z.leb_spec v hi'); cbn [andb]; lia. }
      assert (Nm : m <> []) by (intros ->; apply (I lo); lia).
      rewrite (make_raises m None x Nm). split.
      + intros [-> [v [V L]]]. right. split; [reflexivity|]. split; [exact NF|]. apply I in V. rewrite too_large_abs in L.
        destruct V as [V|V].
        * destruct (Z.le_gt_cases (Z.abs v) (Z.abs lo)); [exists lo|exists hi]; split; auto; rewrite too_large_abs; lia.
        * destruct (Z.le_gt_cases (Z.abs v) (Z.abs lo')); [exists lo'|exists hi']; split; auto; rewrite too_large_abs; lia.
      + intros [P|[-> [_ [v [V L]]]]]; [exfalso; exact (NF _ P)|]. split; [reflexivity|]. exists v. split; [apply I|exact L]. destruct V as [V|V]; [left; now apply Ba|right; now apply Bb].
    - specialize (Rc x) as Rx. split; [intros X; injection X as ->; left; now apply Rx|]. intros [P|[_ [P _]]].
      + apply Rx in P. injection P as ->. reflexivity.
      + exfalso. apply (P z). now apply Rc.
  Qed.

  (** *** Two curves *)
  Lemma curves : forall f (shows : dist -> list (Z * pyfloat) -> Prop) a b n n' p, (forall d m, obtainable R d -> f d = Ok m -> shows d m) -> obtainable R a -> obtainable R b ->
    line_plot_of R f a b n n' = Ok p -> compares R shows a b n n' p.
  Proof.
    intros f shows a b n n' p H Oa Ob E. unfold line_plot_of in E. destruct (f a) as [m|] eqn:Ea; [|discriminate]. cbn [rbind] in E.
    destruct (f b) as [m'|] eqn:Eb; [|discriminate]. cbn [rbind] in E. injection E as <-. unfold compares. cbn [lp_one lp_two fst snd]. auto.
  Qed.
  Lemma curves_raise : forall f a b n n' x, (forall d x, obtainable R d -> (f d = Raise x <-> plot_fails R d x)) -> obtainable R a -> obtainable R b ->
    (line_plot_of R f a b n n' = Raise x <-> comparison_fails R a b x).
  Proof.
    intros f a b n n' x H Oa Ob. unfold line_plot_of, comparison_fails. pose proof (fun y => H a y Oa) as Ha. pose proof (fun y => H b y Ob) as Hb.
    destruct (f a) as [m|y]; cbn [rbind].
    - assert (NF : forall y, ~ plot_fails R a y) by (intros y P; apply Ha in P; discriminate).
      rewrite <- (Hb x). destruct (f b) as [m'|y]; cbn [rbind].
      + split; [discriminate|]. intros [P|[_ P]]; [exfalso; exact (NF _ P)|discriminate].
      + split; [intros X; injection X as ->; auto|]. intros [P|[_ P]]; [exfalso; exact (NF _ P)|]. injection P as ->. reflexivity.
    - split; [intros X; injection X as ->; left; now apply Ha|]. intros [P|[P _]]; [apply Ha in P; injection P as ->; reflexivity|]. exfalso. apply (P y). now apply Ha.
  Qed.
  Lemma compare_curves : forall a b n n' p, obtainable R a -> obtainable R b ->
    (get_compare R a b n n' = Ok p -> compares R (is_histogram R) a b n n' p) /\
    (get_compare_at_least R a b n n' = Ok p -> compares R (is_survival_function R) a b n n' p) /\
    (get_compare_at_most R a b n n' = Ok p -> compares R (is_distribution_function R) a b n n' p).
  Proof.
    intros a b n n' p Oa Ob. split; [|split]; apply curves; auto.
    - intros d m O. now apply histogram_bars.
    - intros d m O. rewrite (at_least_plotted R d O). now apply at_least_survival.
    - intros d m O. rewrite (at_most_plotted R d O). now apply at_most_distribution.
  Qed.
  Lemma compare_curves_raise : forall a b n n' x, obtainable R a -> obtainable R b ->
    (get_compare R a b n n' = Raise x <-> comparison_fails R a b x) /\
    (get_compare_at_least R a b n n' = Raise x <-> comparison_fails R a b x) /\
    (get_compare_at_most R a b n n' = Raise x <-> comparison_fails R a b x).
  Proof.
    intros a b n n' x Oa Ob. split; [|split]; apply curves_raise; auto; intros d y O.
    - now apply histogram_raises.
    - rewrite (at_least_plotted R d O). now apply at_least_raises.
    - rewrite (at_most_plotted R d O). now apply at_most_raises.
  Qed.

  (** *** Figures of programs *)
  Lemma figure_call_raises : forall (f : dist -> res histogram) lines s x, reachable R s -> lines <> [] -> ~ mentions_name lines stdout ->
    (forall d, obtainable R d -> (f d = Raise x <-> figure_fails R d x)) ->
    (snd (bind R (last_dist R (empty_dist R) lines) (fun d => lift R (f d)) s) = Raise x <->
     distribution_raises R s lines x \/ exists d, reports R s lines d /\ figure_fails R d x).
  Proof.
    intros f lines s x Rs NE NM H. unfold bind, distribution_raises, reports, get_probability_distributions.
    pose proof (fun y => last_dist_fails lines (empty_dist R) false s s y NM (but_stdout_refl s)) as Fa.
    destruct (last_dist R (empty_dist R) lines s) as [s1 [d|y]] eqn:El; cbn [fst snd] in *.
    - destruct (last_dist_reports lines _ false s s s1 d NE NM (but_stdout_refl s) El) as [s1' [dict [E1 [E2 _]]]].
      rewrite E1. cbn [snd]. rewrite (H d (ob_shown R s lines s1 d Rs El)). split.
      + intros F. right. exists d. split; [|exact F]. exists s1', dict. split; [reflexivity|exact E2].
      + intros [X|[d' [[s2 [dict' [E3 E4]]] F]]]; [discriminate|]. injection E3 as <- <-. rewrite E2 in E4. injection E4 as <-. exact F.
    - pose proof (Fa y) as Fy. destruct (dist_lines R false lines s) as [s2 [ds|z]]; cbn [fst snd] in *.
      + exfalso. assert (X : Ok ds = Raise y) by (now apply Fy). discriminate.
      + assert (X : @Raise (list (text * dist)) z = Raise y) by (now apply Fy). injection X as ->. split; [intros X; injection X as ->; now left|].
        intros [X|[d' [[s3 [dict' [E3 _]]] _]]]; [injection X as ->; reflexivity|discriminate].
  Qed.
  Lemma figures_raise : forall lines s x, reachable R s -> lines <> [] -> ~ mentions_name lines stdout ->
    let fails := distribution_raises R s lines x \/ exists d, reports R s lines d /\ figure_fails R d x in
    (snd (get_histogram R lines s) = Raise x <-> fails) /\ (snd (get_at_least_histogram R lines s) = Raise x <-> fails) /\
    (snd (get_at_most_histogram R lines s) = Raise x <-> fails).
  Proof.
    intros lines s x Rs NE NM fails. split; [|split]; apply figure_call_raises; auto; intros d O; [now apply histogram_fails|now apply at_least_fails|now apply at_most_fails].
  Qed.
End Proofs.
