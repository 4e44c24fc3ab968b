(** * StateProofs: what is left of calls for later calls *)
From Verif Require Import Py PyFacts PyFloat Constraint Distribution DiceModel Expr Parser Interp SpecDice SpecProgram SpecInterp
  ExprFacts StateFacts WfFacts InterpRun SpecRoll RollFacts SpecCalls CallFacts CallProofs ReadProofs.

Section Proofs.
  Context (R : Runtime).
  Notation state := (state R).

  (** ** A failing line *)
  Lemma roll_stops : forall l1 l2 s w1 s1 x, In (w1, (s1, Raise x)) (roll R l1 s) -> In (w1, (s1, Raise x)) (roll R (l1 ++ l2) s).
  Proof.
    intros l1 l2 s w1 s1 x H. destruct l2 as [|l l2]; [now rewrite app_nil_r|]. rewrite roll_pieces by discriminate.
    unfold then_rolls. apply in_flat_map. exists (w1, (s1, Raise x)). split; auto. now left.
  Qed.
  Lemma extreme_stops : forall mx l1 l2 s s1 x, extreme R mx l1 s = (s1, Raise x) -> extreme R mx (l1 ++ l2) s = (s1, Raise x).
  Proof. intros. destruct l2 as [|l l2]; [now rewrite app_nil_r|]. rewrite extreme_pieces by discriminate. now rewrite H. Qed.
  Lemma distribution_stops : forall l1 l2 s s1 x, get_probability_distributions R l1 s = (s1, Raise x) ->
    get_probability_distributions R (l1 ++ l2) s = (s1, Raise x).
  Proof. intros. destruct l2 as [|l l2]; [now rewrite app_nil_r|]. rewrite distribution_pieces by discriminate. now rewrite H. Qed.
  Lemma cost_stops : forall l1 l2 s s1 x, get_estimated_cost R l1 s = (s1, Raise x) -> get_estimated_cost R (l1 ++ l2) s = (s1, Raise x).
  Proof. intros. rewrite cost_pieces. now rewrite H. Qed.

  Lemma stops : forall l1 l2 s s1 x,
    (forall w, In (w, (s1, Raise x)) (roll R l1 s) -> In (w, (s1, Raise x)) (roll R (l1 ++ l2) s)) /\
    (forall mx, extreme R mx l1 s = (s1, Raise x) -> extreme R mx (l1 ++ l2) s = (s1, Raise x)) /\
    (get_probability_distributions R l1 s = (s1, Raise x) -> get_probability_distributions R (l1 ++ l2) s = (s1, Raise x)) /\
    (get_estimated_cost R l1 s = (s1, Raise x) -> get_estimated_cost R (l1 ++ l2) s = (s1, Raise x)).
  Proof.
    intros. split; [|split; [|split]]; intros.
    - now apply roll_stops.
    - now apply extreme_stops.
    - now apply distribution_stops.
    - now apply cost_stops.
  Qed.

  (** ** Histories *)
  Lemma history_keeps : forall s cs s' n, history R s cs s' -> n <> stdout -> (forall c, In c cs -> ~ assigns (call_lines c) n) ->
    constant R s' n = constant R s n /\ variable R s' n = variable R s n.
  Proof.
    intros s cs s' n H N. induction H as [|s c s1 cs s2 D H IH]; intros A; [auto|].
    destruct (others_kept R c s s1 n D N) as [A1 A2]; [apply A; now left|]. destruct IH as [B1 B2]; [intros; apply A; now right|].
    split; congruence.
  Qed.
  Lemma history_distributions : forall s cs s', history R s cs s' -> Forall asks_distribution cs -> st_const s' = st_const s.
  Proof.
    intros s cs s' H. induction H as [|s c s1 cs s2 D H IH]; intros A; [auto|]. inversion A; subst.
    rewrite IH by auto. now apply (distributions_keep_constants R c).
  Qed.
  Lemma history_rolls : forall s cs s', history R s cs s' -> Forall (fun c => exists lines, c = CRoll lines \/ c = CCost lines) cs -> st_var s' = st_var s.
  Proof.
    intros s cs s' H. induction H as [|s c s1 cs s2 D H IH]; intros A; [auto|]. inversion A; subst.
    rewrite IH by auto. now apply (rolls_keep_variables R c).
  Qed.
  Lemma history_stays_set : forall s cs s' n, history R s cs s' ->
    (constant R s n <> None -> constant R s' n <> None) /\ (variable R s n <> None -> variable R s' n <> None).
  Proof.
    intros s cs s' n H. induction H as [|s c s1 cs s2 D H [A B]]; [auto|]. destruct (stays_set R c s s1 n D) as [C E]. auto.
  Qed.

  (** C33 *)
  Lemma returned_kept : forall s cs s' d, history R s cs s' ->
    (Forall asks_distribution cs -> read_dict R s' d = read_dict R s d) /\
    (forall n, n <> stdout -> (forall c, In c cs -> ~ assigns (call_lines c) n) ->
       dget text_eqb (read_dict R s' d) n = dget text_eqb (read_dict R s d) n) /\
    (forall n, dget text_eqb (read_dict R s d) n <> None -> dget text_eqb (read_dict R s' d) n <> None).
  Proof.
    intros s cs s' d H. destruct d; cbn [read_dict]; [|auto]. split; [|split].
    - now apply history_distributions.
    - intros n N A. apply (history_keeps s cs s' n H N A).
    - intros n. apply (history_stays_set s cs s' n H).
  Qed.

  (** C35 *)
  Lemma rolls_after_distributions : forall s cs s' lines, history R s cs s' -> Forall asks_distribution cs ->
    map (seen_run R) (roll R lines s') = map (seen_run R) (roll R lines s).
  Proof. intros s cs s' lines H A. apply roll_near. now apply history_distributions with cs. Qed.

  Lemma roll_agree_weights : forall lines s s', (forall n, mentions_name lines n -> constant R s n = constant R s' n) ->
    (forall v, roll_weight R s lines v = roll_weight R s' lines v) /\ roll_total R s lines = roll_total R s' lines /\
    (forall x, can_raise R s lines x <-> can_raise R s' lines x).
  Proof.
    intros lines s s' H. pose proof (roll_agree R lines s s' H) as E. split; [|split].
    - intros v. unfold roll_weight. f_equal.
      assert (G : forall l, map fst (filter (fun wr => match stdout_of R (snd wr) with Some x => x =? v | None => false end) l) =
        map (fun y => fst (fst y)) (filter (fun y => match snd y with Some x => x =? v | None => false end)
          (map (fun run : Z * (state * res const_dict) => (fst run, snd (snd run), stdout_of R (snd run))) l))).
      { induction l as [|run l IH]; [reflexivity|]. cbn [map filter fst snd]. destruct (match stdout_of R (snd run) with Some x => x =? v | None => false end); cbn [map fst]; congruence. }
      rewrite !G. now rewrite E.
    - unfold roll_total. f_equal.
      assert (G : forall l, map fst l = map (fun y => fst (fst y)) (map (fun run : Z * (state * res const_dict) => (fst run, snd (snd run), stdout_of R (snd run))) l)).
      { intros l. rewrite map_map. now apply map_ext. }
      rewrite (G (roll R lines s)), (G (roll R lines s')). now rewrite E.
    - assert (G : forall l1 l2, map (fun run : Z * (state * res const_dict) => (fst run, snd (snd run), stdout_of R (snd run))) l1 =
        map (fun run : Z * (state * res const_dict) => (fst run, snd (snd run), stdout_of R (snd run))) l2 ->
        forall x, (exists w s0, In (w, (s0, Raise x)) l1 /\ w <> 0) -> exists w s0, In (w, (s0, Raise x)) l2 /\ w <> 0).
      { intros l1 l2 M x [w [s0 [I W]]]. apply (in_map (fun run : Z * (state * res const_dict) => (fst run, snd (snd run), stdout_of R (snd run)))) in I.
        rewrite M in I. apply in_map_iff in I. destruct I as [[w' [s1 r]] [J1 J2]]. cbn [fst snd] in J1. inversion J1; subst. eauto. }
      unfold can_raise. intros x. split; apply G; [exact E|now symmetry].
  Qed.

  Lemma rolls_after_others : forall s cs s' lines, history R s cs s' ->
    (forall n, mentions_name lines n -> n <> stdout /\ forall c, In c cs -> ~ assigns (call_lines c) n) ->
    (forall v, roll_weight R s' lines v = roll_weight R s lines v) /\ roll_total R s' lines = roll_total R s lines /\
    (forall x, can_raise R s' lines x <-> can_raise R s lines x).
  Proof.
    intros s cs s' lines H A. apply roll_agree_weights. intros n M. destruct (A n M) as [N B]. apply (history_keeps s cs s' n H N B).
  Qed.

  (** ** C36 *)
  Lemma roll_nonempty : forall lines s, roll R lines s <> [].
  Proof.
    assert (B : forall A B (m : W R A) (f : A -> W R B) s, m s <> [] -> (forall a s', f a s' <> []) -> wbind R m f s <> []).
    { intros A B m f s H F. unfold wbind. destruct (m s) as [|[w [s1 [a|x]]] l]; [contradiction| |]; cbn [flat_map]; intros E; apply app_eq_nil in E; destruct E as [E _]; [|discriminate].
      apply (F a s1). destruct (f a s1); [auto|discriminate]. }
    assert (C : forall m k, m <> [] -> weighted_tuples m k <> []).
    { intros m k M. induction k as [|k IH]; cbn [weighted_tuples]; [discriminate|]. destruct m as [|vw m]; [contradiction|]. cbn [flat_map].
      destruct (weighted_tuples (vw :: m) k); [contradiction|]. discriminate. }
    assert (D : forall A (f : list Z -> A) m k, rolls_of f (choices m k) <> []).
    { intros A f m k. unfold choices. destruct m as [|vw m]; [discriminate|]. destruct (float_of_Z _); [|discriminate]. cbn [rbind]. destruct (_ <=? 0); [discriminate|]. cbn [rolls_of].
      specialize (C (vw :: m) (Z.to_nat k)). destruct (weighted_tuples _ _); [exfalso; now apply C|]. discriminate. }
    assert (D' : forall d s, wrolls R (dice_roll d) s <> []).
    { intros d s E. apply map_eq_nil in E. revert E. unfold dice_roll. apply D. }
    assert (E : forall e s, roll_of R e s <> []).
    { induction e; intros s; cbn [roll_of]; unfold wbinop; try discriminate; auto;
        repeat (apply B; auto; intros); try discriminate.
      - destruct (dk_simple d) as [[]|]; [apply D'|discriminate|]. intros E. apply map_eq_nil in E. revert E. unfold dk_roll_full. apply D.
      - destruct (a =? 0); [discriminate|]. apply B; auto. discriminate.
      - destruct (int_operator operator); [|discriminate]. repeat (apply B; auto; intros). discriminate.
      - destruct (minmax_operator min_max); [|discriminate]. repeat (apply B; auto; intros). discriminate. }
    intros lines s. unfold roll. generalize EmptyDict. revert s. induction lines as [|l lines IH]; intros s d; cbn [roll_from]; [discriminate|].
    apply B; auto. unfold roll_line. apply B; [discriminate|]. intros e s'. apply B; auto. discriminate.
  Qed.

  Lemma roll_keyerror : forall lines s w s', In (w, (s', Raise KeyError)) (roll R lines s) ->
    exists n, reads_first assigned lines n /\ constant R s n = None.
  Proof.
    intros lines s w s' H. destruct (roll_from_raises R lines _ s w s' KeyError H) as [[t [_ E]]|[[_ H']|[[E _]|[[E|[E|E]] _]]]]; try discriminate; auto.
    apply parse_raise in E. discriminate.
  Qed.
  Lemma distribution_keyerror : forall lines s, reachable R s -> distribution_raises R s lines KeyError ->
    exists n, reads_first assigned lines n /\ variable R s n = None.
  Proof.
    intros lines s H E. destruct (dist_lines_raises R lines false s (reachable_sinv R s H) KeyError E) as [[t [_ P]]|[[_ H']|[P _]]]; try discriminate; auto.
    apply parse_raise in P. discriminate.
  Qed.
  Lemma extreme_keyerror : forall mx lines s, reachable R s -> extreme_raises R mx s lines KeyError ->
    exists n, reads_first assigned_outside lines n /\ (constant R s n = None \/ variable R s n = None).
  Proof.
    intros mx lines s H E. unfold extreme_raises, extreme in E.
    assert (E' : snd (ext_from R mx EmptyDict lines s) = Raise KeyError) by (destruct mx; exact E).
    destruct (ext_from_raises R mx lines _ s (reachable_sinv R s H) KeyError E') as [[_ H']|[[P _]|P]]; try discriminate; auto.
  Qed.

  Lemma not_cost_keyerror : forall c, not_cost c <> Raise KeyError.
  Proof.
    intros c. unfold not_cost, float_of_Z. destruct (SpecFloat.binary_normalize _ _ _ _ _) eqn:E; cbn [rbind]; try discriminate;
      match goal with |- ffloor ?f <> _ => destruct f; discriminate end.
  Qed.
  Lemma cost_of_keyerror : forall e s, snd (cost_of R e s) = Raise KeyError -> exists n, In n (reads e) /\ constant R s n = None.
  Proof.
    assert (B : forall a b, (forall s, snd (cost_of R a s) = Raise KeyError -> exists n, In n (reads a) /\ constant R s n = None) ->
      (forall s, snd (cost_of R b s) = Raise KeyError -> exists n, In n (reads b) /\ constant R s n = None) ->
      forall s, snd (cost_sum R (cost_of R a) (cost_of R b) s) = Raise KeyError -> exists n, In n (reads a ++ reads b) /\ constant R s n = None).
    { intros a b Ha Hb s H. unfold cost_sum, bind, ret in H. destruct (cost_of R a s) as [s1 [ca|x]] eqn:E1.
      - destruct (cost_of R b s1) as [s2 [cb|y]] eqn:E2; [discriminate|]. cbn in H. destruct (Hb s1) as [n [I C]]; [now rewrite E2|].
        exists n. split; [apply in_or_app; auto|]. pose proof (cost_of_unsets R a n s) as U. rewrite E1 in U. now apply U.
      - cbn in H. destruct (Ha s) as [n [I C]]; [now rewrite E1|]. exists n. split; auto. apply in_or_app; auto. }
    induction e; intros s H; cbn [cost_of reads] in *; try discriminate; try (now apply B); auto.
    - unfold bind, lift in H. destruct (cost_of R e s) as [s1 [c|x]] eqn:E.
      + exfalso. now apply (not_cost_keyerror c).
      + cbn in H. apply IHe. now rewrite E.
    - destruct (dk_simple d) as [[]|]; discriminate.
    - unfold bind, ret, set_const_m in H. destruct (cost_of R e s) as [s1 [c|x]] eqn:E; [discriminate|]. cbn in H. apply IHe. now rewrite E.
    - exists name. split; [now left|]. unfold get_constant in H. unfold constant. cbn in H. destruct (dget _ _ _); [discriminate|auto].
  Qed.
  Lemma cost_keyerror_from : forall lines t s, snd (cost_from R t lines s) = Raise KeyError ->
    exists n, reads_first assigned lines n /\ constant R s n = None.
  Proof.
    induction lines as [|l lines IH]; intros t s H; cbn [cost_from] in H; [discriminate|]. unfold bind, lift in H.
    destruct (parse l) as [e|x] eqn:P; [|cbn in H; inversion H; subst; apply parse_raise in P; discriminate].
    destruct (cost_of R e s) as [s1 [c|x]] eqn:E.
    - destruct (IH _ _ H) as [n [I C]]. exists n. split.
      + apply reads_first_later; auto. intros e' P' A. rewrite P in P'. inversion P'; subst e'.
        apply (cost_of_sets R e n A s s1 c E C).
      + pose proof (cost_of_unsets R e n s) as U. rewrite E in U. now apply U.
    - cbn in H. inversion H; subst. destruct (cost_of_keyerror e s) as [n [I C]]; [now rewrite E|]. exists n. split; auto.
      now apply reads_first_here with e.
  Qed.
  Lemma cost_keyerror : forall lines s, snd (get_estimated_cost R lines s) = Raise KeyError ->
    exists n, reads_first assigned lines n /\ constant R s n = None.
  Proof. intros lines s. apply cost_keyerror_from. Qed.

  Lemma cost_of_unset_kept : forall e n s, ~ In n (assigned e) -> constant R s n = None -> constant R (fst (cost_of R e s)) n = None.
  Proof.
    intros e n s A. apply (cost_of_rel R (fun s s' => constant R s n = None -> constant R s' n = None) ltac:(cbv beta; auto) ltac:(cbv beta; auto)
      (fun m => m <> n) ltac:(intros m v q M; cbv beta; rewrite const_other; auto) e). intros m J ->. contradiction.
  Qed.
  Lemma cost_of_unset : forall e n, In n (reads e) -> ~ In n (assigned e) -> forall s, constant R s n = None -> exists x, snd (cost_of R e s) = Raise x.
  Proof.
    assert (B : forall a b n, (In n (reads a) -> ~ In n (assigned a) -> forall s, constant R s n = None -> exists x, snd (cost_of R a s) = Raise x) ->
      (In n (reads b) -> ~ In n (assigned b) -> forall s, constant R s n = None -> exists x, snd (cost_of R b s) = Raise x) ->
      In n (reads a ++ reads b) -> ~ In n (assigned a ++ assigned b) -> forall s, constant R s n = None ->
      exists x, snd (cost_sum R (cost_of R a) (cost_of R b) s) = Raise x).
    { intros a b n Ha Hb I A s C. assert (Aa : ~ In n (assigned a)) by (intros J; apply A, in_or_app; auto).
      assert (Ab : ~ In n (assigned b)) by (intros J; apply A, in_or_app; auto). unfold cost_sum, bind, ret.
      destruct (cost_of R a s) as [s1 [ca|x]] eqn:E1; [|eexists; reflexivity]. apply in_app_or in I. destruct I as [I|I].
      - destruct (Ha I Aa s C) as [x X]. rewrite E1 in X. discriminate.
      - assert (C1 : constant R s1 n = None).
        { pose proof (cost_of_unset_kept a n s Aa C) as U. now rewrite E1 in U. }
        destruct (Hb I Ab s1 C1) as [x X]. destruct (cost_of R b s1) as [s2 [cb|y]]; [discriminate|]. eexists; reflexivity. }
    induction e; intros n I A s C; cbn [cost_of reads assigned] in *; try contradiction; try (apply (B e1 e2 n); auto; fail); eauto.
    - destruct (IHe n I A s C) as [x X]. unfold bind. destruct (cost_of R e s) as [s1 [c|y]]; [discriminate|]. eexists; reflexivity.
    - destruct (IHe n I ltac:(intros J; apply A; now right) s C) as [x X]. unfold bind. destruct (cost_of R e s) as [s1 [c|y]]; [discriminate|]. eexists; reflexivity.
    - destruct I as [->|[]]. unfold get_constant. unfold constant in C. cbn. rewrite C. eexists; reflexivity.
  Qed.
  Lemma cost_unset : forall lines n s, reads_unassigned lines n -> constant R s n = None -> exists x, snd (get_estimated_cost R lines s) = Raise x.
  Proof.
    intros lines n s [before [t [after [e [-> [E [Hr [Ha Hb]]]]]]]]. unfold get_estimated_cost. generalize 0. revert s Hb.
    induction before as [|l before IH]; intros s Hb k H; cbn [app cost_from]; unfold bind, lift.
    - rewrite E. destruct (cost_of_unset e n Hr Ha s H) as [x X]. destruct (cost_of R e s) as [s1 [c|y]]; [discriminate|]. eexists; reflexivity.
    - destruct (parse l) as [e'|x] eqn:P; [|eexists; reflexivity]. destruct (cost_of R e' s) as [s1 [c|y]] eqn:E1; [|eexists; reflexivity].
      apply IH.
      + intros [t' [e2 [I1 I2]]]. apply Hb. exists t', e2. cbn. auto.
      + assert (A : ~ In n (assigned e')) by (intros J; apply Hb; exists l, e'; cbn; auto).
        pose proof (cost_of_unset_kept e' n s A H) as U. now rewrite E1 in U.
  Qed.

  Lemma unset_roll : forall lines n s, reads_unassigned lines n -> n <> stdout -> constant R s n = None ->
    (forall w s' r, In (w, (s', r)) (roll R lines s) -> exists x, r = Raise x) /\
    ((forall t, In t lines -> exists e, parse t = Ok e /\ ~ divides e /\ forall m, In m (dice_of e) -> can_choose m) ->
     forall w s' r, In (w, (s', r)) (roll R lines s) -> r = Raise KeyError).
  Proof.
    intros lines n s U N C.
    assert (A : forall w s' r, In (w, (s', r)) (roll R lines s) -> exists x, r = Raise x).
    { intros w s' [d|x] H; [|eauto]. exfalso. now apply (roll_unset R lines n s U N C EmptyDict w s' d). }
    split; [exact A|]. intros L w s' r H. destruct (A w s' r H) as [x ->]. f_equal.
    destruct (roll_from_raises R lines _ s w s' x H) as [[t [I E]]|[[-> _]|[[_ [t [e [I [E D]]]]]|[_ [t [e [I [E [m [D F]]]]]]]]]]; auto; exfalso;
      destruct (L t I) as [e' [E' [D' F']]]; rewrite E' in E; inversion E; subst.
    - contradiction.
    - now apply F, F'.
  Qed.
  Lemma unset_distribution : forall lines n s, reachable R s -> reads_unassigned lines n -> n <> stdout -> variable R s n = None ->
    (exists x, distribution_raises R s lines x) /\
    ((forall t, In t lines -> exists e, parse t = Ok e /\ ~ divides e) -> distribution_raises R s lines KeyError).
  Proof.
    intros lines n s Hs U N C. destruct (dist_lines_unset R lines n s U N C false) as [x X]. split; [now exists x|].
    intros L. unfold distribution_raises, get_probability_distributions. rewrite X. f_equal.
    destruct (dist_lines_raises R lines false s (reachable_sinv R s Hs) x X) as [[t [I E]]|[[-> _]|[_ [t [e [I [E D]]]]]]]; auto; exfalso;
      destruct (L t I) as [e' [E' D']]; rewrite E' in E; inversion E; subst; contradiction.
  Qed.
  Lemma unset_extreme : forall mx lines n s, reads_unassigned lines n -> n <> stdout -> constant R s n = None -> variable R s n = None ->
    exists x, extreme_raises R mx s lines x.
  Proof.
    intros mx lines n s U N C V. destruct (ext_from_unset R mx lines n s U N C V EmptyDict) as [x X]. exists x.
    unfold extreme_raises, extreme. destruct mx; exact X.
  Qed.

  (** What is set *)
  Lemma successful_sets : forall s s' lines n, assigns lines n ->
    (forall w d, In (w, (s', Ok d)) (roll R lines s) -> constant R s' n <> None) /\
    (forall c, get_estimated_cost R lines s = (s', Ok c) -> constant R s' n <> None) /\
    (forall dict, get_probability_distributions R lines s = (s', Ok dict) -> variable R s' n <> None) /\
    (forall mx d, extreme R mx lines s = (s', Ok d) -> variable R s' n <> None /\
       (some_line lines (fun e => In n (assigned_outside e)) -> constant R s' n <> None)).
  Proof.
    intros s s' lines n A. split; [|split; [|split]]; intros.
    - eapply roll_sets; eauto.
    - eapply cost_sets; eauto.
    - eapply dist_sets; eauto.
    - assert (H' : ext_from R mx EmptyDict lines s = (s', Ok d)) by (destruct mx; exact H).
      destruct (ext_sets R mx lines n EmptyDict s s' d H') as [B C]. split; auto.
  Qed.
  Lemma only_assigned_set : forall cs s n, history R (empty_state R) cs s -> n <> stdout ->
    (constant R s n <> None -> exists c, In c cs /\ ~ asks_distribution c /\ assigns (call_lines c) n) /\
    (variable R s n <> None -> exists c, In c cs /\ (forall lines, c <> CRoll lines /\ c <> CCost lines) /\ assigns (call_lines c) n).
  Proof.
    intros cs s n H N.
    (* the search for a call in the history is by induction, since [assigns] need not be decidable *)
    assert (D : forall lines, assigns lines n \/ ~ assigns lines n).
    { intros lines. induction lines as [|t lines [IH|IH]].
      - right. intros [t [e [[] _]]].
      - left. destruct IH as [u [e [I J]]]. exists u, e. cbn. auto.
      - destruct (parse t) as [e|x] eqn:P.
        + destruct (in_dec (list_eq_dec ascii_dec) n (assigned e)) as [J|J].
          * left. exists t, e. cbn. auto.
          * right. intros [u [e' [[<-|I] [P' J']]]]; [rewrite P in P'; inversion P'; subst; contradiction|]. apply IH. exists u, e'. auto.
        + right. intros [u [e' [[<-|I] [P' J']]]]; [congruence|]. apply IH. exists u, e'. auto. }
    assert (G : forall s0 s, history R s0 cs s ->
      (constant R s0 n = None -> constant R s n <> None -> exists c, In c cs /\ ~ asks_distribution c /\ assigns (call_lines c) n) /\
      (variable R s0 n = None -> variable R s n <> None -> exists c, In c cs /\ (forall lines, c <> CRoll lines /\ c <> CCost lines) /\ assigns (call_lines c) n)).
    { clear s H. intros s0 s H. induction H as [|s0 c s1 cs s2 Dc H [IH1 IH2]]; [split; intros; contradiction|]. split.
      - intros C0 C2. destruct (constant R s1 n) as [v|] eqn:C1.
        + exists c. split; [now left|]. split.
          * intros A. unfold constant in *. rewrite (distributions_keep_constants R c s0 s1 Dc A) in C1. congruence.
          * destruct (D (call_lines c)) as [A|A]; auto. destruct (others_kept R c s0 s1 n Dc N A). congruence.
        + destruct (IH1 eq_refl C2) as [c' [I J]]. exists c'. split; [now right|auto].
      - intros C0 C2. destruct (variable R s1 n) as [v|] eqn:C1.
        + exists c. split; [now left|]. split.
          * intros lines. assert (K : (exists lines, c = CRoll lines \/ c = CCost lines) -> False).
            { intros A. unfold variable in *. rewrite (rolls_keep_variables R c s0 s1 Dc A) in C1. congruence. }
            split; intros ->; apply K; eauto.
          * destruct (D (call_lines c)) as [A|A]; auto. destruct (others_kept R c s0 s1 n Dc N A). congruence.
        + destruct (IH2 eq_refl C2) as [c' [I J]]. exists c'. split; [now right|auto]. }
    destruct (G _ _ H) as [G1 G2]. split; auto.
  Qed.
End Proofs.
