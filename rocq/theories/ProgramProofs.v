(** * ProgramProofs: the lemmas behind the properties about the distributions of programs *)
From Coq Require Import QArith Permutation.
From Verif Require Import Py PyFacts PyFloat Constraint ConstraintFacts Distribution DistFacts SpecDice DiceFacts DiceModel
  DropKeepFacts NotationFacts DiceProofs Expr Lexer Parser Interp TagFacts SpecProgram ExprFacts StateFacts ProgramFacts JointFacts RaiseFacts
  WfFacts SpecInterp InterpRun SpecAlgebra AlgebraFacts.
Local Open Scope Z_scope.

(** ** One expression without variables *)
Lemma single_program : forall e, simple e -> reads e = [] -> good_program [(None, e)].
Proof.
  intros e S E. split; [discriminate|]. split.
  - cbn. rewrite E. split; [intros m []|exact I].
  - intros n e' [H|[]]. injection H as <- <-. auto.
Qed.

Lemma expression_counts : forall (R : Runtime) s t e d, reachable R s -> parse t = Ok e -> simple e -> reads e = [] ->
  reports R s [t] d ->
  (forall v, reported R d v = occurrences v (joint faces no_values e)) /\
  (forall v, listed R d v <-> In (Some v) (joint (map fst) no_values e)).
Proof.
  intros R s t e d Hs Ht S E H. assert (G := single_program e S E).
  apply (reports_run R [(None, e)] [t] s d) in H; [|discriminate | repeat constructor; auto]. destruct H as [s' H].
  assert (I := reachable_sinv R s Hs). split; intros v.
  - exact (run_reported R true _ s s' d I G H v).
  - exact (run_listed R true _ s s' d I G H v).
Qed.

(** ** Programs *)
Section Program.
  Context (R : Runtime).

  Lemma program_run : forall s lines p d, reachable R s -> program_text lines p -> good_program p -> reports R s lines d ->
    exists s', run R true p s = (s', Ok d) /\ sinv R s.
  Proof.
    intros s lines p d Hs HT G H. apply (reports_run R p lines s d) in H; auto; [|apply G]. destruct H as [s' H]. exists s'. split; auto.
    now apply reachable_sinv.
  Qed.

  Lemma natural_dice : forall p m, good_program p -> In m (program_dice p) -> natural_counts m.
  Proof.
    intros p m [_ [_ G]] H. unfold program_dice in H. apply in_flat_map in H. destruct H as [[n e] [Hl H]]. destruct (G n e Hl) as [S _]. cbn [snd] in H.
    clear - S H. induction e; cbn [simple dice_of] in *; auto; try (destruct H; fail).
    - destruct H as [<-|[]]. destruct S as [[form M] _]. now apply (mk_dropkeep_inv form d) in M.
    - destruct H as [<-|[]]. destruct S as [[form M] _]. eapply dice_natural; eauto.
    - apply in_app_or in H. tauto.
    - apply in_app_or in H. tauto.
    - apply in_app_or in H. tauto.
    - apply in_app_or in H. tauto.
    - apply in_app_or in H. tauto.
    - apply in_app_or in H. tauto.
    - destruct S.
  Qed.

  Lemma rollable_sided : forall p, rollable p -> sided p.
  Proof. intros p H m Hm. specialize (H m Hm). intros ->. apply H. reflexivity. Qed.

  Lemma faces_none : forall p, ~ In None (results (map fst) no_values p) -> ~ In None (results faces no_values p).
  Proof.
    intros p H C. apply H. revert C. apply results_incl. intros m _ x. apply faces_sides.
  Qed.

  Lemma results_possible : forall s lines p d, reachable R s -> program_text lines p -> good_program p -> rollable p ->
    reports R s lines d -> forall v,
    (reported R d v <> 0 <-> In (Some v) (results faces no_values p)) /\
    (listed R d v <-> In (Some v) (results (map fst) no_values p)).
  Proof.
    intros s lines p d Hs HT G HR H v. destruct (program_run s lines p d Hs HT G H) as [s' [E I]].
    assert (N := run_none R true p s s' d I G E). split.
    - rewrite (run_reported R true p s s' d I G E v).
      rewrite <- (used_all faces p no_values v); auto using faces_none.
      rewrite <- (weighted_pos faces p no_values v) by apply G. pose proof (weighted_nonneg faces p no_values v). lia.
    - rewrite (run_listed R true p s s' d I G E v). apply used_all; auto. intros m Hm. apply map_nonempty. now apply (rollable_sided p).
  Qed.

  Lemma weighted_counts : forall s lines p d, reachable R s -> program_text lines p -> good_program p -> reports R s lines d ->
    forall v, reported R d v = weighted faces no_values p v.
  Proof.
    intros s lines p d Hs HT G H v. destruct (program_run s lines p d Hs HT G H) as [s' [E I]]. now apply (run_reported R true p s s' d).
  Qed.

  (** an own sum over the result map *)
  Lemma reported_sum : forall d : dist R, dinv R d -> lsum (fun v => reported R d v) (map fst (get_result_map R d)) = d_count d.
  Proof.
    intros d D. rewrite <- (total_count R d D). unfold total_ways. unfold lsum. rewrite map_map.
    pose proof (result_map_nodup R d) as ND. unfold reported. f_equal.
    apply map_ext_in. intros [v c] Hvc. cbn [fst snd].
    enough (E : dget Z.eqb (get_result_map R d) v = Some c) by now rewrite E.
    clear - ND Hvc. induction (get_result_map R d) as [|[k x] l IH]; [destruct Hvc|]. cbn [dget map fst] in *. inversion ND; subst.
    destruct Hvc as [E|Hvc]; [injection E as -> ->; now rewrite Z.eqb_refl|].
    destruct (k =? v) eqn:E; [|auto]. apply Z.eqb_eq in E. subst k. exfalso. apply H1. apply (in_map fst) in Hvc. exact Hvc.
  Qed.

  Lemma reported_unlisted : forall (d : dist R) v, ~ listed R d v -> reported R d v = 0.
  Proof.
    intros d v H. unfold reported, listed in *. induction (get_result_map R d) as [|[k x] l IH]; auto. cbn [dget map fst In] in *.
    destruct (k =? v) eqn:E; [apply Z.eqb_eq in E; tauto | tauto].
  Qed.

  Lemma run_dinv : forall so p s s' d, sinv R s -> good_program p -> run R so p s = (s', Ok d) -> dinv R d.
  Proof.
    intros so p s s' d I G E. destruct (run_good R so p s I G) as [s2 [r [E2 H]]]. rewrite E in E2. injection E2 as <- <-. apply H.
  Qed.

  Lemma exact_when_uniform : forall s lines p d, reachable R s -> program_text lines p -> good_program p -> rollable p ->
    used_once_or_uniform p -> reports R s lines d -> forall v,
    reported R d v * Z.of_nat (length (results faces no_values p)) = occurrences v (results faces no_values p) * d_count d.
  Proof.
    intros s lines p d Hs HT G HR HU H v. destruct (program_run s lines p d Hs HT G H) as [s' [E I]].
    assert (N := faces_none p (run_none R true p s s' d I G E)). assert (D := run_dinv true p s s' d I G E).
    destruct (weighted_proportional p (proj1 G) HR HU) as [K1 [K2 [P1 [P2 P]]]].
    assert (P' : forall v, K1 * reported R d v = K2 * occurrences v (results faces no_values p)).
    { intros x. rewrite (run_reported R true p s s' d I G E x). now apply P. }
    assert (T : K1 * d_count d = K2 * Z.of_nat (length (results faces no_values p))).
    { rewrite <- (reported_sum d D).
      rewrite <- (occurrences_length (results faces no_values p) (map fst (get_result_map R d))); auto.
      - rewrite <- !lsum_scale. apply lsum_ext. intros x _. apply P'.
      - apply result_map_nodup.
      - intros x Hx. destruct (results_possible s lines p d Hs HT G HR H x) as [_ L]. apply L. revert Hx.
        apply results_incl. intros m _ y. apply faces_sides. }
    specialize (P' v). set (L := Z.of_nat (length (results faces no_values p))) in *. set (o := occurrences v (results faces no_values p)) in *.
    set (r := reported R d v) in *. set (C := d_count d) in *. clearbody L o r C. clear - P1 P2 P' T.
    apply (Z.mul_reg_l _ _ (K1 * K2)); [nia|].
    transitivity ((K1 * r) * (K2 * L)); [ring|]. rewrite P', <- T. ring.
  Qed.

  (** a - a *)
  Lemma minus_itself : forall s t1 t2 n e d, reachable R s -> parse t1 = Ok (EAssign n e) -> parse t2 = Ok (ESub (EVar n) (EVar n)) ->
    simple e -> reads e = [] -> var_name n -> reports R s [t1; t2] d -> forall v, listed R d v -> v = 0.
  Proof.
    intros s t1 t2 n e d Hs H1 H2 S E N H v L. set (p := [(Some n, e); (None, ESub (EVar n) (EVar n))]).
    assert (G : good_program p).
    { split; [discriminate|]. split.
      - cbn. rewrite E. split; [intros m []|]. split; [|exact I]. intros m Hm. simpl in Hm. intuition.
      - intros m e' [X|[X|[]]]; injection X as <- <-; cbn; auto. }
    destruct (program_run s [t1; t2] p d Hs) as [s' [E' I]]; auto; [repeat constructor; auto|].
    apply (run_listed R true p s s' d I G E') in L. unfold p in L. rewrite used_results_some in L.
    destruct (uses n [(None, ESub (EVar n) (EVar n))] =? 0) eqn:U.
    - exfalso. cbn in U. unfold times_read in U. cbn [reads app filter] in U. rewrite text_eqb_refl in U. discriminate.
    - apply in_flat_map in L. destruct L as [[x|] [_ L]]; [|destruct L as [L|[]]; discriminate].
      cbn in L. rewrite text_eqb_refl in L. destruct L as [L|[]]. injection L as L. lia.
  Qed.

  (** ** Division by zero *)
  Lemma raises_exactly : forall s lines p x, reachable R s -> program_text lines p -> good_program p -> sided p ->
    (distribution_raises R s lines x <-> x = ZeroDivisionError /\ In None (results (map fst) no_values p)).
  Proof.
    intros s lines p x Hs HT G HS. assert (I := reachable_sinv R s Hs). rewrite (raises_run R p lines s x (proj1 G) HT). split.
    - intros [s' E]. exact (run_raises R true p s s' x I G HS E).
    - intros [-> H]. destruct (run R true p s) as [s' [d|y]] eqn:E.
      + exfalso. exact (run_none R true p s s' d I G E H).
      + destruct (run_raises R true p s s' y I G HS E) as [-> _]. eauto.
  Qed.

  Lemma positive_sides : forall m x, (forall v c, In (v, c) m -> 0 < c) -> (In x (faces m) <-> In x (map fst m)).
  Proof. intros m x H. split; [apply faces_sides | now apply sides_faces]. Qed.

  Lemma raises_positive : forall s lines p x, reachable R s -> program_text lines p -> good_program p -> sided p -> positive p ->
    (distribution_raises R s lines x <-> x = ZeroDivisionError /\ In None (results faces no_values p)).
  Proof.
    intros s lines p x Hs HT G HS HP. rewrite (raises_exactly s lines p x Hs HT G HS).
    split; intros [E H]; split; auto; revert H; apply results_incl; intros m Hm y Hy; apply (positive_sides m y); auto; intros v c; now apply HP.
  Qed.

  (** ** Reading dictionaries of distributions *)
  Lemma one_line : forall s t e, parse t = Ok e -> get_probability_distributions R [t] s =
    match dist_of R e s with
    | (s1, Ok d) => (set_stdout_var R d s1, Ok (st_var (set_stdout_var R d s1)))
    | (s1, Raise x) => (s1, Raise x)
    end.
  Proof.
    intros s t e H. unfold get_probability_distributions. cbn [dist_lines]. unfold dist_line. unfold bind, lift. rewrite H.
    destruct (dist_of R e s) as [s1 [d|x]]; reflexivity.
  Qed.

  Lemma dset_stdout : forall (l : list (text * dist R)) n x, n <> stdout -> dget text_eqb (dset text_eqb l stdout x) n = dget text_eqb l n.
  Proof. intros. now apply (dget_dset_other text_eqb text_eqb_iff). Qed.

  (** an assignment line in detail *)
  Lemma assign_line : forall s t n e s' d, sinv R s -> parse t = Ok (EAssign n e) -> n <> stdout -> gives R s [t] s' n d ->
    exists s1 de, dist_of R e s = (s1, Ok de) /\ sinv R s1 /\ later R s s1 /\ dwf R s1 de /\
      d_map d = tag_all R (next_instance R s1 n) (d_map de) /\ d_count d = d_count de /\ dinv R d /\ ~ In ","%char n /\
      s' = set_stdout_var R de {| st_var := dset text_eqb (st_var s1) n d; st_const := st_const s1; st_times := bump (st_times s1) n |}.
  Proof.
    intros s t n e s' d I H Hn [dict [E G]]. rewrite (one_line s t _ H) in E. assert (W := parse_wf t _ H). cbn [well_formed] in W. destruct W as [Nc W].
    destruct (dist_of_kept R e W s I) as [I1 [L1 K1]]. cbn [dist_of] in E. unfold bind in E.
    destruct (dist_of R e s) as [s1 [de|x]]; [|discriminate]. cbn [fst snd] in *.
    destruct (set_var_spec R s1 n de I1 K1 Nc) as [d' [E' [M [C W']]]]. rewrite E' in E. cbn [ret] in E.
    assert (E2 : s' = set_stdout_var R de {| st_var := dset text_eqb (st_var s1) n d'; st_const := st_const s1; st_times := bump (st_times s1) n |})
      by (unfold ret in E; congruence).
    assert (E3 : dict = st_var s') by (rewrite E2; unfold ret in E; congruence).
    subst dict. rewrite E2 in G. cbn [set_stdout_var st_var] in G. rewrite dset_stdout in G by auto.
    rewrite (dget_dset_same text_eqb text_eqb_iff) in G. injection G as <-.
    exists s1, de. split; [reflexivity|]. split; [auto|]. split; [auto|]. split; [auto|]. split; [auto|]. split; [auto|]. split; [apply W'|]. auto.
  Qed.

  Lemma gives_dwf : forall s lines s' n d, sinv R s -> gives R s lines s' n d -> sinv R s' /\ dwf R s' d.
  Proof.
    intros s lines s' n d I [dict [E G]]. destruct (dist_lines_kept R lines false s I) as [K1 [K2 K3]].
    unfold get_probability_distributions in E. rewrite E in *. cbn [fst snd] in *. split; auto. apply (K3 n). 
    clear - G. induction dict as [|[k v] l IH]; [discriminate|]. cbn [dget] in G. destruct (text_eqb k n) eqn:K.
    - apply text_eqb_eq in K. inversion G; subst. now left.
    - right. auto.
  Qed.

  Lemma mentions_issued : forall s d n, dwf R s d -> mentions R d n -> issued R s n.
  Proof. intros s d n [_ H] M. apply H. now apply mentions_dnames. Qed.

  (** the constraint added by an assignment *)
  Lemma tagged_tied : forall inst d d', name_ok inst -> ~ dnames R d inst -> dinv R d -> d_map d' = tag_all R inst (d_map d) -> tied_to R inst d'.
  Proof.
    intros inst d d' N F D M o c Ho. rewrite M in Ho. apply tag_all_in in Ho. destruct Ho as [o0 [Ho Et]].
    apply (in_map fst) in Ho. cbn [fst] in Ho. assert (Ok0 := di_keys R d D o0 Ho).
    assert (Fo : ~ In inst (names R (o_cs o0))) by (intros X; apply F; exists o0; auto).
    assert (Ok1 := tag_ok R inst o0 o N Fo Ok0 Et). destruct Ok1 as [_ [Nm [_ [h Hh]]]].
    assert (V : o_value o = o_value o0) by now apply tag_outcome_inv in Et.
    assert (Hv : h inst = o_value o0) by now apply (tag_sat R inst o0 o h Et) in Hh.
    (* any other value of inst violates some constraint *)
    assert (X : forall x, x <> o_value o0 -> exists vs, In (CVar inst vs) (cs_iter (rt_c R) (o_cs o)) /\ ~ In x (z_iter (rt_z R) vs) /\ In (o_value o0) (z_iter (rt_z R) vs)).
    { intros x Hx. assert (U : ~ osat R (upd h inst x) o).
      { intros S. apply (tag_sat R inst o0 o _ Et) in S. rewrite upd_same in S. tauto. }
      assert (B : osatb R (upd h inst x) o = false) by (destruct (osatb R (upd h inst x) o) eqn:B; auto; apply osatb_iff in B; tauto).
      unfold osatb, satb in B. 
      assert (exists k, In k (cs_iter (rt_c R) (o_cs o)) /\ sat_cb R (upd h inst x) k = false) as [k [Hk Bk]].
      { clear - B. induction (cs_iter (rt_c R) (o_cs o)) as [|k l IH]; [discriminate|]. cbn [forallb] in B. apply andb_false_iff in B.
        destruct B as [B|B]; [exists k; split; [left|]; auto|]. destruct (IH B) as [k' [H1 H2]]. exists k'. split; [right|]; auto. }
      specialize (Hh k Hk). destruct k as [| |m vs]; cbn in Hh, Bk; try discriminate; try tauto.
      assert (m = inst).
      { destruct (text_eq_dec m inst) as [|Hne]; auto. rewrite upd_other in Bk by auto. exfalso.
        apply Bool.not_true_iff_false in Bk. apply Bk. apply existsb_exists. exists (h m). rewrite Z.eqb_refl. auto. }
      subst m. exists vs. split; auto. rewrite upd_same in Bk. split.
      - intros C. apply Bool.not_true_iff_false in Bk. apply Bk. apply existsb_exists. exists x. rewrite Z.eqb_refl. auto.
      - now rewrite Hv in Hh. }
    destruct (X (o_value o0 + 1)) as [vs [Hvs [_ Hin]]]; [lia|]. exists vs. split; auto. intros x. rewrite V. split; [|intros ->; auto].
    intros Hx. destruct (Z.eq_dec x (o_value o0)) as [|Hne]; auto. exfalso. destruct (X x Hne) as [vs' [Hvs' [Hnx _]]].
    destruct (Nm (CVar inst vs) (CVar inst vs') Hvs Hvs') as [B _]; [congruence|]. cbn in B. rewrite text_eqb_refl in B. discriminate.
  Qed.

  Lemma fresh_instance : forall s t n e s' d, reachable R s -> parse t = Ok (EAssign n e) -> n <> stdout -> gives R s [t] s' n d ->
    exists inst, tied_to R inst d /\
      forall s0 lines0 s1 m d0, reachable R s0 -> gives R s0 lines0 s1 m d0 -> after R s1 s -> ~ mentions R d0 inst.
  Proof.
    intros s t n e s' d Hs Ht Hn H. assert (I := reachable_sinv R s Hs).
    destruct (assign_line s t n e s' d I Ht Hn H) as [s1 [de [Ee [I1 [L1 [W1 [M [C [D [Nc _]]]]]]]]]].
    exists (next_instance R s1 n). split.
    - apply (tagged_tied _ de); auto; [now apply instance_name_ok | | apply W1]. intros X. apply (next_not_issued R s1 n). now apply (proj2 W1).
    - intros s0 lines0 s2 m d0 H0 G0 A Mn. apply (next_not_issued R s1 n).
      destruct (gives_dwf s0 lines0 s2 m d0 (reachable_sinv R s0 H0) G0) as [I2 W2].
      apply (issued_later R s2); [|now apply (mentions_issued s2 d0)].
      destruct (after_kept R s2 s I2 A) as [_ L2]. eapply later_trans; eauto.
  Qed.

  (** expressions that read no variable do not look at the state *)
  Lemma stateless : forall e, simple e -> reads e = [] -> exists r, forall s, dist_of R e s = (s, r).
  Proof.
    assert (B : forall op a b, (exists r, forall s, dist_of R a s = (s, r)) -> (exists r, forall s, dist_of R b s = (s, r)) ->
      exists r, forall s, binop_m R op (dist_of R a) (dist_of R b) s = (s, r)).
    { intros op a b [ra Ha] [rb Hb]. unfold binop_m, bind, lift. destruct ra as [da|x].
      - destruct rb as [db|x].
        + exists (d_binop R op da db). intros s. now rewrite Ha, Hb.
        + exists (Raise x). intros s. now rewrite Ha, Hb.
      - exists (Raise x). intros s. now rewrite Ha. }
    induction e; intros S E; cbn [simple reads] in *; cbn [dist_of]; auto;
      try (apply app_eq_nil in E; destruct E as [E1 E2]; apply B; [apply IHe1 | apply IHe2]; tauto).
    - destruct (IHe S E) as [[d|x] H]; eexists; intros s; unfold bind; rewrite H; reflexivity.
    - destruct (dk_simple d) as [[d0|t]|]; eexists; intros s; reflexivity.
    - eexists. reflexivity.
    - eexists. reflexivity.
    - eexists. reflexivity.
    - apply app_eq_nil in E; destruct E as [E1 E2]. destruct (dist_operator operator); [apply B; [apply IHe1 | apply IHe2]; tauto|]. eexists. reflexivity.
    - destruct (IHe S E) as [[d|x] H]; eexists; intros s; unfold bind; rewrite H; reflexivity.
    - destruct S.
    - discriminate.
  Qed.

  Lemma simple_well_formed : forall e, simple e -> well_formed e.
  Proof.
    induction e; cbn [simple well_formed]; auto; try tauto.
    - intros [H1 [H2 H3]]. split; auto. lia.
    - intros [H1 H2]. split; auto. lia.
  Qed.

  Lemma stateless_nameless : forall e s s' d, simple e -> reads e = [] -> dist_of R e s = (s', Ok d) -> forall n, ~ mentions R d n.
  Proof.
    intros e s s' d S E H n M. destruct (stateless e S E) as [r Hr]. rewrite Hr in H. injection H as <- ->.
    destruct (dist_of_kept R e (simple_well_formed e S) (empty_state R) (sinv_empty R)) as [_ [_ K]]. rewrite Hr in K. cbn in K.
    destruct (mentions_issued _ d n K M) as [m [k [_ [_ X]]]]. unfold times_of in X. cbn in X. lia.
  Qed.

  Lemma tagged_mentions : forall inst (de d : dist R) n, d_map d = tag_all R inst (d_map de) -> mentions R d n -> n = inst \/ mentions R de n.
  Proof. intros inst de d n M H. apply mentions_dnames in H. destruct (tag_dnames R inst de d n M H); auto. right. now apply mentions_dnames. Qed.

  Lemma fresh_independent : forall s t n e s' d, reachable R s -> parse t = Ok (EAssign n e) -> n <> stdout -> simple e -> reads e = [] ->
    gives R s [t] s' n d ->
    forall s0 lines0 s1 m d0, reachable R s0 -> gives R s0 lines0 s1 m d0 -> after R s1 s -> no_shared_variable R d d0.
  Proof.
    intros s t n e s' d Hs Ht Hn S E H s0 lines0 s2 m d0 H0 G0 A k Hk Hk0. assert (I := reachable_sinv R s Hs).
    destruct (assign_line s t n e s' d I Ht Hn H) as [s1 [de [Ee [I1 [L1 [W1 [M [C [D [Nc _]]]]]]]]]].
    destruct (tagged_mentions _ de d k M Hk) as [->|Hk']; [|exact (stateless_nameless e s s1 de S E Ee k Hk')].
    apply (next_not_issued R s1 n). destruct (gives_dwf s0 lines0 s2 m d0 (reachable_sinv R s0 H0) G0) as [I2 W2].
    apply (issued_later R s2); [|now apply (mentions_issued s2 d0)].
    destruct (after_kept R s2 s I2 A) as [_ L2]. eapply later_trans; eauto.
  Qed.

  Lemma simple_state : forall e, simple e -> forall s, fst (dist_of R e s) = s.
  Proof.
    assert (B : forall op a b, (forall s, fst (dist_of R a s) = s) -> (forall s, fst (dist_of R b s) = s) ->
      forall s, fst (binop_m R op (dist_of R a) (dist_of R b) s) = s).
    { intros op a b Ha Hb s. unfold binop_m, bind, lift. specialize (Ha s). destruct (dist_of R a s) as [s1 [da|x]]; cbn in Ha; subst s1; [|reflexivity].
      specialize (Hb s). destruct (dist_of R b s) as [s2 [db|x]]; cbn in Hb; subst s2; reflexivity. }
    induction e; intros S s; cbn [simple] in S; cbn [dist_of]; auto; try (apply B; tauto).
    - specialize (IHe S s). unfold bind. destruct (dist_of R e s) as [s1 [d|x]]; auto.
    - destruct (dk_simple d) as [[d0|t]|]; reflexivity.
    - destruct (dist_operator operator); [apply B; tauto | reflexivity].
    - specialize (IHe S s). unfold bind. destruct (dist_of R e s) as [s1 [d|x]]; auto.
    - destruct S.
  Qed.

  Lemma others_unchanged : forall s t n e s' d, reachable R s -> parse t = Ok (EAssign n e) -> n <> stdout -> simple e -> gives R s [t] s' n d ->
    forall m, m <> n -> m <> stdout -> dget text_eqb (st_var s') m = dget text_eqb (st_var s) m.
  Proof.
    intros s t n e s' d Hs Ht Hn S H m Hm Hso. assert (I := reachable_sinv R s Hs).
    destruct (assign_line s t n e s' d I Ht Hn H) as [s1 [de [Ee [I1 [L1 [W1 [M [C [D [Nc ->]]]]]]]]]].
    assert (s1 = s) by (pose proof (simple_state e S s) as X; rewrite Ee in X; exact X). subst s1. cbn [set_stdout_var st_var].
    rewrite dset_stdout by auto. now apply (dget_dset_other text_eqb text_eqb_iff).
  Qed.

  (** ** Storing a variable *)
  Lemma stored_same : forall s t n e s' d, reachable R s -> parse t = Ok (EAssign n e) -> n <> stdout -> gives R s [t] s' n d ->
    exists s1 de, dist_of R e s = (s1, Ok de) /\ dget text_eqb (st_var s') stdout = Some de /\
      get_result_map R d = get_result_map R de /\ d_count d = d_count de /\ length (d_map d) = length (d_map de) /\
      d_max R d = d_max R de /\ d_min R d = d_min R de /\ d_average R d = d_average R de /\ get_dict_form R d = get_dict_form R de.
  Proof.
    intros s t n e s' d Hs Ht Hn H. assert (I := reachable_sinv R s Hs).
    destruct (assign_line s t n e s' d I Ht Hn H) as [s1 [de [Ee [I1 [L1 [W1 [M [C [D [Nc ->]]]]]]]]]].
    exists s1, de. assert (E := tag_result_map R _ de d M). split; auto. split.
    { cbn [set_stdout_var st_var]. now rewrite (dget_dset_same text_eqb text_eqb_iff). }
    split; auto. split; auto. split.
    { rewrite M. clear. induction (d_map de) as [|[o c] m IH]; auto. cbn [tag_all]. destruct (tag_outcome_ok R (next_instance R s1 n) o) as [o' ->]. cbn [length]. auto. }
    unfold d_max, d_min, d_average, get_dict_form. rewrite E, C. auto.
  Qed.

  Lemma stored_exists : forall s t n e s1 de, reachable R s -> parse t = Ok (EAssign n e) -> n <> stdout -> dist_of R e s = (s1, Ok de) ->
    exists s' d, gives R s [t] s' n d.
  Proof.
    intros s t n e s1 de Hs Ht Hn E. assert (I := reachable_sinv R s Hs). assert (W := parse_wf t _ Ht). cbn [well_formed] in W. destruct W as [Nc W].
    destruct (dist_of_kept R e W s I) as [I1 [L1 K1]]. rewrite E in *. cbn [fst snd] in *.
    destruct (set_var_spec R s1 n de I1 K1 Nc) as [d' [E' _]]. unfold gives. rewrite (one_line s t _ Ht). cbn [dist_of]. unfold bind. rewrite E, E'. cbn [ret].
    unfold ret. eexists. exists d'. eexists. split; [reflexivity|]. cbn [set_stdout_var st_var]. rewrite dset_stdout by auto.
    now rewrite (dget_dset_same text_eqb text_eqb_iff).
  Qed.

  (** ** Obtainable distributions *)
  Lemma probability_total : forall d : dist R, obtainable R d ->
    NoDup (map fst (get_result_map R d)) /\ (forall v c, In (v, c) (get_result_map R d) -> 0 <= c) /\
    zsum (map snd (get_result_map R d)) = d_count d /\
    (d_count d <> 0 -> (fold_right (fun vc q => inject_Z (snd vc) / inject_Z (d_count d) + q) 0 (get_result_map R d) == 1)%Q).
  Proof.
    intros d O. assert (D := obtainable_dinv R d O). split; [apply result_map_nodup|]. split; [intros v c H; exact (result_map_nonneg R d (di_nonneg R d D) _ H)|].
    assert (T : zsum (map snd (get_result_map R d)) = d_count d) by now apply (total_count R d D). split; auto. intros N.
    apply inject_Z_nonzero in N.
    assert (X : forall l : list (Z * Z), (fold_right (fun vc q => inject_Z (snd vc) / inject_Z (d_count d) + q) 0 l == inject_Z (zsum (map snd l)) / inject_Z (d_count d))%Q).
    { intros l. induction l as [|[v c] l IH]; cbn [fold_right map snd].
      - change (zsum []) with 0. field. auto.
      - rewrite IH, zsum_cons, inject_Z_plus. field. auto. }
    rewrite X, T. field. auto.
  Qed.

  Lemma totals_multiply : forall op a b d, obtainable R a -> obtainable R b -> d_binop R op a b = Ok d ->
    (no_shared_variable R a b -> total_ways R d = total_ways R a * total_ways R b) /\ total_ways R d <= total_ways R a * total_ways R b.
  Proof.
    intros op a b d Oa Ob E. apply obtainable_dinv in Oa. apply obtainable_dinv in Ob. split; [intros N; now apply (total_binop R op) | now apply (total_binop_le R op)].
  Qed.

  Lemma op_value_apply : forall op x y v, op_value op x y = Some v <-> vop_apply op x y = Ok v.
  Proof.
    intros op x y v. destruct op; cbn [op_value vop_apply]; unfold value_to_binary_value, binary_to_int; try (split; congruence).
    destruct (y =? 0); split; congruence.
  Qed.

  Lemma independent : forall op a b d, obtainable R a -> obtainable R b -> no_shared_variable R a b -> d_binop R op a b = Ok d ->
    combined_independently R op a b d.
  Proof.
    intros op a b d Oa Ob N E v. apply obtainable_dinv in Oa. apply obtainable_dinv in Ob. split.
    - rewrite (listed_binop_gen R op a b d Oa Ob E). split.
      + intros [x [y [Hx [Hy [Hv _]]]]]. exists (o_value x), (o_value y). rewrite !listed_values. split; [eauto|]. split; [eauto|]. now apply op_value_apply.
      + intros [x [y [Hx [Hy Hv]]]]. apply listed_values in Hx. apply listed_values in Hy. destruct Hx as [ox [Hx <-]]. destruct Hy as [oy [Hy <-]].
        exists ox, oy. split; auto. split; auto. split; [now apply op_value_apply|]. now apply (no_shared_compat R a b).
    - change (reported R d v) with (zget (get_result_map R d) v). rewrite result_map_get, esum_wsum.
      rewrite (vsum_disjoint R op a b d (fun x => if x =? v then 1 else 0) Oa Ob N E).
      set (f := fun x y => match op_value op x y with Some r => if r =? v then 1 else 0 | None => 0 end).
      transitivity (esum R (fun x => zsum (map (fun yc => snd yc * f (o_value x) (fst yc)) (get_result_map R b))) (d_map a)).
      + apply esum_ext. intros x _. rewrite (result_map_sum R (fun y => f (o_value x) y) b). apply esum_ext. intros y _. unfold f, fopt.
        destruct (vop_apply op (o_value x) (o_value y)) as [r|z] eqn:Ev.
        * apply op_value_apply in Ev. now rewrite Ev.
        * destruct (op_value op (o_value x) (o_value y)) as [r|] eqn:Ev'; auto. apply op_value_apply in Ev'. congruence.
      + rewrite <- (result_map_sum R (fun x => zsum (map (fun yc => snd yc * f x (fst yc)) (get_result_map R b))) a).
        apply zsum_map_ext_in. intros [x c] _. cbn [fst snd]. rewrite <- zsum_map_mul_l. apply zsum_map_ext_in. intros [y c'] _. cbn [fst snd].
        unfold f. destruct (op_value op x y) as [r|]; [destruct (r =? v)|]; lia.
  Qed.

  Lemma raises_division : forall op a b x, obtainable R a -> obtainable R b ->
    (d_binop R op a b = Raise x <-> op = VDiv /\ x = ZeroDivisionError /\ (exists v, listed R a v) /\ listed R b 0).
  Proof.
    intros op a b x Oa Ob. apply obtainable_dinv in Oa. apply obtainable_dinv in Ob. split.
    - intros E. destruct (d_binop_cases R op a b Oa) as [[d E']|[E' [H1 [H2 H3]]]]; [congruence|]. rewrite E' in E. injection E as <-.
      split; auto. split; auto. split; auto. destruct (d_map a) as [|[o c] m] eqn:Em; [congruence|]. exists (o_value o).
      apply listed_values. exists o. rewrite Em. split; auto. now left.
    - intros [-> [-> [[v Hv] H0]]]. destruct (d_binop_cases R VDiv a b Oa) as [[d E]|[E _]]; auto. exfalso.
      apply d_binop_inv in E. destruct E as [Hok _]. apply listed_values in Hv. apply listed_values in H0. destruct Hv as [oa [Ha _]]. destruct H0 as [ob [Hb E0]].
      destruct (Hok oa ob Ha Hb) as [o Eo]. apply o_combine_inv in Eo. destruct Eo as [Ev _]. rewrite E0 in Ev. discriminate.
  Qed.

  (** the variables of a program that a new interpreter has run *)
  Lemma times_set_stdout : forall so d s n, times_of R (after_line R so d s) n = times_of R s n.
  Proof. intros [] d s n; reflexivity. Qed.

  Lemma line_times : forall l s s1 d n, sinv R s -> simple (snd l) -> (forall m, fst l = Some m -> var_name m) ->
    dist_of R (line_expr l) s = (s1, Ok d) -> times_of R s1 n <> times_of R s n -> fst l = Some n.
  Proof.
    intros [[m|] e] s s1 d n I S V E T; cbn [fst snd line_expr] in *.
    - cbn [dist_of] in E. unfold bind in E. pose proof (simple_state e S s) as X.
      destruct (dist_of_kept R e (simple_well_formed e S) s I) as [_ [_ K]].
      destruct (dist_of R e s) as [s2 [de|x]]; [|discriminate]. cbn [fst snd] in *. subst s2.
      destruct (V m eq_refl) as [Vm _]. destruct (set_var_spec R s m de I K Vm) as [d' [E' _]]. rewrite E' in E. cbn [ret] in E. unfold ret in E. injection E as <- _.
      destruct (text_eq_dec m n) as [->|N]; auto. exfalso. apply T. change (times_of R (bumped R s m) n = times_of R s n). now apply times_bumped_other; auto.
    - pose proof (simple_state e S s) as X. rewrite E in X. cbn in X. subst s1. congruence.
  Qed.

  Lemma run_times : forall so p s s' d n, sinv R s -> (forall l, In l p -> simple (snd l) /\ forall m, fst l = Some m -> var_name m) ->
    run R so p s = (s', Ok d) -> times_of R s' n <> times_of R s n -> In (Some n) (map fst p).
  Proof.
    induction p as [|l p IH]; intros s s' d n I G E T; [discriminate|].
    assert (Gl := G l (or_introl eq_refl)).
    assert (K : forall s1 d1, dist_of R (line_expr l) s = (s1, Ok d1) -> sinv R (after_line R so d1 s1)).
    { intros s1 d1 E1. assert (W : well_formed (line_expr l)).
      { destruct l as [[m|] e]; cbn [line_expr fst snd well_formed] in *; destruct Gl as [S V]; [split; [now apply (V m)|]|]; now apply simple_well_formed. }
      destruct (dist_of_kept R _ W s I) as [K1 [_ K3]]. rewrite E1 in *. cbn [fst snd] in *. destruct so; auto. now apply sinv_stdout_var. }
    assert (step : forall s1 d1, dist_of R (line_expr l) s = (s1, Ok d1) -> times_of R (after_line R so d1 s1) n = times_of R s n \/ fst l = Some n).
    { intros s1 d1 E1. destruct (Z.eq_dec (times_of R s1 n) (times_of R s n)) as [|Hne]; [left; now rewrite times_set_stdout|].
      right. now apply (line_times l s s1 d1 n I (proj1 Gl) (proj2 Gl)). }
    cbn [run] in E. destruct p as [|l' p]; unfold bind in E; destruct (dist_of R (line_expr l) s) as [s1 [d1|x]]; try discriminate.
    - injection E as <- <-. destruct (step s1 d1 eq_refl) as [H|H]; [congruence|]. left. auto.
    - destruct (step s1 d1 eq_refl) as [H|H]; [|left; auto]. right. apply (IH _ s' d n (K s1 d1 eq_refl)); auto.
      + intros k Hk. apply G. now right.
      + now rewrite H.
  Qed.

  Lemma program_mentions : forall lines p d n, program_text lines p -> good_program p -> reports R (empty_state R) lines d -> mentions R d n ->
    exists m k, In (Some m) (map fst p) /\ n = instance_name m k.
  Proof.
    intros lines p d n HT G H M. destruct (program_run (empty_state R) lines p d (af_now R _) HT G H) as [s' [E I]].
    assert (W : dwf R s' d).
    { destruct (run_good R true p _ I G) as [s2 [r [E2 X]]]. rewrite E in E2. injection E2 as <- <-. apply X. }
    destruct (mentions_issued s' d n W M) as [m [k [-> [_ Hk]]]]. exists m, k. split; auto.
    apply (run_times true p _ s' d m I); auto.
    - intros [o e] Hl. destruct G as [_ [_ G]]. destruct (G o e Hl) as [S V]. split; auto. intros m' E'. cbn in E'. subst o. exact V.
    - change (times_of R (empty_state R) m) with 0. lia.
  Qed.

  Lemma different_variables : forall lines1 p1 d1 lines2 p2 d2, program_text lines1 p1 -> good_program p1 -> program_text lines2 p2 -> good_program p2 ->
    reports R (empty_state R) lines1 d1 -> reports R (empty_state R) lines2 d2 ->
    (forall n, In (Some n) (map fst p1) -> ~ In (Some n) (map fst p2)) ->
    no_shared_variable R d1 d2 /\ forall op d, d_binop R op d1 d2 = Ok d -> combined_independently R op d1 d2 d.
  Proof.
    intros lines1 p1 d1 lines2 p2 d2 T1 G1 T2 G2 H1 H2 N.
    assert (X : no_shared_variable R d1 d2).
    { intros n M1 M2. destruct (program_mentions lines1 p1 d1 n T1 G1 H1 M1) as [m1 [k1 [I1 E1]]].
      destruct (program_mentions lines2 p2 d2 n T2 G2 H2 M2) as [m2 [k2 [I2 E2]]]. subst n. apply instance_name_inj in E2. destruct E2 as [<- _].
      exact (N m1 I1 I2). }
    assert (O : forall lines d, reports R (empty_state R) lines d -> obtainable R d).
    { intros lines d [s' [dict [E D]]]. apply (ob_returned R (empty_state R) lines s' dict stdout d (af_now R _) E). exact (dget_some_in text_eqb text_eqb_iff dict stdout d D). }
    split; auto. intros op d E. apply independent; eauto.
  Qed.

  Lemma unary_totals : forall a, obtainable R a -> total_ways R (d_not R a) = total_ways R a /\ total_ways R (d_abs R a) = total_ways R a.
  Proof. intros a Oa. apply obtainable_dinv in Oa. split; now apply total_unop. Qed.

  Lemma means : forall a b, obtainable R a -> obtainable R b -> no_shared_variable R a b -> d_count a <> 0 -> d_count b <> 0 ->
    (exists d, d_binop R VAdd a b = Ok d /\ (mean R d == mean R a + mean R b)%Q) /\
    (exists d, d_binop R VSub a b = Ok d /\ (mean R d == mean R a - mean R b)%Q) /\
    (exists d, d_binop R VMul a b = Ok d /\ (mean R d == mean R a * mean R b)%Q).
  Proof.
    intros a b Oa Ob N Na Nb. apply obtainable_dinv in Oa. apply obtainable_dinv in Ob.
    apply mean_linear; auto; rewrite total_count; auto.
  Qed.

  Lemma variable_free_shares_nothing : forall s t e d x, reachable R s -> parse t = Ok e -> simple e -> reads e = [] -> reports R s [t] d ->
    no_shared_variable R d x /\ no_shared_variable R x d.
  Proof.
    intros s t e d x Hs Ht S E [s' [dict [H G]]]. rewrite (one_line s t e Ht) in H.
    destruct (dist_of R e s) as [s1 [d1|y]] eqn:Ed; [|discriminate]. injection H as H1 H2. subst dict. cbn [set_stdout_var st_var] in G.
    rewrite (dget_dset_same text_eqb text_eqb_iff) in G. injection G as ->.
    split; intros n H1'; [|intros H2]; exact (False_ind _ (stateless_nameless e s s1 d S E Ed n ltac:(assumption))).
  Qed.

  (** ** Algebra *)
  Lemma swap_same : forall op a b, obtainable R a -> obtainable R b -> commutative op ->
    exists d d', d_binop R op a b = Ok d /\ d_binop R op b a = Ok d' /\ same_results R d d'.
  Proof.
    intros op a b Oa Ob C. apply obtainable_dinv in Oa. apply obtainable_dinv in Ob. destruct (commutative_swaps op C) as [N X].
    destruct (binop_not_div R op a b Oa N) as [d E]. destruct (binop_not_div R op b a Ob N) as [d' E']. exists d, d'. split; auto. split; auto.
    now apply (same_swap R op op a b).
  Qed.

  Lemma mirror_same : forall a b, obtainable R a -> obtainable R b ->
    (exists d d', d_binop R VLt a b = Ok d /\ d_binop R VGt b a = Ok d' /\ same_results R d d') /\
    (exists d d', d_binop R VLe a b = Ok d /\ d_binop R VGe b a = Ok d' /\ same_results R d d').
  Proof.
    intros a b Oa Ob. apply obtainable_dinv in Oa. apply obtainable_dinv in Ob. split.
    - destruct (binop_not_div R VLt a b Oa) as [d E]; [discriminate|]. destruct (binop_not_div R VGt b a Ob) as [d' E']; [discriminate|].
      exists d, d'. split; auto. split; auto. apply (same_swap R VLt VGt a b); auto.
    - destruct (binop_not_div R VLe a b Oa) as [d E]; [discriminate|]. destruct (binop_not_div R VGe b a Ob) as [d' E']; [discriminate|].
      exists d, d'. split; auto. split; auto. apply (same_swap R VLe VGe a b); auto.
  Qed.

  Lemma brackets_same : forall op a b c, obtainable R a -> obtainable R b -> obtainable R c -> associative op ->
    exists ab bc l r, d_binop R op a b = Ok ab /\ d_binop R op b c = Ok bc /\ d_binop R op ab c = Ok l /\ d_binop R op a bc = Ok r /\ same_results R l r.
  Proof.
    intros op a b c Oa Ob Oc A. apply obtainable_dinv in Oa. apply obtainable_dinv in Ob. apply obtainable_dinv in Oc.
    destruct (assoc_value op A) as [N _]. destruct (binop_not_div R op a b Oa N) as [ab Eab]. destruct (binop_not_div R op b c Ob N) as [bc Ebc].
    destruct (binop_not_div R op ab c (d_binop_inv_preserved R op a b ab Oa Ob Eab) N) as [l El]. destruct (binop_not_div R op a bc Oa N) as [r Er].
    exists ab, bc, l, r. split; auto. split; auto. split; auto. split; auto. now apply (same_assoc R op a b c ab bc).
  Qed.

  Lemma neutral_same : forall a, obtainable R a ->
    (exists z d, mk_dist_ints R [(0, 1)] = Ok z /\ d_binop R VAdd a z = Ok d /\ same_results R d a) /\
    (exists z d, mk_dist_ints R [(0, 1)] = Ok z /\ d_binop R VSub a z = Ok d /\ same_results R d a) /\
    (exists z d, mk_dist_ints R [(1, 1)] = Ok z /\ d_binop R VMul a z = Ok d /\ same_results R d a) /\
    (exists z d, mk_dist_ints R [(1, 1)] = Ok z /\ d_binop R VDiv a z = Ok d /\ same_results R d a).
  Proof.
    intros a Oa. apply obtainable_dinv in Oa.
    split; [|split; [|split]]; apply neutral; auto; intros x; cbn [vop_apply]; f_equal; try lia.
    cbn. now rewrite Z.div_1_r.
  Qed.

  Lemma unary_same : forall a, obtainable R a ->
    same_results R (d_abs R (d_abs R a)) (d_abs R a) /\
    same_results R (d_not R (d_not R (d_not R a))) (d_not R a) /\
    same_results R (d_abs R (d_not R a)) (d_not R a).
  Proof.
    intros a Oa. apply obtainable_dinv in Oa. split; [|split].
    - apply unop_same; auto. intros x. lia.
    - apply unop_three; auto. intros x. unfold vnot. destruct (value_to_binary_value x); reflexivity.
    - apply unop_same; auto. intros x. unfold vnot. destruct (value_to_binary_value x); reflexivity.
  Qed.

  (** ** Assignments inside expressions, when rolling *)
  Lemma wbind_in : forall A B (m : W R A) (f : A -> W R B) s w r, In (w, r) (wbind R m f s) ->
    (exists s' x, In (w, (s', Raise x)) (m s) /\ r = (s', Raise x)) \/
    (exists w1 s1 a w2, In (w1, (s1, Ok a)) (m s) /\ In (w2, r) (f a s1) /\ w = w1 * w2).
  Proof.
    intros A B m f s w r H. unfold wbind in H. apply in_flat_map in H. destruct H as [[w1 [s1 [a|x]]] [H1 H2]].
    - apply in_map_iff in H2. destruct H2 as [[w2 r2] [E H2]]. cbn in E. injection E as <- <-. right. exists w1, s1, a, w2. auto.
    - destruct H2 as [E|[]]. injection E as <- <-. left. exists s1, x. auto.
  Qed.

  Lemma assign_roll : forall n e s w s' x, In (w, (s', Ok x)) (roll_of R (EAssign n e) s) -> get_constant R n s' = Ok x.
  Proof.
    intros n e s w s' x H. cbn [roll_of] in H. apply wbind_in in H. destruct H as [[s1 [y [_ H]]]|[w1 [s1 [a [w2 [H1 [H2 _]]]]]]]; [discriminate|].
    destruct H2 as [H2|[]]. injection H2 as _ <- <-. unfold get_constant, set_constant. cbn. now rewrite (dget_dset_same text_eqb text_eqb_iff).
  Qed.

  Lemma assign_then_read : forall t n e s run v, parse t = Ok (ESub (EParen (EAssign n e)) (EVar n)) ->
    In run (map snd (roll R [t] s)) -> stdout_of R run = Some v -> v = 0.
  Proof.
    intros t n e s run v Ht H Hv. apply in_map_iff in H. destruct H as [[w [s' r]] [<- H]]. cbn [snd] in Hv. unfold roll in H. cbn [roll_from] in H.
    apply wbind_in in H. destruct H as [[s1 [x [_ H]]]|[w1 [s1 [a [w2 [H1 [H2 _]]]]]]]; [injection H as -> ->; discriminate|].
    destruct H2 as [H2|[]]. injection H2 as _ <- <-. unfold roll_line in H1.
    apply wbind_in in H1. destruct H1 as [[s2 [x [_ H1]]]|[w3 [s2 [e' [w4 [H1 [H2 _]]]]]]]; [discriminate|].
    destruct H1 as [H1|[]]. rewrite Ht in H1. injection H1 as _ <- <-.
    apply wbind_in in H2. destruct H2 as [[s3 [x [_ H2]]]|[w5 [s3 [y [w6 [H1 [H2 _]]]]]]]; [discriminate|].
    destruct H2 as [H2|[]]. injection H2 as _ <- <-. cbn [stdout_of read_dict set_stdout_const st_const] in Hv.
    rewrite (dget_dset_same text_eqb text_eqb_iff) in Hv. injection Hv as <-. cbn [roll_of] in H1. unfold wbinop in H1.
    apply wbind_in in H1. destruct H1 as [[s4 [x [_ H1]]]|[w7 [s4 [x [w8 [H1 [H2 _]]]]]]]; [discriminate|].
    apply assign_roll in H1. apply wbind_in in H2. destruct H2 as [[s5 [z [_ H2]]]|[w9 [s5 [z [w10 [H2 [H3 _]]]]]]]; [discriminate|].
    destruct H2 as [H2|[]]. injection H2 as _ <- H2. rewrite H1 in H2. injection H2 as <-. destruct H3 as [H3|[]]. injection H3 as _ _ <-. lia.
  Qed.
End Program.
