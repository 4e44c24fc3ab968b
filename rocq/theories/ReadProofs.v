(** * ReadProofs: reading variables that are set, and that are not *)
From Verif Require Import Py PyFacts PyFloat FloatFacts Constraint Distribution DiceModel Expr Parser Interp SpecDice SpecProgram SpecInterp ConstraintFacts
  DistFacts DiceFacts DropKeepFacts SpecNotation NotationFacts DiceProofs TagFacts ExprFacts StateFacts WfFacts InterpRun SpecRoll RollFacts SpecCalls CallFacts CallProofs.

Section Proofs.
  Context (R : Runtime).
  Notation state := (state R).

  (** ** What is set stays set *)
  Lemma set_constant_mono : forall n m v s, constant R (set_constant R m v s) n = None -> constant R s n = None.
  Proof.
    intros n m v s. destruct (text_eqb n m) eqn:E.
    - apply text_eqb_iff in E. subst. rewrite const_same. discriminate.
    - rewrite const_other; auto. intros ->. rewrite (proj2 (text_eqb_iff m m) eq_refl) in E. discriminate.
  Qed.
  Lemma stdout_constant_mono : forall n v s, constant R (set_stdout_const R v s) n = None -> constant R s n = None.
  Proof.
    intros n v s. destruct (text_eqb n stdout) eqn:E.
    - apply text_eqb_iff in E. subst. rewrite stdout_const_same. discriminate.
    - rewrite stdout_const_other; auto. intros ->. rewrite (proj2 (text_eqb_iff stdout stdout) eq_refl) in E. discriminate.
  Qed.
  Lemma dset_mono : forall A (l : list (text * A)) m x n, dget text_eqb (dset text_eqb l m x) n = None -> dget text_eqb l n = None.
  Proof.
    intros A l m x n. destruct (text_eqb n m) eqn:E.
    - apply text_eqb_iff in E. subst. rewrite dget_dset_same; [discriminate|apply text_eqb_iff].
    - rewrite dget_dset_other; auto using text_eqb_iff. intros ->. rewrite (proj2 (text_eqb_iff m m) eq_refl) in E. discriminate.
  Qed.
  Lemma set_var_mono : forall n m d s, variable R (fst (set_var R m d s)) n = None -> variable R s n = None.
  Proof. intros n m d s. unfold set_var, variable. destruct (tag_dist _ _ _); cbn [fst st_var]; auto. apply dset_mono. Qed.

  Definition unsets (n : text) (s s' : state) : Prop := (constant R s' n = None -> constant R s n = None) /\ (variable R s' n = None -> variable R s n = None).
  Lemma unsets_refl : forall n s, unsets n s s.
  Proof. split; auto. Qed.
  Lemma unsets_trans : forall n a b c, unsets n a b -> unsets n b c -> unsets n a c.
  Proof. intros n a b c [] []. split; auto. Qed.
  Lemma unsets_const : forall n m v s, True -> unsets n s (set_constant R m v s).
  Proof. split; [apply set_constant_mono|auto]. Qed.
  Lemma unsets_var : forall n m d s, True -> unsets n s (fst (set_var R m d s)).
  Proof. split; [unfold constant; now rewrite set_var_const|apply set_var_mono]. Qed.
  Lemma unsets_stdout_const : forall n, True -> forall v s, unsets n s (set_stdout_const R v s).
  Proof. split; [apply stdout_constant_mono|auto]. Qed.
  Lemma unsets_stdout_var : forall n, True -> forall d s, unsets n s (set_stdout_var R d s).
  Proof. split; [auto|]. unfold variable, set_stdout_var. cbn [st_var]. apply dset_mono. Qed.

  Lemma does_unsets : forall c s s' n, does R c s s' -> unsets n s s'.
  Proof.
    intros c s s' n D. apply (does_rel R (unsets n) (unsets_refl n) (unsets_trans n) (fun _ => True) (fun _ => True) (unsets_const n) (unsets_var n)
      True (unsets_stdout_const n) True (unsets_stdout_var n) c s s' D); auto.
  Qed.
  Lemma stays_set : forall c s s' n, does R c s s' -> (constant R s n <> None -> constant R s' n <> None) /\ (variable R s n <> None -> variable R s' n <> None).
  Proof. intros c s s' n D. destruct (does_unsets c s s' n D) as [A B]. split; intros H E; auto. Qed.

  Lemma dist_of_unsets : forall e n s, unsets n s (fst (dist_of R e s)).
  Proof. intros e n s. apply (dist_of_rel R (unsets n) (unsets_refl n) (unsets_trans n) (fun _ => True) (unsets_var n)). intros ? ?; auto. Qed.
  Lemma ext_of_unsets : forall mx e n s, unsets n s (fst (ext_of R mx e s)).
  Proof. intros mx e n s. apply (ext_of_rel R (unsets n) (unsets_refl n) (unsets_trans n) (fun _ => True) (fun _ => True) (unsets_const n) (unsets_var n)); intros ? ?; auto. Qed.
  Lemma cost_of_unsets : forall e n s, unsets n s (fst (cost_of R e s)).
  Proof. intros e n s. apply (cost_of_rel R (unsets n) (unsets_refl n) (unsets_trans n) (fun _ => True) (unsets_const n)). intros ? ?; auto. Qed.
  Lemma roll_of_unsets : forall e n s w s' r, In (w, (s', r)) (roll_of R e s) -> unsets n s s'.
  Proof. intros e n s w s' r. apply (roll_of_rel R (unsets n) (unsets_refl n) (unsets_trans n) (fun _ => True) (unsets_const n)). intros ? ?; auto. Qed.

  (** ** Which exceptions there are *)
  Definition raising {A} (Q : exn -> Prop) (r : state * res A) : Prop := forall x, snd r = Raise x -> Q x.
  Lemma raising_bind : forall A B (Q : exn -> Prop) (m : M R A) (f : A -> M R B) s, raising Q (m s) ->
    (forall a s', m s = (s', Ok a) -> raising Q (f a s')) -> raising Q (bind R m f s).
  Proof.
    intros A B Q m f s H F. unfold bind. destruct (m s) as [s1 [a|x]] eqn:E; [now apply F|]. intros y Hy. apply H. cbn in *. congruence.
  Qed.
  Lemma raising_less : forall A (Q Q' : exn -> Prop) (r : state * res A), raising Q r -> (forall x, Q x -> Q' x) -> raising Q' r.
  Proof. unfold raising. eauto. Qed.
  Lemma raising_ok : forall A (Q : exn -> Prop) s (a : A), raising Q (s, Ok a).
  Proof. intros A Q s a x H. discriminate. Qed.

  Definition dist_exn (s : state) (e : expr) (x : exn) : Prop :=
    (x = KeyError /\ exists n, In n (reads e) /\ variable R s n = None) \/ (x = ZeroDivisionError /\ divides e).

  Lemma kept_state : forall e s s' d, well_formed e -> sinv R s -> dist_of R e s = (s', Ok d) -> sinv R s' /\ dwf R s' d.
  Proof. intros e s s' d W I E. pose proof (dist_of_kept R e W s I) as K. rewrite E in K. destruct K as [K1 [_ K2]]. auto. Qed.

  Lemma binop_raises : forall op a b e s, well_formed a -> well_formed b -> sinv R s ->
    (forall s, sinv R s -> raising (dist_exn s a) (dist_of R a s)) -> (forall s, sinv R s -> raising (dist_exn s b) (dist_of R b s)) ->
    reads e = reads a ++ reads b -> (divides a \/ divides b \/ op = VDiv -> divides e) ->
    raising (dist_exn s e) (binop_m R op (dist_of R a) (dist_of R b) s).
  Proof.
    intros op a b e s Wa Wb I Ha Hb Er Ed.
    assert (K : forall n c, In n (reads c) -> (c = a \/ c = b) -> In n (reads e)) by (intros n c Hn [-> | ->]; rewrite Er; apply in_or_app; auto).
    apply raising_bind.
    - apply raising_less with (1 := Ha s I). intros x [[-> [n [Hn Hv]]]|[-> Hd]]; [left; split; eauto|right; auto].
    - intros da s1 E1. destruct (kept_state a s s1 da Wa I E1) as [I1 D1].
      assert (U1 : forall n, variable R s1 n = None -> variable R s n = None) by (intros n; pose proof (dist_of_unsets a n s) as U; rewrite E1 in U; apply U).
      apply raising_bind.
      + apply raising_less with (1 := Hb s1 I1). intros x [[-> [n [Hn Hv]]]|[-> Hd]]; [left; split; eauto 6|right; auto].
      + intros db s2 E2 x Hx. cbn [lift snd] in Hx. destruct (d_binop_cases R op da db (proj1 D1)) as [[d E]|[E [Eop _]]]; rewrite E in Hx; [discriminate|].
        inversion Hx. right. auto.
  Qed.

  Lemma dist_of_raises : forall e, well_formed e -> forall s, sinv R s -> raising (dist_exn s e) (dist_of R e s).
  Proof.
    induction e; intros W s I; cbn [well_formed] in W;
      try (cbn [dist_of]; apply binop_raises; try tauto; cbn [divides]; intuition congruence).
    - cbn [dist_of]. apply IHe; auto.
    - cbn [dist_of]. apply raising_bind; [apply IHe; auto|]. intros. apply raising_ok.
    - destruct W as [[form Mk] [N K]]. destruct (pool_plain R form d Mk N K) as [dd H]. destruct (H s) as [E _]. rewrite E. apply raising_ok.
    - destruct W as [[form Mk] N]. destruct (dice_dist_spec R d) as [dd [E [D [P _]]]]; [eapply dice_natural; eauto|].
      cbn [dist_of]. unfold lift. rewrite E. apply raising_ok.
    - destruct W as [z E]. destruct (mk_dist_ints_plain R [(z, 1)]) as [d [Ed [D [P _]]]]; [intros v c [X|[]]; inversion X; lia|].
      cbn [dist_of]. unfold lift. rewrite E. cbn [rbind]. rewrite Ed. apply raising_ok.
    - destruct (mk_dist_ints_plain R [(bool_value binary_string, 1)]) as [d [Ed [D [P _]]]]; [intros v c [X|[]]; inversion X; lia|].
      cbn [dist_of]. unfold lift. rewrite Ed. apply raising_ok.
    - destruct W as [W0 [W1 W2]]. destruct (meaning_dist_operator operator W0) as [v Ev]. cbn [dist_of]. rewrite Ev.
      apply binop_raises; try tauto; auto. cbn [divides]. intros [H|[H|H]]; auto. exfalso. clear - Ev H. subst v. unfold dist_operator in Ev.
      repeat match type of Ev with context [if ?c then _ else _] => destruct c end; discriminate.
    - cbn [dist_of]. apply binop_raises; try tauto. cbn [divides]. intros [H|[H|H]]; auto. destruct (text_eqb min_max $"MAX"); discriminate.
    - cbn [dist_of]. apply raising_bind; [apply IHe; auto|]. intros. apply raising_ok.
    - destruct W as [Nc W]. cbn [dist_of]. apply raising_bind; [apply IHe; auto|]. intros d s1 E1. destruct (kept_state e s s1 d W I E1) as [I1 D1].
      destruct (set_var_spec R s1 name d I1 D1 Nc) as [d' [E2 _]]. unfold bind. rewrite E2. apply raising_ok.
    - cbn [dist_of]. intros x H. cbn [snd] in H. unfold get_var in H. fold (variable R s name) in H. destruct (variable R s name) eqn:E; [discriminate|].
      inversion H. left. split; auto. exists name. split; auto. now left.
  Qed.

  (** ** Reading what is not set *)
  Definition failing {A} (r : state * res A) : Prop := exists x, snd r = Raise x.
  Lemma failing_bind : forall A B (m : M R A) (f : A -> M R B) s, (forall a s', m s = (s', Ok a) -> failing (f a s')) -> failing (bind R m f s).
  Proof. intros A B m f s F. unfold bind. destruct (m s) as [s1 [a|x]] eqn:E; [now apply F|]. exists x. reflexivity. Qed.
  Lemma failing_bind_left : forall A B (m : M R A) (f : A -> M R B) s, failing (m s) -> failing (bind R m f s).
  Proof. intros A B m f s [x F]. unfold bind. destruct (m s) as [s1 [a|y]] eqn:E; [discriminate|]. exists y. reflexivity. Qed.

  Lemma var_unset_kept : forall e n s s' r, dist_of R e s = (s', r) -> ~ In n (assigned e) -> variable R s n = None -> variable R s' n = None.
  Proof.
    intros e n s s' r E A H. assert (G : variable R (fst (dist_of R e s)) n = variable R s n).
    { apply (dist_of_rel R (fun s s' => variable R s' n = variable R s n) ltac:(reflexivity) ltac:(congruence) (fun m => m <> n)).
      - intros m d s0 Hm. apply set_var_other. congruence.
      - intros m Hm ->. tauto. }
    rewrite E in G. cbn [fst] in G. congruence.
  Qed.

  Ltac noin A := let H := fresh in intros H; apply A; cbn [assigned]; try apply in_or_app; cbn [In]; auto.
  Ltac unset_binop A I IHa IHb :=
    apply in_app_or in I; destruct I as [I|I];
    [ apply failing_bind_left; eapply IHa; eauto; noin A
    | apply failing_bind; intros ? ? ?; apply failing_bind_left; eapply IHb; eauto; [noin A|]; eapply var_unset_kept; eauto; noin A ].

  Lemma dist_of_unset : forall e n, In n (reads e) -> ~ In n (assigned e) -> forall s, variable R s n = None -> failing (dist_of R e s).
  Proof.
    induction e; intros n I A s H; cbn [reads] in I; try contradiction; cbn [dist_of]; try (unset_binop A I IHe1 IHe2; fail).
    - eapply IHe; eauto.
    - apply failing_bind_left. eapply IHe; eauto.
    - destruct (dist_operator operator); [|eexists; reflexivity]. unset_binop A I IHe1 IHe2.
    - apply failing_bind_left. eapply IHe; eauto.
    - apply failing_bind_left. eapply IHe; eauto. noin A.
    - destruct I as [<-|[]]. exists KeyError. cbn [snd]. unfold get_var. fold (variable R s name). now rewrite H.
  Qed.

  (** ** max and min *)
  Definition ext_exn (s : state) (e : expr) (x : exn) : Prop :=
    (x = KeyError /\ exists n, In n (reads e) /\ (constant R s n = None \/ variable R s n = None)) \/ (x = ZeroDivisionError /\ divides e) \/ x = ValueError.

  Lemma pyext_raise : forall mx l x, (if mx : bool then pymax l else pymin l) = Raise x -> x = ValueError.
  Proof. intros mx l x H. destruct mx, l; try discriminate; cbn in H; congruence. Qed.
  Lemma rmap_ext_raise : forall mx l (f : Z -> Z) x, rmap f (if mx : bool then pymax l else pymin l) = Raise x -> x = ValueError.
  Proof. intros mx l f x H. apply rmap_raise in H. eapply pyext_raise; eauto. Qed.

  Lemma ext_via_raises : forall mx e, well_formed e -> forall s, sinv R s -> raising (ext_exn s e) (ext_via_dist R mx e s).
  Proof.
    intros mx e W s I. apply raising_bind.
    - apply raising_less with (1 := dist_of_raises e W s I). intros x [[-> [n [Hn Hv]]]|H]; [left|right]; eauto 6.
    - intros d s1 E x H. cbn [lift snd] in H. right. right. unfold d_ext, d_max, d_min in H. now destruct mx; [apply (pyext_raise true) in H|apply (pyext_raise false) in H].
  Qed.

  Lemma ext_exn_later : forall s s' e, (forall n, unsets n s s') -> forall x, ext_exn s' e x -> ext_exn s e x.
  Proof.
    intros s s' e U x [[-> [n [Hn H]]]|H]; [left|right; auto]. split; auto. exists n. split; auto. destruct (U n). tauto.
  Qed.

  Lemma ext_of_raises : forall mx e, well_formed e -> forall s, sinv R s -> raising (ext_exn s e) (ext_of R mx e s).
  Proof.
    intros mx. induction e; intros W s I; try (apply ext_via_raises; assumption); cbn [well_formed] in W; cbn [ext_of].
    - apply IHe; auto.
    - intros x H. right. right. destruct (dk_simple d) as [[d0|k]|] eqn:E; cbn [lift snd] in H.
      + unfold dice_ext, dice_max, dice_min in H. destruct mx; [eapply (rmap_ext_raise true)|eapply (rmap_ext_raise false)]; exact H.
      + now apply int_raise in H.
      + unfold dk_ext_full, dk_max_full, dk_min_full in H. destruct mx; [eapply (rmap_ext_raise true)|eapply (rmap_ext_raise false)]; exact H.
    - intros x H. right. right. cbn [lift snd] in H. unfold dice_ext, dice_max, dice_min in H.
      destruct mx; [eapply (rmap_ext_raise true)|eapply (rmap_ext_raise false)]; exact H.
    - intros x H. right. right. now apply int_raise in H.
    - apply raising_ok.
    - apply raising_bind.
      + apply raising_less with (1 := dist_of_raises e2 (proj2 W) s I). intros x [[-> [n [Hn Hv]]]|[-> H]]; [left|right; left; cbn; auto].
        split; auto. exists n. split; auto. cbn [reads]. apply in_or_app. auto.
      + intros d s1 E. destruct (kept_state e2 s s1 d (proj2 W) I E) as [I1 _]. destruct (contains_zero R d).
        * intros x H. inversion H. right. left. cbn. auto.
        * apply raising_less with (1 := ext_via_raises mx (EDiv e1 e2) W s1 I1). apply ext_exn_later. intros n.
          pose proof (dist_of_unsets e2 n s) as U. now rewrite E in U.
    - destruct W as [W0 [W1 W2]]. assert (M : exists f, minmax_operator min_max = Some f).
      { unfold minmax_operator, minmax_meaning in *. destruct (text_eqb min_max $"MAX"); [eauto|]. destruct (text_eqb min_max $"MIN"); [eauto|congruence]. }
      destruct M as [f ->]. apply raising_bind.
      + apply raising_less with (1 := IHe1 W1 s I). intros x [[-> [n [Hn Hv]]]|[[-> H]|H]]; [left|right; left; cbn; auto|right; right; auto].
        split; auto. exists n. split; auto. cbn [reads]. apply in_or_app. auto.
      + intros a s1 E. pose proof (ext_of_kept R mx e1 W1 s I) as K. rewrite E in K. apply raising_bind; [|intros; apply raising_ok].
        apply raising_less with (1 := IHe2 W2 s1 (proj1 K)). intros x H. apply ext_exn_later with (s := s) in H.
        * destruct H as [[-> [n [Hn Hv]]]|[[-> H]|H]]; [left|right; left; cbn; auto|right; right; auto].
          split; auto. exists n. split; auto. cbn [reads]. apply in_or_app. auto.
        * intros n. pose proof (ext_of_unsets mx e1 n s) as U. now rewrite E in U.
    - destruct W as [Nc W]. apply raising_bind; [apply IHe; auto|]. intros v s1 E. pose proof (ext_of_kept R mx e W s I) as K. rewrite E in K.
      apply raising_bind; [apply raising_ok|]. intros u s2 E2. unfold set_const_m in E2; inversion E2; clear E2; subst s2. assert (I2 : sinv R (set_constant R name v s1)) by apply sinv_set_constant, K.
      apply raising_bind.
      + apply raising_less with (1 := dist_of_raises e W _ I2). intros x [[-> [n [Hn Hv]]]|H]; [left|right; auto]. split; auto. exists n. split; auto. right.
        pose proof (ext_of_unsets mx e n s) as U. rewrite E in U. apply U. exact Hv.
      + intros d s3 E3. destruct (kept_state e _ s3 d W I2 E3) as [I3 D3]. destruct (set_var_spec R s3 name d I3 D3 Nc) as [d' [E4 _]].
        unfold bind. rewrite E4. apply raising_ok.
    - intros x H. cbn [snd] in H. unfold get_constant in H. fold (constant R s name) in H. destruct (constant R s name) eqn:E; [discriminate|].
      inversion H. left. split; auto. exists name. split; auto. now left.
  Qed.

  Lemma const_unset_ext : forall mx e n s s' r, ext_of R mx e s = (s', r) -> ~ In n (assigned e) ->
    constant R s n = None -> variable R s n = None -> constant R s' n = None /\ variable R s' n = None.
  Proof.
    intros mx e n s s' r E A H1 H2. assert (G : constant R (fst (ext_of R mx e s)) n = constant R s n /\ variable R (fst (ext_of R mx e s)) n = variable R s n).
    { apply (ext_of_rel R (fun s s' => constant R s' n = constant R s n /\ variable R s' n = variable R s n) (fun s => conj eq_refl eq_refl)
               ltac:(intros ? ? ? [] []; split; congruence) (fun m => m <> n) (fun m => m <> n)
             ltac:(intros; split; [apply const_other; congruence|reflexivity])
             ltac:(intros; split; [unfold constant; now rewrite set_var_const|apply set_var_other; congruence])); intros m Hm ->; tauto. }
    rewrite E in G. cbn [fst] in G. destruct G. split; congruence.
  Qed.

  Lemma dist_keeps_const : forall e s, st_const (fst (dist_of R e s)) = st_const s.
  Proof.
    intros. apply (dist_of_rel R (fun s s' => st_const s' = st_const s) ltac:(reflexivity) ltac:(congruence) (fun _ => True)); [|intros ? ?; auto].
    intros. apply set_var_const.
  Qed.

  Lemma ext_of_unset : forall mx e n, In n (reads e) -> ~ In n (assigned e) -> forall s, constant R s n = None -> variable R s n = None -> failing (ext_of R mx e s).
  Proof.
    intros mx. assert (V : forall e n, In n (reads e) -> ~ In n (assigned e) -> forall s, variable R s n = None -> failing (ext_via_dist R mx e s)).
    { intros. apply failing_bind_left. eapply dist_of_unset; eauto. }
    induction e; intros n I A s H1 H2; try (eapply V; eassumption); cbn [reads] in I; try contradiction; cbn [ext_of].
    - eapply IHe; eauto.
    - apply failing_bind. intros d s1 E. destruct (contains_zero R d); [eexists; reflexivity|]. eapply V; eauto.
      eapply var_unset_kept; eauto. noin A.
    - destruct (minmax_operator min_max); [|eexists; reflexivity]. apply in_app_or in I. destruct I as [I|I].
      + apply failing_bind_left. eapply IHe1; eauto. noin A.
      + apply failing_bind. intros a s1 E. apply failing_bind_left. assert (G : ~ In n (assigned e1)) by noin A.
        destruct (const_unset_ext mx e1 n s s1 _ E G H1 H2). eapply IHe2; eauto. noin A.
    - apply failing_bind_left. eapply IHe; eauto. noin A.
    - destruct I as [<-|[]]. exists KeyError. cbn [snd]. unfold get_constant. fold (constant R s name). now rewrite H1.
  Qed.

  (** ** roll *)
  Definition roll_exn (s : state) (e : expr) (x : exn) : Prop :=
    (x = KeyError /\ exists n, In n (reads e) /\ constant R s n = None) \/ (x = ZeroDivisionError /\ divides e) \/
    ((x = IndexError \/ x = ValueError \/ x = OverflowError) /\ exists m, In m (dice_of e) /\ ~ can_choose m).
  Definition wraising {A} (Q : exn -> Prop) (l : list (Z * (state * res A))) : Prop := forall w s x, In (w, (s, Raise x)) l -> Q x.
  Definition wfailing {A} (l : list (Z * (state * res A))) : Prop := forall w s a, ~ In (w, (s, Ok a)) l.

  Lemma wbind_cases : forall A B (m : W R A) (f : A -> W R B) s w s' r, In (w, (s', r)) (wbind R m f s) ->
    (exists x, r = Raise x /\ In (w, (s', Raise x)) (m s)) \/ (exists w1 s1 a w2, In (w1, (s1, Ok a)) (m s) /\ In (w2, (s', r)) (f a s1)).
  Proof.
    intros A B m f s w s' r H. unfold wbind in H. apply in_flat_map in H. destruct H as [[w1 [s1 [a|x]]] [I J]].
    - apply in_map_iff in J. destruct J as [[w2 [s2 r2]] [E J]]. cbn [fst snd] in E. inversion E; subst. right. eauto 6.
    - destruct J as [J|[]]. inversion J; subst. left. eauto.
  Qed.
  Lemma wraising_bind : forall A B (Q : exn -> Prop) (m : W R A) (f : A -> W R B) s, wraising Q (m s) ->
    (forall w s1 a, In (w, (s1, Ok a)) (m s) -> wraising Q (f a s1)) -> wraising Q (wbind R m f s).
  Proof.
    intros A B Q m f s H F w s' x I. apply wbind_cases in I. destruct I as [[y [E I]]|[w1 [s1 [a [w2 [I J]]]]]].
    - inversion E; subst. eapply H; eauto.
    - eapply F; eauto.
  Qed.
  Lemma wraising_one : forall A (Q : exn -> Prop) w s (a : A), wraising Q [(w, (s, Ok a))].
  Proof. intros A Q w s a w' s' x [E|[]]. discriminate. Qed.
  Lemma wraising_exn : forall A (Q : exn -> Prop) w s x, Q x -> wraising Q [(w, (s, @Raise A x))].
  Proof. intros A Q w s x H w' s' y [E|[]]. inversion E; now subst. Qed.
  Lemma wraising_less : forall A (Q Q' : exn -> Prop) (l : list (Z * (state * res A))), wraising Q l -> (forall x, Q x -> Q' x) -> wraising Q' l.
  Proof. unfold wraising. eauto. Qed.

  Lemma choices_raising : forall m k (f : list Z -> Z) s, natural_counts m ->
    wraising (fun x => (x = IndexError \/ x = ValueError \/ x = OverflowError) /\ ~ can_choose m) (wrolls R (rolls_of f (choices m k)) s).
  Proof.
    intros m k f s N w s' x I. unfold wrolls in I. apply in_map_iff in I. destruct I as [[w1 r1] [E I]]. cbn [fst snd] in E. inversion E; subst. clear E.
    split.
    - unfold choices in I. destruct m as [|p m]; [destruct I as [I|[]]; inversion I; auto|].
      destruct (float_of_Z (zsum (map snd (p :: m)))) as [f0|y] eqn:F; cbn [rbind] in I.
      + destruct (zsum (map snd (p :: m)) <=? 0); [destruct I as [I|[]]; inversion I; auto|].
        cbn [rolls_of] in I. apply in_map_iff in I. destruct I as [t [E _]]. discriminate.
      + destruct (float_of_Z_spec (-1074) (zsum (map snd (p :: m))) ltac:(lia)) as [[f0 [E _]]|[E _]]; rewrite F in E; [discriminate|].
        destruct I as [I|[]]. inversion I; subst. inversion E. auto.
    - intros C. rewrite choices_ok in I by auto. cbn [rolls_of] in I. apply in_map_iff in I. destruct I as [t [E _]]. discriminate.
  Qed.

  Lemma wbinop_raises : forall f a b e, (forall s, wraising (roll_exn s a) (roll_of R a s)) -> (forall s, wraising (roll_exn s b) (roll_of R b s)) ->
    reads e = reads a ++ reads b -> dice_of e = dice_of a ++ dice_of b -> (divides a \/ divides b -> divides e) ->
    forall s, wraising (roll_exn s e) (wbinop R f (roll_of R a) (roll_of R b) s).
  Proof.
    intros f a b e Ha Hb Er Em Ed s. apply wraising_bind.
    - apply wraising_less with (1 := Ha s). intros x [[-> [n [Hn Hv]]]|[[-> H]|[Hx [m [H1 H2]]]]].
      + left. split; auto. exists n. rewrite Er. split; auto. apply in_or_app. auto.
      + right. left. auto.
      + right. right. split; auto. exists m. rewrite Em. split; auto. apply in_or_app. auto.
    - intros w s1 x I. apply wraising_bind; [|intros; apply wraising_one]. apply wraising_less with (1 := Hb s1).
      intros y [[-> [n [Hn Hv]]]|[[-> H]|[Hx [m [H1 H2]]]]].
      + left. split; auto. exists n. rewrite Er. split; [apply in_or_app; auto|]. now apply (roll_of_unsets a n s w s1 _ I).
      + right. left. auto.
      + right. right. split; auto. exists m. rewrite Em. split; auto. apply in_or_app. auto.
  Qed.

  Lemma roll_of_raises : forall e, well_formed e -> forall s, wraising (roll_exn s e) (roll_of R e s).
  Proof.
    induction e; intros W; cbn [well_formed] in W;
      try (apply wbinop_raises; [apply IHe1; tauto|apply IHe2; tauto|reflexivity|reflexivity|cbn [divides]; tauto]); intros s; cbn [roll_of].
    - apply IHe; auto.
    - apply wraising_bind; [apply IHe; auto|]. intros. apply wraising_one.
    - destruct W as [[form Hm] [Hn Hk]]. assert (N : natural_counts (dk_map d)) by apply (mk_dropkeep_inv form d Hm).
      assert (G : forall m, m = dk_map d -> forall x, (x = IndexError \/ x = ValueError \/ x = OverflowError) /\ ~ can_choose m -> roll_exn s (EDropKeep d) x).
      { intros m -> x [H1 H2]. right. right. split; auto. exists (dk_map d). split; auto. now left. }
      destruct (pool_cases form d Hm Hn Hk) as [[E P]|[[d0 [E [E1 [E2 P]]]]|[E [Fu P]]]]; rewrite E.
      + apply wraising_one.
      + eapply wraising_less; [apply choices_raising; rewrite E1; auto|apply G; auto].
      + eapply wraising_less; [apply choices_raising; auto|apply G; auto].
    - destruct W as [[form Hm] Hn]. eapply wraising_less; [apply choices_raising; eapply dice_natural; eauto|].
      intros x [H1 H2]. right. right. split; auto. exists (dice_map d). split; auto. now left.
    - destruct W as [z E]. rewrite E. apply wraising_one.
    - apply wraising_one.
    - apply wraising_bind.
      + apply wraising_less with (1 := IHe2 (proj2 W) s). intros x [[-> [n [Hn Hv]]]|[[-> H]|[Hx [m [H1 H2]]]]].
        * left. split; auto. exists n. split; auto. apply in_or_app. auto.
        * right. left. cbn. auto.
        * right. right. split; auto. exists m. split; auto. apply in_or_app. auto.
      + intros w s1 x I. destruct (x =? 0); [apply wraising_exn; right; left; cbn; auto|]. apply wraising_bind; [|intros; apply wraising_one].
        apply wraising_less with (1 := IHe1 (proj1 W) s1). intros y [[-> [n [Hn Hv]]]|[[-> H]|[Hx [m [H1 H2]]]]].
        * left. split; auto. exists n. split; [apply in_or_app; auto|]. now apply (roll_of_unsets e2 n s w s1 _ I).
        * right. left. cbn. auto.
        * right. right. split; auto. exists m. split; auto. apply in_or_app. auto.
    - destruct W as [W0 [W1 W2]]. destruct (roll_operator_meaning _ W0) as [f [g [Ef _]]]. rewrite Ef.
      apply wbinop_raises; auto.
    - destruct W as [W0 [W1 W2]]. assert (M : exists f, minmax_operator min_max = Some f).
      { unfold minmax_operator, minmax_meaning in *. destruct (text_eqb min_max $"MAX"); [eauto|]. destruct (text_eqb min_max $"MIN"); [eauto|congruence]. }
      destruct M as [f ->]. apply wbinop_raises; auto.
    - apply wraising_bind; [apply IHe; auto|]. intros. apply wraising_one.
    - apply wraising_bind; [apply IHe; tauto|]. intros. apply wraising_one.
    - unfold get_constant. fold (constant R s name). destruct (constant R s name) eqn:E; [apply wraising_one|]. apply wraising_exn.
      left. split; auto. exists name. split; auto. now left.
  Qed.

  Lemma const_unset_kept : forall e n s w s' r, In (w, (s', r)) (roll_of R e s) -> ~ In n (assigned e) -> constant R s n = None -> constant R s' n = None.
  Proof.
    intros e n s w s' r E A H. assert (G : constant R s' n = constant R s n).
    { eapply (roll_of_rel R (fun s s' => constant R s' n = constant R s n) ltac:(reflexivity) ltac:(congruence) (fun m => m <> n)).
      - intros m d s0 Hm. apply const_other. congruence.
      - intros m Hm ->. apply A; eassumption.
      - eassumption. }
    congruence.
  Qed.

  Lemma wfailing_bind : forall A B (m : W R A) (f : A -> W R B) s, (forall w s1 a, In (w, (s1, Ok a)) (m s) -> wfailing (f a s1)) -> wfailing (wbind R m f s).
  Proof.
    intros A B m f s F w s' b I. apply wbind_cases in I. destruct I as [[x [E _]]|[w1 [s1 [a [w2 [I J]]]]]]; [discriminate|]. eapply F; eauto.
  Qed.
  Lemma wfailing_left : forall A B (m : W R A) (f : A -> W R B) s, wfailing (m s) -> wfailing (wbind R m f s).
  Proof. intros A B m f s F. apply wfailing_bind. intros w s1 a I. destruct (F _ _ _ I). Qed.
  Lemma wfailing_exn : forall A w s x, wfailing [(w, (s, @Raise A x))].
  Proof. intros A w s x w' s' a [E|[]]. discriminate. Qed.

  Ltac wunset_binop A I IHa IHb :=
    apply in_app_or in I; destruct I as [I|I];
    [ apply wfailing_left; eapply IHa; eauto; noin A
    | apply wfailing_bind; intros ? ? ? ?; apply wfailing_left; eapply IHb; eauto; [noin A|]; eapply const_unset_kept; eauto; noin A ].

  Lemma roll_of_unset : forall e n, In n (reads e) -> ~ In n (assigned e) -> forall s, constant R s n = None -> wfailing (roll_of R e s).
  Proof.
    induction e; intros n I A s H; cbn [reads] in I; try contradiction; cbn [roll_of]; try (wunset_binop A I IHe1 IHe2; fail).
    - eapply IHe; eauto.
    - apply wfailing_left. eapply IHe; eauto.
    - apply in_app_or in I. destruct I as [I|I].
      + apply wfailing_bind. intros w s1 x J. destruct (x =? 0); [apply wfailing_exn|]. apply wfailing_left. eapply IHe1; eauto; [noin A|].
        eapply const_unset_kept; eauto. noin A.
      + apply wfailing_left. eapply IHe2; eauto. noin A.
    - destruct (int_operator operator); [|apply wfailing_exn]. wunset_binop A I IHe1 IHe2.
    - destruct (minmax_operator min_max); [|apply wfailing_exn]. wunset_binop A I IHe1 IHe2.
    - apply wfailing_left. eapply IHe; eauto.
    - apply wfailing_left. eapply IHe; eauto. noin A.
    - destruct I as [<-|[]]. unfold get_constant. fold (constant R s name). rewrite H. apply wfailing_exn.
  Qed.

  (** ** What a successful call has set *)
  Lemma dist_of_sets : forall e n, In n (assigned e) -> forall s s' d, dist_of R e s = (s', Ok d) -> variable R s' n <> None.
  Proof.
    assert (B : forall op a b n, (In n (assigned a) -> forall s s' d, dist_of R a s = (s', Ok d) -> variable R s' n <> None) ->
              (In n (assigned b) -> forall s s' d, dist_of R b s = (s', Ok d) -> variable R s' n <> None) -> In n (assigned a ++ assigned b) ->
              forall s s' d, binop_m R op (dist_of R a) (dist_of R b) s = (s', Ok d) -> variable R s' n <> None).
    { intros op a b n Ha Hb I s s' d E. unfold binop_m, bind, lift in E. destruct (dist_of R a s) as [s1 [da|x]] eqn:E1; [|discriminate].
      destruct (dist_of R b s1) as [s2 [db|x]] eqn:E2; [|discriminate]. inversion E; subst s2. apply in_app_or in I. destruct I as [I|I].
      - intros N. apply (Ha I s s1 da E1). pose proof (dist_of_unsets b n s1) as U. rewrite E2 in U. now apply U.
      - eapply Hb; eauto. }
    induction e; intros n I s s' r E; cbn [assigned] in I; try contradiction; cbn [dist_of] in E; try (eapply B; [apply IHe1|apply IHe2|exact I|exact E]).
    - eapply IHe; eauto.
    - unfold bind in E. destruct (dist_of R e s) as [s1 [d|x]] eqn:E1; inversion E; subst. eapply IHe; eauto.
    - destruct (dist_operator operator); [|discriminate]. eapply B; [apply IHe1|apply IHe2|exact I|exact E].
    - unfold bind in E. destruct (dist_of R e s) as [s1 [d|x]] eqn:E1; inversion E; subst. eapply IHe; eauto.
    - unfold bind in E. destruct (dist_of R e s) as [s1 [d|x]] eqn:E1; [|discriminate]. destruct (set_var R name d s1) as [s2 [u|x]] eqn:E2; inversion E; subst.
      destruct I as [<-|I].
      + unfold set_var in E2. destruct (tag_dist _ _ _); inversion E2. unfold variable. cbn [st_var]. rewrite dget_dset_same; [discriminate|apply text_eqb_iff].
      + intros N. apply (IHe n I s s1 r E1). apply (set_var_mono n name r s1). now rewrite E2.
  Qed.

  Lemma roll_of_sets : forall e n, In n (assigned e) -> forall s w s' v, In (w, (s', Ok v)) (roll_of R e s) -> constant R s' n <> None.
  Proof.
    assert (B : forall (f : Z -> Z -> Z) a b n, (In n (assigned a) -> forall s w s' v, In (w, (s', Ok v)) (roll_of R a s) -> constant R s' n <> None) ->
              (In n (assigned b) -> forall s w s' v, In (w, (s', Ok v)) (roll_of R b s) -> constant R s' n <> None) -> In n (assigned a) \/ In n (assigned b) ->
              forall s w s' v, In (w, (s', Ok v)) (wbind R (roll_of R a) (fun x => wbind R (roll_of R b) (fun y => wret R (f x y))) s) -> constant R s' n <> None).
    { intros f a b n Ha Hb I s w s' v H. apply wbind_cases in H. destruct H as [[x [X _]]|[w1 [s1 [x [w2 [H1 H2]]]]]]; [discriminate|].
      apply wbind_cases in H2. destruct H2 as [[y [X _]]|[w3 [s3 [y [w4 [H2 H3]]]]]]; [discriminate|]. destruct H3 as [H3|[]]. inversion H3; subst.
      destruct I as [I|I].
      - intros N. apply (Ha I _ _ _ _ H1). now apply (roll_of_unsets b n _ _ _ _ H2).
      - eapply Hb; eauto. }
    induction e; intros n I s w s' v E; cbn [assigned] in I; try contradiction; cbn [roll_of] in E;
      try (eapply B; [apply IHe1|apply IHe2|apply in_app_or, I|exact E]).
    - eapply IHe; eauto.
    - apply wbind_cases in E. destruct E as [[x [X _]]|[w1 [s1 [x [w2 [H1 [H2|[]]]]]]]]; [discriminate|]. inversion H2; subst. eapply IHe; eauto.
    - apply wbind_cases in E. destruct E as [[x [X _]]|[w1 [s1 [x [w2 [H1 H2]]]]]]; [discriminate|].
      destruct (x =? 0); [destruct H2 as [H2|[]]; discriminate|].
      apply wbind_cases in H2. destruct H2 as [[y [X _]]|[w3 [s3 [y [w4 [H2 [H3|[]]]]]]]]; [discriminate|]. inversion H3; subst.
      apply in_app_or in I. destruct I as [I|I]; [eapply IHe1; eauto|].
      intros N. apply (IHe2 n I _ _ _ _ H1). now apply (roll_of_unsets e1 n _ _ _ _ H2).
    - destruct (int_operator operator); [|destruct E as [E|[]]; discriminate]. eapply B; [apply IHe1|apply IHe2|apply in_app_or, I|exact E].
    - destruct (minmax_operator min_max); [|destruct E as [E|[]]; discriminate]. eapply B; [apply IHe1|apply IHe2|apply in_app_or, I|exact E].
    - apply wbind_cases in E. destruct E as [[x [X _]]|[w1 [s1 [x [w2 [H1 [H2|[]]]]]]]]; [discriminate|]. inversion H2; subst. eapply IHe; eauto.
    - apply wbind_cases in E. destruct E as [[x [X _]]|[w1 [s1 [x [w2 [H1 [H2|[]]]]]]]]; [discriminate|]. inversion H2; subst. destruct I as [<-|I].
      + rewrite const_same. discriminate.
      + intros N. apply (IHe n I _ _ _ _ H1). eapply set_constant_mono; eauto.
  Qed.

  Lemma cost_of_sets : forall e n, In n (assigned e) -> forall s s' c, cost_of R e s = (s', Ok c) -> constant R s' n <> None.
  Proof.
    assert (B : forall a b n, (In n (assigned a) -> forall s s' c, cost_of R a s = (s', Ok c) -> constant R s' n <> None) ->
              (In n (assigned b) -> forall s s' c, cost_of R b s = (s', Ok c) -> constant R s' n <> None) -> In n (assigned a ++ assigned b) ->
              forall s s' c, cost_sum R (cost_of R a) (cost_of R b) s = (s', Ok c) -> constant R s' n <> None).
    { intros a b n Ha Hb I s s' c E. unfold cost_sum, bind, ret in E. destruct (cost_of R a s) as [s1 [ca|x]] eqn:E1; [|discriminate].
      destruct (cost_of R b s1) as [s2 [cb|x]] eqn:E2; [|discriminate]. inversion E; subst s2. apply in_app_or in I. destruct I as [I|I].
      - intros N. apply (Ha I s s1 ca E1). pose proof (cost_of_unsets b n s1) as U. rewrite E2 in U. now apply U.
      - eapply Hb; eauto. }
    induction e; intros n I s s' r E; cbn [assigned] in I; try contradiction; cbn [cost_of] in E; try (eapply B; [apply IHe1|apply IHe2|exact I|exact E]);
      try (eapply IHe; eassumption).
    - unfold bind, lift in E. destruct (cost_of R e s) as [s1 [c|x]] eqn:E1; inversion E; subst. eapply IHe; eauto.
    - unfold bind, ret, set_const_m in E. destruct (cost_of R e s) as [s1 [c|x]] eqn:E1; inversion E; subst. destruct I as [<-|I].
      + rewrite const_same. discriminate.
      + intros N. apply (IHe n I s s1 c E1). eapply set_constant_mono; eauto.
  Qed.

  Lemma ext_of_sets : forall mx e n s s' v, ext_of R mx e s = (s', Ok v) ->
    (In n (assigned e) -> variable R s' n <> None) /\ (In n (assigned_outside e) -> constant R s' n <> None).
  Proof.
    intros mx. assert (V : forall e n s s' v, ext_via_dist R mx e s = (s', Ok v) -> In n (assigned e) -> variable R s' n <> None).
    { intros e n s s' v E I. unfold ext_via_dist, bind, lift in E. destruct (dist_of R e s) as [s1 [d|x]] eqn:E1; inversion E; subst.
      eapply dist_of_sets; eauto. }
    induction e; intros n s s' v E; try (split; [apply (V _ _ _ _ _ E)|contradiction]); cbn [assigned assigned_outside] in *; cbn [ext_of] in E; try (split; contradiction).
    - eapply IHe; eauto.
    - split; [|contradiction]. intros I. unfold bind in E at 1. destruct (dist_of R e2 s) as [s1 [d|x]]; [|discriminate].
      destruct (contains_zero R d); [discriminate|]. apply (V _ _ _ _ _ E I).
    - destruct (minmax_operator min_max) as [f|]; [|discriminate]. unfold bind, ret in E. destruct (ext_of R mx e1 s) as [s1 [x|x]] eqn:E1; [|discriminate].
      destruct (ext_of R mx e2 s1) as [s2 [y|y]] eqn:E2; [|discriminate]. inversion E; subst s2.
      destruct (IHe1 n _ _ _ E1) as [A1 A2]. destruct (IHe2 n _ _ _ E2) as [B1 B2]. pose proof (ext_of_unsets mx e2 n s1) as U. rewrite E2 in U. destruct U as [U1 U2].
      split; intros I; apply in_app_or in I; destruct I as [I|I]; auto; intros N; [apply (A1 I)|apply (A2 I)]; auto.
    - unfold bind, ret, set_const_m in E. destruct (ext_of R mx e s) as [s1 [x|x]] eqn:E1; [|discriminate].
      destruct (dist_of R e (set_constant R name x s1)) as [s2 [d|y]] eqn:E2; [|discriminate].
      destruct (set_var R name d s2) as [s3 [u|y]] eqn:E3; inversion E; subst.
      assert (K : constant R s' = constant R (set_constant R name v s1)).
      { unfold constant. pose proof (set_var_const R name d s2) as C. rewrite E3 in C. cbn [fst] in C. rewrite C.
        pose proof (dist_keeps_const e (set_constant R name v s1)) as C2. rewrite E2 in C2. cbn [fst] in C2. now rewrite C2. }
      split; intros [<-|I].
      + unfold set_var in E3. destruct (tag_dist _ _ _); inversion E3. unfold variable. cbn [st_var]. rewrite dget_dset_same; [discriminate|apply text_eqb_iff].
      + intros N. apply (dist_of_sets e n I _ _ _ E2). apply (set_var_mono n name d s2). now rewrite E3.
      + rewrite K, const_same. discriminate.
      + rewrite K. intros N. apply set_constant_mono in N. now apply (proj2 (IHe n _ _ _ E1) I).
  Qed.

  Lemma outside_assigned : forall e n, In n (assigned_outside e) -> In n (assigned e).
  Proof.
    induction e; cbn [assigned assigned_outside]; intros n H; auto; try contradiction.
    - apply in_app_or in H. apply in_or_app. destruct H; auto.
    - destruct H; cbn; auto.
  Qed.

  (** ** Programs *)
  Lemma some_line_here : forall l lines e (P : expr -> Prop), parse l = Ok e -> P e -> some_line (l :: lines) P.
  Proof. intros l lines e P E H. exists l, e. cbn. auto. Qed.
  Lemma some_line_later : forall l lines (P : expr -> Prop), some_line lines P -> some_line (l :: lines) P.
  Proof. intros l lines P [t [e [I H]]]. exists t, e. cbn. auto. Qed.

  Lemma reads_first_here : forall set l lines e n, parse l = Ok e -> In n (reads e) -> reads_first set (l :: lines) n.
  Proof. intros set l lines e n E H. exists [], l, lines, e. repeat split; auto. intros [t [b [[] _]]]. Qed.
  Lemma reads_first_later : forall (set : expr -> list text) l lines n, reads_first set lines n -> (forall e, parse l = Ok e -> ~ In n (set e)) -> reads_first set (l :: lines) n.
  Proof.
    intros set l lines n [b [t [a [e [-> [E [I H]]]]]]] N. exists (l :: b), t, a, e. repeat split; auto.
    intros [t' [e' [[->|J] [E' K]]]]; [now apply (N e')|]. apply H. exists t', e'. auto.
  Qed.

  Lemma roll_line_in : forall l s w s' r, In (w, (s', r)) (roll_line R l s) ->
    (exists x, parse l = Raise x /\ r = Raise x /\ s' = s) \/
    (exists e, parse l = Ok e /\ ((exists x, r = Raise x /\ In (w, (s', Raise x)) (roll_of R e s)) \/
                                 (exists s1 v w1, r = Ok LiveConstants /\ In (w1, (s1, Ok v)) (roll_of R e s) /\ s' = set_stdout_const R v s1))).
  Proof.
    intros l s w s' r H. rewrite roll_line_parse in H. destruct (parse l) as [e|x].
    - right. exists e. split; auto. apply wbind_cases in H. destruct H as [[x [E I]]|[w1 [s1 [a [w2 [I J]]]]]]; [left; eauto|].
      destruct J as [J|[]]. inversion J; subst. right. eauto 8.
    - destruct H as [H|[]]. inversion H; subst. left. eauto.
  Qed.
  Lemma roll_line_unsets : forall l s w s' r n, In (w, (s', r)) (roll_line R l s) -> unsets n s s'.
  Proof.
    intros l s w s' r n H. apply roll_line_in in H. destruct H as [[x [_ [_ ->]]]|[e [_ [[x [_ H]]|[s1 [v [w1 [_ [H ->]]]]]]]]].
    - apply unsets_refl.
    - eapply roll_of_unsets; eauto.
    - eapply unsets_trans; [eapply roll_of_unsets; eauto|]. now apply unsets_stdout_const.
  Qed.

  Definition roll_why (s : state) (lines : list text) (x : exn) : Prop :=
    (exists t, In t lines /\ parse t = Raise x) \/
    (x = KeyError /\ exists n, reads_first assigned lines n /\ constant R s n = None) \/
    (x = ZeroDivisionError /\ some_line lines divides) \/
    ((x = IndexError \/ x = ValueError \/ x = OverflowError) /\ some_line lines (fun e => exists m, In m (dice_of e) /\ ~ can_choose m)).

  Lemma roll_from_raises : forall lines d s, wraising (roll_why s lines) (roll_from R d lines s).
  Proof.
    induction lines as [|l lines IH]; intros d s; cbn [roll_from]; [apply wraising_one|]. apply wraising_bind.
    - intros w s' x H. apply roll_line_in in H. destruct H as [[y [E [X _]]]|[e [E [[y [X H]]|[s1 [v [w1 [X _]]]]]]]]; try discriminate; inversion X; subst.
      + left. exists l. cbn. auto.
      + right. apply (roll_of_raises e (parse_wf l e E) s) in H. destruct H as [[-> [n [H1 H2]]]|[[-> H]|[Hx H]]].
        * left. split; auto. exists n. split; auto. now apply reads_first_here with e.
        * right. left. split; auto. now apply some_line_here with e.
        * right. right. split; auto. now apply some_line_here with e.
    - intros w s1 d1 H. apply wraising_less with (1 := IH d1 s1). intros x [[t [H1 H2]]|[[-> [n [H1 H2]]]|[[-> H1]|[Hx H1]]]].
      + left. exists t. cbn. auto.
      + right. left. split; auto. exists n. split; [|now apply (roll_line_unsets l s w s1 _ n H)].
        apply reads_first_later; auto. intros e E J.
        apply roll_line_in in H. destruct H as [[y [_ [X _]]]|[e' [E' [[y [X _]]|[s2 [v [w1 [_ [H ->]]]]]]]]]; try discriminate.
        rewrite E in E'. inversion E'; subst e'. apply stdout_constant_mono in H2. eapply roll_of_sets; eauto.
      + right. right. left. split; auto. now apply some_line_later.
      + right. right. right. split; auto. now apply some_line_later.
  Qed.

  Lemma roll_unset : forall lines n s, reads_unassigned lines n -> n <> stdout -> constant R s n = None -> forall d, wfailing (roll_from R d lines s).
  Proof.
    intros lines n s [before [t [after [e [-> [E [Hr [Ha Hb]]]]]]]] N. revert s Hb.
    induction before as [|l before IH]; intros s Hb H d; cbn [app roll_from].
    - apply wfailing_left. intros w s' a I. apply roll_line_in in I. destruct I as [[y [_ [X _]]]|[e' [E' [[y [X _]]|[s1 [v [w1 [_ [I _]]]]]]]]]; try discriminate.
      rewrite E in E'. inversion E'; subst e'. eapply roll_of_unset; eauto.
    - apply wfailing_bind. intros w s1 d1 I. apply IH.
      + intros [t' [e' [I1 I2]]]. apply Hb. exists t', e'. cbn. auto.
      + apply roll_line_in in I. destruct I as [[y [_ [X _]]]|[e' [E' [[y [X _]]|[s2 [v [w1 [_ [I ->]]]]]]]]]; try discriminate.
        rewrite stdout_const_other by auto. eapply const_unset_kept; eauto. intros J. apply Hb. exists l, e'. cbn. auto.
  Qed.

  (** distributions *)
  Definition dist_why (s : state) (lines : list text) (x : exn) : Prop :=
    (exists t, In t lines /\ parse t = Raise x) \/
    (x = KeyError /\ exists n, reads_first assigned lines n /\ variable R s n = None) \/
    (x = ZeroDivisionError /\ some_line lines divides).

  Lemma dist_line_in : forall l s s' r, dist_line R l s = (s', r) ->
    (exists x, parse l = Raise x /\ r = Raise x /\ s' = s) \/
    (exists e, parse l = Ok e /\ ((exists x, r = Raise x /\ dist_of R e s = (s', Raise x)) \/
                                 (exists s1 d, r = Ok d /\ dist_of R e s = (s1, Ok d) /\ s' = set_stdout_var R d s1))).
  Proof.
    intros l s s' r H. unfold dist_line, bind, lift in H. destruct (parse l) as [e|x].
    - right. exists e. split; auto. destruct (dist_of R e s) as [s1 [d|x]]; inversion H; subst; [right|left]; eauto.
    - left. inversion H; subst. eauto.
  Qed.

  Lemma dist_lines_raises : forall lines ran s, sinv R s -> raising (dist_why s lines) (dist_lines R ran lines s).
  Proof.
    induction lines as [|l lines IH]; intros ran s I; cbn [dist_lines]; [apply raising_ok|].
    apply raising_bind.
    - intros x H. destruct (dist_line R l s) as [s' r] eqn:L. cbn [snd] in H. subst r. apply dist_line_in in L.
      destruct L as [[y [E [X _]]]|[e [E [[y [X H]]|[s1 [d [X _]]]]]]]; try discriminate; inversion X; subst.
      + left. exists l. cbn. auto.
      + right. pose proof (dist_of_raises e (parse_wf l e E) s I) as G. rewrite H in G. specialize (G y eq_refl). destruct G as [[-> [n [H1 H2]]]|[-> G]].
        * left. split; auto. exists n. split; auto. now apply reads_first_here with e.
        * right. split; auto. now apply some_line_here with e.
    - intros d s1 L. apply dist_line_in in L. destruct L as [[y [E [X _]]]|[e [E [[y [X H]]|[s2 [d' [X [H ->]]]]]]]]; try discriminate. inversion X; subst d'.
      destruct (kept_state e s s2 d (parse_wf l e E) I H) as [I2 D2].
      apply raising_less with (1 := IH true _ (proj1 (sinv_stdout_var R d s2 I2 D2))). intros x [[t [H1 H2]]|[[-> [n [H1 H2]]]|[-> H1]]].
      + left. exists t. cbn. auto.
      + right. left. split; auto. exists n. split.
        * apply reads_first_later; auto. intros e' E' J. rewrite E in E'. inversion E'; subst e'. apply (unsets_stdout_var n Logic.I d s2) in H2.
          eapply dist_of_sets; eauto.
        * apply (unsets_trans n s s2 _) with (2 := unsets_stdout_var n Logic.I d s2); auto. pose proof (dist_of_unsets e n s) as U. now rewrite H in U.
      + right. right. split; auto. now apply some_line_later.
  Qed.

  Lemma dist_lines_unset : forall lines n s, reads_unassigned lines n -> n <> stdout -> variable R s n = None -> forall ran, failing (dist_lines R ran lines s).
  Proof.
    intros lines n s [before [t [after [e [-> [E [Hr [Ha Hb]]]]]]]] N. revert s Hb.
    induction before as [|l before IH]; intros s Hb H d; cbn [app dist_lines].
    - apply failing_bind_left. unfold dist_line, bind, lift. rewrite E. destruct (dist_of_unset e n Hr Ha s H) as [x F].
      destruct (dist_of R e s) as [s1 [d1|y]]; [discriminate|]. exists y. reflexivity.
    - apply failing_bind. intros d1 s1 L. apply IH.
      + intros [t' [e' [I1 I2]]]. apply Hb. exists t', e'. cbn. auto.
      + apply dist_line_in in L. destruct L as [[y [_ [X _]]]|[e' [E' [[y [X _]]|[s2 [v [_ [I ->]]]]]]]]; try discriminate.
        rewrite stdout_var_other by auto. eapply var_unset_kept; eauto. intros J. apply Hb. exists l, e'. cbn. auto.
  Qed.

  (** max and min *)
  Definition ext_why (s : state) (lines : list text) (x : exn) : Prop :=
    (x = KeyError /\ exists n, reads_first assigned_outside lines n /\ (constant R s n = None \/ variable R s n = None)) \/
    (x = ZeroDivisionError /\ some_line lines divides) \/ x = ValueError.

  Lemma ext_line_in : forall mx l s s' r, ext_line R mx l s = (s', r) ->
    (exists x, parse l = Raise x /\ r = Raise x /\ s' = s) \/
    (exists e, parse l = Ok e /\ ((exists x, r = Raise x /\ ext_of R mx e s = (s', Raise x)) \/
                                 (exists s1 v, r = Ok LiveConstants /\ ext_of R mx e s = (s1, Ok v) /\ s' = set_stdout_const R v s1))).
  Proof.
    intros mx l s s' r H. unfold ext_line, bind, lift in H. destruct (parse l) as [e|x].
    - right. exists e. split; auto. destruct (ext_of R mx e s) as [s1 [d|x]]; inversion H; subst; [right|left]; eauto.
    - left. inversion H; subst. eauto.
  Qed.

  Lemma ext_from_raises : forall mx lines d s, sinv R s -> raising (ext_why s lines) (ext_from R mx d lines s).
  Proof.
    intros mx. induction lines as [|l lines IH]; intros d0 s I; cbn [ext_from]; [apply raising_ok|].
    apply raising_bind.
    - intros x H. destruct (ext_line R mx l s) as [s' r] eqn:L. cbn [snd] in H. subst r. apply ext_line_in in L.
      destruct L as [[y [E [X _]]]|[e [E [[y [X H]]|[s1 [d [X _]]]]]]]; try discriminate; inversion X; subst.
      + right. right. eapply parse_raise; eauto.
      + pose proof (ext_of_raises mx e (parse_wf l e E) s I) as G. rewrite H in G. specialize (G y eq_refl). destruct G as [[-> [n [H1 H2]]]|[[-> G]|G]].
        * left. split; auto. exists n. split; auto. now apply reads_first_here with e.
        * right. left. split; auto. now apply some_line_here with e.
        * right. right. auto.
    - intros d s1 L. apply ext_line_in in L. destruct L as [[y [E [X _]]]|[e [E [[y [X H]]|[s2 [v [X [H ->]]]]]]]]; try discriminate.
      pose proof (ext_of_kept R mx e (parse_wf l e E) s I) as K. rewrite H in K.
      apply raising_less with (1 := IH d _ (proj1 (sinv_stdout_const R v s2 (proj1 K)))). intros x [[-> [n [H1 H2]]]|[[-> H1]|H1]].
      + left. split; auto. exists n. split.
        * apply reads_first_later; auto. intros e' E' J. rewrite E in E'. inversion E'; subst e'. destruct (ext_of_sets mx e n _ _ _ H) as [S1 S2].
          destruct (unsets_stdout_const n Logic.I v s2) as [U1 U2]. destruct H2 as [H2|H2]; [apply (S2 J); auto|].
          apply S1; [now apply outside_assigned|auto].
        * assert (U : unsets n s (set_stdout_const R v s2)).
          { apply (unsets_trans n s s2 _) with (2 := unsets_stdout_const n Logic.I v s2); auto. pose proof (ext_of_unsets mx e n s) as U. now rewrite H in U. }
          destruct U. tauto.
      + right. left. split; auto. now apply some_line_later.
      + right. right. auto.
  Qed.

  Lemma ext_from_unset : forall mx lines n s, reads_unassigned lines n -> n <> stdout -> constant R s n = None -> variable R s n = None ->
    forall d, failing (ext_from R mx d lines s).
  Proof.
    intros mx lines n s [before [t [after [e [-> [E [Hr [Ha Hb]]]]]]]] N. revert s Hb.
    induction before as [|l before IH]; intros s Hb H1 H2 d; cbn [app ext_from].
    - apply failing_bind_left. unfold ext_line, bind, lift. rewrite E. destruct (ext_of_unset mx e n Hr Ha s H1 H2) as [x F].
      destruct (ext_of R mx e s) as [s1 [d1|y]]; [discriminate|]. exists y. reflexivity.
    - apply failing_bind. intros d1 s1 L. apply ext_line_in in L.
      destruct L as [[y [_ [X _]]]|[e' [E' [[y [X _]]|[s2 [v [_ [I ->]]]]]]]]; try discriminate.
      assert (J : ~ In n (assigned e')) by (intros J; apply Hb; exists l, e'; cbn; auto).
      destruct (const_unset_ext mx e' n s s2 _ I J H1 H2) as [G1 G2]. apply IH.
      + intros [t' [e2 [I1 I2]]]. apply Hb. exists t', e2. cbn. auto.
      + rewrite stdout_const_other by auto. auto.
      + auto.
  Qed.

  Lemma roll_sets : forall lines n, assigns lines n -> forall d s w s' r, In (w, (s', Ok r)) (roll_from R d lines s) -> constant R s' n <> None.
  Proof.
    intros lines n. induction lines as [|l lines IH]; intros [t [e [I [E A]]]] d s w s' r H; [destruct I|]. cbn [roll_from] in H.
    apply wbind_cases in H. destruct H as [[x [X _]]|[w1 [s1 [x [w2 [H1 H2]]]]]]; [discriminate|]. destruct I as [->|I].
    - apply roll_line_in in H1. destruct H1 as [[y [_ [X _]]]|[e' [E' [[y [X _]]|[s2 [v [w3 [_ [H1 ->]]]]]]]]]; try discriminate.
      rewrite E in E'. inversion E'; subst e'. intros N.
      apply (roll_of_sets e n A _ _ _ _ H1). apply (stdout_constant_mono n v).
      assert (D : does R (CRoll lines) (set_stdout_const R v s2) s').
      { revert H2. clear. intros H2. destruct lines as [|l lines]; [|eapply do_roll; exact H2]. destruct H2 as [H2|[]]. inversion H2; subst. eapply do_roll. left. reflexivity. }
      destruct (does_unsets _ _ _ n D). auto.
    - eapply IH; eauto. exists t, e. auto.
  Qed.

  Lemma dist_sets : forall lines n, assigns lines n -> forall ran s s' r, dist_lines R ran lines s = (s', Ok r) -> variable R s' n <> None.
  Proof.
    intros lines n. induction lines as [|l lines IH]; intros [t [e [I [E A]]]] ran s s' r H; [destruct I|]. cbn [dist_lines] in H. unfold bind in H.
    destruct (dist_line R l s) as [s1 [d|x]] eqn:L; [|discriminate]. destruct I as [->|I].
    - apply dist_line_in in L. destruct L as [[y [_ [X _]]]|[e' [E' [[y [X _]]|[s2 [v [X [H1 ->]]]]]]]]; try discriminate. inversion X; subst v.
      rewrite E in E'. inversion E'; subst e'. intros N. apply (dist_of_sets e n A _ _ _ H1).
      assert (U : unsets n (set_stdout_var R d s2) s').
      { pose proof (dist_lines_rel R (unsets n) (unsets_refl n) (unsets_trans n) (fun _ => True) (unsets_var n) True (unsets_stdout_var n) lines true (set_stdout_var R d s2)) as U.
        rewrite H in U. apply U; auto. intros ? ?; auto. }
      apply (unsets_stdout_var n Logic.I d s2). now apply U.
    - eapply IH; eauto. exists t, e. auto.
  Qed.

  Lemma ext_sets : forall mx lines n d s s' r, ext_from R mx d lines s = (s', Ok r) ->
    (assigns lines n -> variable R s' n <> None) /\ (some_line lines (fun e => In n (assigned_outside e)) -> constant R s' n <> None).
  Proof.
    intros mx lines n. induction lines as [|l lines IH]; intros d s s' r H.
    - split; intros [t [e [[] _]]].
    - cbn [ext_from] in H. unfold bind in H. destruct (ext_line R mx l s) as [s1 [d1|x]] eqn:L; [|discriminate].
      destruct (IH d1 s1 s' r H) as [A B].
      apply ext_line_in in L. destruct L as [[y [_ [X _]]]|[e' [E' [[y [X _]]|[s2 [v [X [H1 ->]]]]]]]]; try discriminate.
      destruct (ext_of_sets mx e' n _ _ _ H1) as [C D].
      assert (U : unsets n (set_stdout_const R v s2) s').
      { pose proof (ext_from_rel R (unsets n) (unsets_refl n) (unsets_trans n) (fun _ => True) (fun _ => True) (unsets_const n) (unsets_var n) True (unsets_stdout_const n)
                      mx lines d1 (set_stdout_const R v s2)) as U.
        rewrite H in U. apply U; auto; intros ? ?; auto. }
      pose proof (unsets_trans n _ _ _ (unsets_stdout_const n Logic.I v s2) U) as [U1 U2].
      split; intros [t [e [[->|I] [E J]]]].
      + rewrite E in E'. inversion E'; subst e'. intros N. apply (C J). auto.
      + apply A. exists t, e. auto.
      + rewrite E in E'. inversion E'; subst e'. intros N. apply (D J). auto.
      + apply B. exists t, e. auto.
  Qed.

  Lemma cost_sets : forall lines n, assigns lines n -> forall c s s' r, cost_from R c lines s = (s', Ok r) -> constant R s' n <> None.
  Proof.
    intros lines n. induction lines as [|l lines IH]; intros [t [e [I [E A]]]] c s s' r H; [destruct I|]. cbn [cost_from] in H. unfold bind, lift in H.
    destruct (parse l) as [e'|x] eqn:P; [|discriminate]. destruct (cost_of R e' s) as [s1 [c1|x]] eqn:L; [|discriminate]. destruct I as [->|I].
    - rewrite E in P. inversion P; subst e'. intros N. apply (cost_of_sets e n A _ _ _ L).
      pose proof (cost_from_rel R (unsets n) (unsets_refl n) (unsets_trans n) (fun _ => True) (unsets_const n) lines (c + c1) s1) as U. rewrite H in U.
      apply U; auto. intros ? ?; auto.
    - eapply IH; eauto. exists t, e. auto.
  Qed.

  (** ** What was never set *)
  Lemma never_set : forall s cs s' n, history R s cs s' -> n <> stdout ->
    ((forall c, In c cs -> ~ asks_distribution c -> ~ assigns (call_lines c) n) -> constant R s n = None -> constant R s' n = None) /\
    ((forall c lines, In c cs -> c <> CRoll lines -> c <> CCost lines -> ~ assigns (call_lines c) n) -> variable R s n = None -> variable R s' n = None).
  Proof.
    intros s cs s' n H N. induction H as [|s c s1 cs s2 D H [IH1 IH2]]; [auto|]. split; intros A E.
    - apply IH1; [intros; apply A; cbn; auto|]. assert (G : asks_distribution c \/ ~ asks_distribution c) by (destruct c; cbn; auto).
      destruct G as [G|G].
      + unfold constant. rewrite (distributions_keep_constants R c s s1 D G). exact E.
      + destruct (others_kept R c s s1 n D N) as [K _]; [apply A; cbn; auto|]. congruence.
    - apply IH2; [intros; eapply A; cbn; eauto|].
      assert (G : (exists lines, c = CRoll lines \/ c = CCost lines) \/ ~ (exists lines, c = CRoll lines \/ c = CCost lines)).
      { destruct c; try (left; eexists; now (left + right)); right; intros [l [X|X]]; discriminate. }
      destruct G as [G|G].
      + unfold variable. rewrite (rolls_keep_variables R c s s1 D G). exact E.
      + destruct (others_kept R c s s1 n D N) as [_ K]; [apply (A c []); [now left| |]; intros ->; apply G; eauto|]. congruence.
  Qed.

  (** ** What results depend on *)
  Lemma contained_reads : forall e, no_assignment e -> contained_variables e = reads e.
  Proof. induction e; cbn; intros H; auto; try contradiction; try (destruct H; f_equal; auto). Qed.

  Definition pure_in {A} (s s' : state) (m : M R A) : Prop := exists r, m s = (s, r) /\ m s' = (s', r).
  Lemma pure_bind : forall A B s s' (m : M R A) (f : A -> M R B), pure_in s s' m -> (forall a, pure_in s s' (f a)) -> pure_in s s' (bind R m f).
  Proof.
    intros A B s s' m f [r [E1 E2]] F. unfold pure_in, bind. rewrite E1, E2. destruct r as [a|x]; [apply F|eauto].
  Qed.
  Lemma pure_lift : forall A s s' (r : res A), pure_in s s' (lift R r).
  Proof. intros. exists r. auto. Qed.
  Lemma pure_ret : forall A s s' (a : A), pure_in s s' (ret R a).
  Proof. intros. exists (Ok a). auto. Qed.

  Notation alike := (alike R).
  Ltac sub H := let n := fresh in let h := fresh in intros n h; apply H; cbn [contained_variables]; try apply in_or_app; cbn [In]; auto.

  Lemma dist_pure : forall e s s', no_assignment e -> alike e s s' -> pure_in s s' (dist_of R e).
  Proof.
    induction e; intros s s' N H; cbn [no_assignment] in N; try contradiction; cbn [dist_of]; try apply pure_lift;
      try (apply pure_bind; [apply IHe1; [tauto|sub H]|intros; apply pure_bind; [apply IHe2; [tauto|sub H]|intros; apply pure_lift]]).
    - apply IHe; auto.
    - apply pure_bind; [apply IHe; auto|]. intros. apply pure_ret.
    - destruct (dk_simple d) as [[]|]; apply pure_lift.
    - destruct (dist_operator operator); [|apply pure_lift].
      apply pure_bind; [apply IHe1; [tauto|sub H]|intros; apply pure_bind; [apply IHe2; [tauto|sub H]|intros; apply pure_lift]].
    - apply pure_bind; [apply IHe; auto|]. intros. apply pure_ret.
    - exists (get_var R name s). split; auto. unfold get_var. fold (variable R s name). fold (variable R s' name).
      destruct (H name) as [_ ->]; auto. now left.
  Qed.
  Lemma ext_via_pure : forall mx e s s', no_assignment e -> alike e s s' -> pure_in s s' (ext_via_dist R mx e).
  Proof. intros. apply pure_bind; [now apply dist_pure|]. intros. apply pure_lift. Qed.
  Lemma ext_pure : forall mx e s s', no_assignment e -> alike e s s' -> pure_in s s' (ext_of R mx e).
  Proof.
    intros mx. induction e; intros s s' N H; try (now apply ext_via_pure); cbn [no_assignment] in N; try contradiction; cbn [ext_of]; try apply pure_lift; try apply pure_ret.
    - apply IHe; auto.
    - destruct (dk_simple d) as [[]|]; apply pure_lift.
    - apply pure_bind; [apply dist_pure; [tauto|sub H]|]. intros d. destruct (contains_zero R d); [apply pure_lift|]. apply ext_via_pure; auto.
    - destruct (minmax_operator min_max); [|apply pure_lift].
      apply pure_bind; [apply IHe1; [tauto|sub H]|intros; apply pure_bind; [apply IHe2; [tauto|sub H]|intros; apply pure_ret]].
    - exists (get_constant R name s). split; auto. unfold get_constant. fold (constant R s name). fold (constant R s' name).
      destruct (H name) as [-> _]; auto. now left.
  Qed.
  Lemma cost_pure : forall e s s', no_assignment e -> alike e s s' -> pure_in s s' (cost_of R e).
  Proof.
    induction e; intros s s' N H; cbn [no_assignment] in N; try contradiction; cbn [cost_of]; try apply pure_ret;
      try (apply pure_bind; [apply IHe1; [tauto|sub H]|intros; apply pure_bind; [apply IHe2; [tauto|sub H]|intros; apply pure_ret]]); try (apply IHe; auto; fail).
    - apply pure_bind; [apply IHe; auto|]. intros. apply pure_lift.
    - destruct (dk_simple d) as [[]|]; apply pure_ret.
    - exists (get_constant R name s). split; auto. unfold get_constant. fold (constant R s name). fold (constant R s' name).
      destruct (H name) as [-> _]; auto. now left.
  Qed.
  Lemma roll_of_same : forall e s s', (forall n, In n (reads e) -> constant R s n = constant R s' n) ->
    map (fun run => (fst run, snd (snd run))) (roll_of R e s) = map (fun run => (fst run, snd (snd run))) (roll_of R e s').
  Proof.
    intros e s s' H. pose proof (roll_of_agree R (agree R (fun n => In n (reads e))) (fun n => In n (reads e)) (fun _ _ H => H) (agree_set R _) e (fun _ H => H) s s' H) as A.
    induction A as [|[w1 [s1 r1]] [w2 [s2 r2]] k k' [E1 [E2 E3]] A IH]; [reflexivity|]. cbn [map fst snd] in *. subst. now rewrite IH.
  Qed.
  Lemma cost_of_same : forall e s s', (forall n, In n (reads e) -> constant R s n = constant R s' n) -> snd (cost_of R e s) = snd (cost_of R e s').
  Proof. intros e s s' H. apply (cost_of_agree R (agree R (fun n => In n (reads e))) (fun n => In n (reads e)) (fun _ _ H => H) (agree_set R _) e (fun _ H => H) s s' H). Qed.

  Lemma depends_on_contained : forall e s s', no_assignment e -> alike e s s' ->
    map (fun run => (fst run, snd (snd run))) (roll_of R e s) = map (fun run => (fst run, snd (snd run))) (roll_of R e s') /\
    snd (dist_of R e s) = snd (dist_of R e s') /\ (forall mx, snd (ext_of R mx e s) = snd (ext_of R mx e s')) /\ snd (cost_of R e s) = snd (cost_of R e s').
  Proof.
    intros e s s' N H. repeat split.
    - apply roll_of_same. intros n I. rewrite <- contained_reads in I by auto. now apply H.
    - destruct (dist_pure e s s' N H) as [r [-> ->]]. reflexivity.
    - intros mx. destruct (ext_pure mx e s s' N H) as [r [-> ->]]. reflexivity.
    - destruct (cost_pure e s s' N H) as [r [-> ->]]. reflexivity.
  Qed.
End Proofs.
