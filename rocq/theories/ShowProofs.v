(** * ShowProofs: C68 *)
From Verif Require Import Py PyFacts PyFloat Constraint ConstraintFacts Distribution DistFacts DiceModel Expr Lexer Parser Interp Random Show TagFacts SpecProgram
  SpecDice SpecInterp ExprFacts StateFacts WfFacts InterpRun SpecCalls SpecRandom RandomProofs SpecSeed SpecRename SeedFacts SeedProofs.

Section Printed.
  Context (R : Runtime).
  Notation Cs := (rt_c R).

  Lemma cset_str_prefix : forall a b x y, set_ok R a -> set_ok R b -> cset_str R a ++ x = cset_str R b ++ y -> Forall2 same_c (cs_iter Cs a) (cs_iter Cs b) /\ x = y.
  Proof.
    intros a b x y Ha Hb E. apply set_ok_forall in Ha. apply set_ok_forall in Hb. unfold cset_str in E. rewrite <- !app_assoc in E. apply app_inv_head in E.
    destruct (cs_iter Cs a) as [|c l] eqn:Ea; destruct (cs_iter Cs b) as [|d l'] eqn:Eb.
    - apply app_inv_head in E. auto.
    - discriminate.
    - discriminate.
    - rewrite <- !app_assoc in E. apply app_inv_head in E. apply join_strs_inj in E; auto; congruence.
  Qed.
  Lemma same_cset_str : forall a b, Forall2 same_c (cs_iter Cs a) (cs_iter Cs b) -> cset_str R a = cset_str R b.
  Proof.
    intros a b H. assert (M : map c_str (cs_iter Cs a) = map c_str (cs_iter Cs b)) by (induction H; cbn [map]; f_equal; auto using same_c_str).
    unfold cset_str. destruct H; [reflexivity|]. now rewrite M.
  Qed.

  Lemma after_int : forall i c x j d y, int_char c = false -> int_char d = false -> text_of_Z i ++ c :: x = text_of_Z j ++ d :: y -> i = j /\ c = d /\ x = y.
  Proof.
    intros i c x j d y C D E. pose proof (text_of_Z_chars i) as A. pose proof (text_of_Z_chars j) as B.
    enough (H : text_of_Z i = text_of_Z j /\ c :: x = d :: y) by (destruct H as [H1 H2]; apply text_of_Z_inj in H1; injection H2 as H2 H3; auto).
    revert E A B. generalize (text_of_Z i) (text_of_Z j). induction l as [|p l IH]; intros [|q m] E A B; cbn in *; auto.
    - injection E as -> ->. rewrite C in B. discriminate.
    - injection E as -> <-. rewrite D in A. discriminate.
    - injection E as -> E. apply andb_prop in A. apply andb_prop in B. destruct (IH m E) as [-> H]; tauto.
  Qed.

  Lemma o_str_prefix : forall o o' x y, o_ok R o -> o_ok R o' -> o_str R o ++ x = o_str R o' ++ y ->
    o_value o = o_value o' /\ Forall2 same_c (cs_iter Cs (o_cs o)) (cs_iter Cs (o_cs o')) /\ x = y.
  Proof.
    intros o o' x y K K' E. unfold o_str in E. rewrite <- !app_assoc in E. apply app_inv_head in E.
    change ($", constraint_set=" ++ ?t) with (","%char :: ($" constraint_set=" ++ t)) in E. apply after_int in E; try reflexivity.
    destruct E as [E1 [_ E]]. apply app_inv_head in E. apply cset_str_prefix in E; [|apply K|apply K']. tauto.
  Qed.

  (** the entries of a printed dictionary *)
  Definition entry (oc : outcome R * Z) : text := o_str R (fst oc) ++ $": " ++ text_of_Z (snd oc).
  Definition same_entry (a b : outcome R * Z) : Prop :=
    o_value (fst a) = o_value (fst b) /\ Forall2 same_c (cs_iter Cs (o_cs (fst a))) (cs_iter Cs (o_cs (fst b))) /\ snd a = snd b.
  Lemma entry_prefix : forall a b c x d y, o_ok R (fst a) -> o_ok R (fst b) -> int_char c = false -> int_char d = false -> entry a ++ c :: x = entry b ++ d :: y ->
    same_entry a b /\ c = d /\ x = y.
  Proof.
    intros a b c x d y K K' C D E. unfold entry in E. rewrite <- !app_assoc in E. apply o_str_prefix in E; auto. destruct E as [E1 [E2 E]].
    apply app_inv_head in E. apply after_int in E; auto. destruct E as [E3 [-> ->]]. unfold same_entry. auto.
  Qed.
  Lemma entries_prefix : forall l l' : list (outcome R * Z), (forall a, In a l -> o_ok R (fst a)) -> (forall a, In a l' -> o_ok R (fst a)) ->
    join $", " (map entry l) ++ $"}" = join $", " (map entry l') ++ $"}" -> Forall2 same_entry l l'.
  Proof.
    assert (J : forall a b l, join $", " (map entry (a :: b :: l)) ++ $"}" = entry a ++ ","%char :: (" "%char :: join $", " (map entry (b :: l)) ++ $"}")).
    { intros a b l. change (join $", " (map entry (a :: b :: l))) with (entry a ++ $", " ++ join $", " (map entry (b :: l))). now rewrite <- !app_assoc. }
    assert (N : forall a l, join $", " (map entry (a :: l)) ++ $"}" <> $"}").
    { intros a l E. destruct l; [|rewrite J in E]; cbn [map join] in E; unfold entry, o_str in E; discriminate. }
    induction l as [|a l IH]; intros [|b l'] K K' E; [constructor | exfalso; symmetry in E; now apply N in E | exfalso; now apply N in E|].
    assert (Ka : o_ok R (fst a)) by (apply K; now left). assert (Kb : o_ok R (fst b)) by (apply K'; now left).
    destruct l as [|a2 l]; destruct l' as [|b2 l']; rewrite ?J in E; cbn [map join] in E.
    - apply entry_prefix in E; auto. constructor; [tauto | constructor].
    - exfalso. apply entry_prefix in E; auto. destruct E as [_ [E _]]. discriminate.
    - exfalso. apply entry_prefix in E; auto. destruct E as [_ [E _]]. discriminate.
    - apply entry_prefix in E; auto. destruct E as [E1 [_ E]]. injection E as E. constructor; [exact E1|].
      apply IH; [intros x X; apply K; now right | intros x X; apply K'; now right | exact E].
  Qed.

  Lemma entry_ok : forall d, dinv R d -> forall a, In a (d_map d) -> o_ok R (fst a).
  Proof. intros d D a I. apply (di_keys R d D). now apply in_map. Qed.
  Lemma d_str_entries : forall d d', dinv R d -> dinv R d' -> (d_str R d = d_str R d' <-> Forall2 same_entry (d_map d) (d_map d')).
  Proof.
    intros d d' D D'. split.
    - intros E. unfold d_str in E. apply app_inv_head in E. apply entries_prefix; [now apply entry_ok | now apply entry_ok | exact E].
    - intros H. unfold d_str. do 3 f_equal. change (map entry (d_map d) = map entry (d_map d')). induction H as [|a b l l' [E1 [E2 E3]] H IH]; [reflexivity|]. cbn [map]. f_equal; auto.
      unfold entry, o_str. now rewrite E1, E3, (same_cset_str _ _ E2).
  Qed.

  (** ** C68 *)
  Lemma printed_same : forall d d', obtainable R d -> obtainable R d' ->
    (d_str R d = d_str R d' <->
     Forall2 (fun oc oc' => o_value (fst oc) = o_value (fst oc') /\ cset_eqb R (o_cs (fst oc)) (o_cs (fst oc')) = true /\ snd oc = snd oc') (d_map d) (d_map d')).
  Proof.
    intros d d' O O'. pose proof (obtainable_dinv R d O) as D. pose proof (obtainable_dinv R d' O') as D'. rewrite (d_str_entries d d' D D').
    pose proof (entry_ok d D) as K. pose proof (entry_ok d' D') as K'. split; intros H.
    - induction H as [|a b l l' [E1 [E2 E3]] H IH]; constructor; [|apply IH; intros x X; [apply K | apply K']; now right].
      split; auto. split; auto. apply text_eqb_eq. now apply same_cset_str.
    - induction H as [|a b l l' [E1 [E2 E3]] H IH]; constructor; [|apply IH; intros x X; [apply K | apply K']; now right].
      split; auto. split; auto. apply text_eqb_eq in E2. apply cset_str_inj; auto; [apply (K a) | apply (K' b)]; now left.
  Qed.
  Lemma outcome_printed : forall d d' o c o' c', obtainable R d -> obtainable R d' -> In (o, c) (d_map d) -> In (o', c') (d_map d') -> (o_str R o = o_str R o' <-> o_eqb R o o' = true).
  Proof.
    intros d d' o c o' c' O O' I I'. pose proof (entry_ok d (obtainable_dinv R d O) _ I) as K. pose proof (entry_ok d' (obtainable_dinv R d' O') _ I') as K'. cbn [fst] in *.
    unfold o_eqb. rewrite andb_true_iff, Z.eqb_eq. unfold cset_eqb. rewrite text_eqb_eq. split.
    - intros E. apply (f_equal (fun t => t ++ [])) in E. apply o_str_prefix in E; auto. destruct E as [E1 [E2 _]]. split; auto. now apply same_cset_str.
    - intros [E1 E2]. unfold o_str. now rewrite E1, E2.
  Qed.

  Notation same := (fun n : text => n).
  Lemma instance_same : forall i, new_instance same i = i.
  Proof. intros i. unfold new_instance. pose proof (cut_inv i) as C. destruct (cut i) as [[n k]|]; [symmetry; apply C | reflexivity]. Qed.
  Lemma same_orel : forall a b : outcome R, o_value a = o_value b -> Forall2 same_c (cs_iter Cs (o_cs a)) (cs_iter Cs (o_cs b)) -> orel R R same a b.
  Proof.
    intros a b E H. split; auto. intros h. assert (A : osat R (fun i => h (new_instance same i)) a <-> osat R h a).
    { unfold osat, sat, all. split; intros X c Hc; specialize (X c Hc); destruct c; cbn in *; auto; now rewrite instance_same in *. }
    rewrite A. unfold osat. now apply same_sat_sets.
  Qed.
  Lemma printed_drel : forall d d', dinv R d -> dinv R d' -> d_str R d = d_str R d' -> drel R R same d d'.
  Proof.
    intros d d' D D' E. apply (d_str_entries d d' D D') in E.
    assert (M : mrel R R same (d_map d) (d_map d')).
    { unfold mrel. revert E. apply Forall2_weaken. intros a b [E1 [E2 E3]]. split; auto. now apply same_orel. }
    split; [exact M|]. rewrite (di_count R d D), (di_count R d' D'). f_equal. exact (mrel_counts R R same _ _ M).
  Qed.
  Lemma drel_refl : forall d, drel R R same d d.
  Proof. intros d. split; auto. unfold mrel. induction (d_map d); constructor; auto. split; auto. apply same_orel; auto. induction (cs_iter Cs (o_cs (fst a))); constructor; auto using same_c_refl. Qed.
  Lemma srel_refl : forall s, srel R R same s s.
  Proof.
    intros s. split; [|rewrite !on_name_same; auto]. induction (st_var s); constructor; auto. split; auto. apply drel_refl.
  Qed.

  Lemma printed_sessions : forall G (w : world R G) ds ds' acts, (forall i, reachable R (interpreter R G w i)) -> (forall d, In d (held R G w) -> obtainable R d) ->
    Forall2 (fun d d' => obtainable R d /\ obtainable R d' /\ d_str R d = d_str R d') ds ds' ->
    session R G acts (hold R G ds w) = session R G acts (hold R G ds' w).
  Proof.
    intros G w ds ds' acts Hs Hh Hd. assert (H : Forall2 (arel same) acts acts) by (induction acts; constructor; auto using action_same).
    assert (W : wrel R R G same w w).
    { constructor; auto using srel_refl; try (intros i; now apply reachable_sinv). clear Hd. induction (held R G w) as [|d l IH]; constructor.
      - assert (D : dinv R d) by (apply obtainable_dinv, Hh; now left). split; auto. split; auto. apply drel_refl.
      - apply IH. intros x X. apply Hh. now right. }
    assert (W' : wrel R R G same (hold R G ds w) (hold R G ds' w)).
    { apply hold_rel; auto. revert Hd. apply Forall2_weaken. intros d d' [O [O' E]]. pose proof (obtainable_dinv R d O). pose proof (obtainable_dinv R d' O'). auto using printed_drel. }
    rewrite (session_rel R R G same (fun a b E => E) eq_refl acts acts H _ _ W').
    rewrite <- (map_id (session R G acts (hold R G ds w))) at 1. apply map_ext. intros. symmetry. apply sight_same.
  Qed.
End Printed.
