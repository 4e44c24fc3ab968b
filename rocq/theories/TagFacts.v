(** * TagFacts: lemmas about the storing of a variable (set_var of Expr.v) *)
From Verif Require Import Py PyFacts PyFloat Constraint ConstraintFacts Distribution DistFacts SpecDice DiceFacts DiceModel Expr.

(** ** Instance names *)
Lemma instance_name_inj : forall n k n' k', instance_name n k = instance_name n' k' -> n = n' /\ k = k'.
Proof.
  intros n k n' k' H. unfold instance_name in H. change ($"_") with ["_"%char] in H. cbn [app] in H.
  apply last_split in H; try (apply text_of_Z_not_in; reflexivity).
  destruct H as [H1 H2]. split; auto. now apply text_of_Z_inj.
Qed.

Lemma instance_name_ok : forall n k, name_ok n -> name_ok (instance_name n k).
Proof.
  intros n k H. unfold name_ok, instance_name in *. change ($"_") with ["_"%char]. rewrite !in_app_iff.
  intros [H1|[[H1|[]]|H1]]; auto; [discriminate|]. revert H1. apply text_of_Z_not_in. reflexivity.
Qed.

Definition upd (h : text -> Z) (n : text) (x : Z) : text -> Z := fun m => if text_eqb m n then x else h m.

Lemma upd_same : forall h n x, upd h n x n = x.
Proof. intros. unfold upd. now rewrite text_eqb_refl. Qed.
Lemma upd_other : forall h n x m, m <> n -> upd h n x m = h m.
Proof. intros. unfold upd. apply text_eqb_neq in H. now rewrite H. Qed.

Section Facts.
  Context (R : Runtime).
  Notation Zs := (rt_z R).
  Notation Cs := (rt_c R).
  Notation outcome := (outcome R).
  Notation dist := (dist R).
  Notation omap := (list (outcome * Z)).

  (** the names in the constraints of a distribution *)
  Definition dnames (d : dist) (n : text) : Prop := exists o, In o (map fst (d_map d)) /\ In n (names R (o_cs o)).

  Lemma tag_outcome_ok : forall inst o, exists o', tag_outcome R inst o = Ok o'.
  Proof.
    intros. unfold tag_outcome.
    destruct (add_constraint_ok R (cs_deepcopy Cs (o_cs o)) (CVar inst (z_of Zs [o_value o]))) as [r ->]. simpl. eauto.
  Qed.

  Lemma tag_outcome_inv : forall inst o o', tag_outcome R inst o = Ok o' -> o_value o' = o_value o /\
    add_constraint R (cs_deepcopy Cs (o_cs o)) (CVar inst (z_of Zs [o_value o])) = Ok (o_cs o').
  Proof.
    intros inst o o' H. unfold tag_outcome in H. destruct (add_constraint R _ _) as [r|]; [|discriminate].
    simpl in H. injection H as <-. auto.
  Qed.

  Lemma tag_sat : forall inst o o' h, tag_outcome R inst o = Ok o' -> (osat R h o' <-> h inst = o_value o /\ osat R h o).
  Proof.
    intros inst o o' h H. apply tag_outcome_inv in H. destruct H as [_ H]. unfold osat.
    rewrite (sat_add R h _ _ _ H), sat_deepcopy. simpl sat_c. rewrite (z_of_spec Zs). simpl. intuition auto.
  Qed.

  Lemma tag_names : forall inst o o' n, tag_outcome R inst o = Ok o' -> In n (names R (o_cs o')) -> n = inst \/ In n (names R (o_cs o)).
  Proof.
    intros inst o o' n H Hn. apply tag_outcome_inv in H. destruct H as [_ H].
    apply (names_add R _ _ _ n H) in Hn. rewrite names_deepcopy in Hn. simpl in Hn. intuition auto.
  Qed.

  Lemma tag_ok : forall inst o o', name_ok inst -> ~ In inst (names R (o_cs o)) -> o_ok R o ->
    tag_outcome R inst o = Ok o' -> o_ok R o'.
  Proof.
    intros inst o o' N F [H1 [H2 [H3 [h Hh]]]] H. split; [|split; [|split]].
    - intros n Hn. apply (tag_names inst o o') in Hn; auto. destruct Hn as [->|Hn]; auto.
    - apply tag_outcome_inv in H. destruct H as [_ H]. eapply add_constraint_normal; eauto. now apply deepcopy_normal.
    - apply tag_outcome_inv in H. destruct H as [_ H]. eapply add_constraint_nonempty; eauto.
    - exists (upd h inst (o_value o)). apply (tag_sat inst o o'); auto. rewrite upd_same. split; auto.
      apply (sat_ext R (o_cs o) h); auto. intros n Hn. rewrite upd_other; auto. intros ->. auto.
  Qed.

  (** The tagged outcomes, entry by entry *)
  Fixpoint tag_all (inst : text) (m : omap) : omap :=
    match m with
    | [] => []
    | (o, c) :: m' => match tag_outcome R inst o with Ok o' => (o', c) :: tag_all inst m' | Raise _ => tag_all inst m' end
    end.

  Lemma tag_all_in : forall inst m o' c, In (o', c) (tag_all inst m) <-> exists o, In (o, c) m /\ tag_outcome R inst o = Ok o'.
  Proof.
    induction m as [|[o1 c1] m IH]; intros o' c; simpl; [firstorder|].
    destruct (tag_outcome_ok inst o1) as [o1' E]. rewrite E. simpl. rewrite IH. split.
    - intros [H|[o [H1 H2]]]; [injection H as -> ->; eauto | eauto].
    - intros [o [[H|H] H2]]; [injection H as -> ->; left; congruence | eauto].
  Qed.

  Lemma tag_all_keys : forall inst m o', In o' (map fst (tag_all inst m)) <-> exists o, In o (map fst m) /\ tag_outcome R inst o = Ok o'.
  Proof.
    intros. rewrite in_map_iff. split.
    - intros [[o c] [<- H]]. apply tag_all_in in H. destruct H as [o1 [H1 H2]]. exists o1. split; auto. apply (in_map fst) in H1. auto.
    - intros [o [H1 H2]]. apply in_map_iff in H1. destruct H1 as [[o1 c] [<- H1]]. exists (o', c). split; auto.
      apply tag_all_in. eauto.
  Qed.

  Lemma tag_all_values : forall inst m, map (fun oc => (o_value (fst oc), snd oc)) (tag_all inst m) = map (fun oc => (o_value (fst oc), snd oc)) m.
  Proof.
    induction m as [|[o c] m IH]; simpl; auto. destruct (tag_outcome_ok inst o) as [o' E]. rewrite E. simpl. rewrite IH.
    apply tag_outcome_inv in E. destruct E as [-> _]. auto.
  Qed.

  Lemma tag_loop_unmatched : forall inst m acc, unmatched (o_match R) (acc ++ tag_all inst m) ->
    tag_loop R inst m acc = Ok (acc ++ tag_all inst m).
  Proof.
    induction m as [|[o c] m IH]; intros acc U; simpl in *; [now rewrite app_nil_r|].
    destruct (tag_outcome_ok inst o) as [o' E]. rewrite E in *. cbn [rbind].
    assert (Ed : dset (o_match R) acc o' c = acc ++ [(o', c)]).
    { clear - U. induction acc as [|[k v] acc IH]; simpl in *; auto. inversion U; subst.
      rewrite H1, IH; auto. rewrite map_app. apply in_or_app. right. left. auto. }
    rewrite Ed, IH; rewrite <- app_assoc; auto.
  Qed.

  (** Tagged outcomes that could hold together come from the same outcome *)
  Lemma tag_same : forall inst d a b a' b' h, dinv R d -> In a (map fst (d_map d)) -> In b (map fst (d_map d)) ->
    tag_outcome R inst a = Ok a' -> tag_outcome R inst b = Ok b' -> osat R h a' -> osat R h b' -> a = b.
  Proof.
    intros inst d a b a' b' h D Ha Hb Ea Eb Sa Sb. apply (tag_sat inst a) in Sa; auto. apply (tag_sat inst b) in Sb; auto.
    destruct Sa as [Va Sa]. destruct Sb as [Vb Sb]. assert (E := di_coherent R d D a b h Ha Hb Sa Sb).
    destruct a, b; simpl in *. congruence.
  Qed.

  Lemma tag_all_unmatched : forall inst d, name_ok inst -> ~ dnames d inst -> dinv R d ->
    unmatched (o_match R) (tag_all inst (d_map d)).
  Proof.
    intros inst d N F D.
    assert (G : forall m, (forall o, In o (map fst m) -> In o (map fst (d_map d))) -> unmatched (o_match R) m ->
      unmatched (o_match R) (tag_all inst m)).
    { induction m as [|[o c] m IH]; intros Hm U; [constructor|]. inversion U; subst. simpl.
      destruct (tag_outcome_ok inst o) as [o' E]. rewrite E. constructor; [|apply IH; auto; intros; apply Hm; right; auto].
      intros x Hx. apply tag_all_keys in Hx. destruct Hx as [o2 [H H2]].
      destruct (o_match R o' x) eqn:M; auto. exfalso.
      assert (Ho : In o (map fst (d_map d))) by (apply Hm; left; auto).
      assert (Ho2 : In o2 (map fst (d_map d))) by (apply Hm; right; auto).
      assert (K1 : o_ok R o').
      { apply (tag_ok inst o); auto; [intros C; apply F; exists o; auto | now apply (di_keys R d D)]. }
      assert (K2 : o_ok R x).
      { apply (tag_ok inst o2); auto; [intros C; apply F; exists o2; auto | now apply (di_keys R d D)]. }
      destruct (o_match_spec R o' x K1 K2 M) as [_ S]. destruct K1 as [_ [_ [_ [h Hh]]]].
      assert (o = o2) by (apply (tag_same inst d o o2 o' x h); auto; now apply S). subst o2.
      pose proof (H1 o H) as C. rewrite o_match_refl in C. discriminate. }
    apply G; auto. apply (di_unmatched R d D).
  Qed.

  (** Storing keeps the entries, in order, with the same values and counts *)
  Lemma tag_dist_spec : forall inst d, name_ok inst -> ~ dnames d inst -> dinv R d ->
    exists d', tag_dist R inst d = Ok d' /\ d_map d' = tag_all inst (d_map d) /\ d_count d' = d_count d /\ dinv R d'.
  Proof.
    intros inst d N F D. assert (U := tag_all_unmatched inst d N F D).
    unfold tag_dist. rewrite tag_loop_unmatched; [|exact U]. simpl rmap. eexists. split; [reflexivity|].
    assert (E : d_map (mk_dist R (tag_all inst (d_map d))) = tag_all inst (d_map d)).
    { simpl. apply (safe_add_all_id (o_match R) (tag_all inst (d_map d)) []). exact U. }
    split; [exact E|]. split.
    - simpl in E |- *. rewrite E, (di_count R d D). f_equal. 
      transitivity (map snd (map (fun oc => (o_value (fst oc), snd oc)) (tag_all inst (d_map d)))); [now rewrite map_map|].
      rewrite tag_all_values, map_map. auto.
    - apply mk_dist_inv.
      + intros a b h Ha Hb Sa Sb. apply tag_all_keys in Ha. apply tag_all_keys in Hb.
        destruct Ha as [a0 [Ha Ea]]. destruct Hb as [b0 [Hb Eb]].
        assert (a0 = b0) by (apply (tag_same inst d a0 b0 a b h); auto). congruence.
      + intros o Ho. apply tag_all_keys in Ho. destruct Ho as [o0 [Ho E0]].
        apply (tag_ok inst o0); auto; [intros C; apply F; exists o0; auto | now apply (di_keys R d D)].
      + intros [o c] H. apply tag_all_in in H. destruct H as [o0 [H _]]. now apply (di_nonneg R d D) in H.
  Qed.

  Lemma tag_result_map : forall inst d d', d_map d' = tag_all inst (d_map d) -> get_result_map R d' = get_result_map R d.
  Proof.
    intros inst d d' E. unfold get_result_map. rewrite E.
    assert (G : forall m acc, fold_left (fun acc oc => safe_add Z.eqb acc (o_value (fst oc)) (snd oc)) m acc =
                         safe_add_all Z.eqb (map (fun oc : outcome * Z => (o_value (fst oc), snd oc)) m) acc).
    { induction m as [|x m IH]; intros acc; auto. simpl. rewrite IH. reflexivity. }
    first [now rewrite tag_all_values | now rewrite !G, tag_all_values].
  Qed.

  Lemma tag_dnames : forall inst d d' n, d_map d' = tag_all inst (d_map d) -> dnames d' n -> n = inst \/ dnames d n.
  Proof.
    intros inst d d' n E [o [Ho Hn]]. rewrite E in Ho. apply tag_all_keys in Ho. destruct Ho as [o0 [Ho E0]].
    destruct (tag_names inst o0 o n E0 Hn); auto. right. exists o0. auto.
  Qed.

  Lemma tag_cntf : forall inst d d' h f, d_map d' = tag_all inst (d_map d) ->
    cntf R h d' f = f (h inst) * cntf R h d (fun x => if x =? h inst then 1 else 0).
  Proof.
    intros inst d d' h f E. unfold cntf, esum. rewrite E, <- zsum_map_mul_l. clear E d'.
    induction (d_map d) as [|[o c] m IH]; simpl; auto. destruct (tag_outcome_ok inst o) as [o' Eo]. rewrite Eo. simpl map.
    rewrite !zsum_cons, IH. f_equal. cbn [fst snd].
    assert (S := tag_sat inst o o' h Eo). rewrite <- !osatb_iff in S. destruct (tag_outcome_inv inst o o' Eo) as [V _].
    rewrite V. destruct (o_value o =? h inst) eqn:Ev.
    - apply Z.eqb_eq in Ev. rewrite Ev in *. destruct (osatb R h o) eqn:E1; destruct (osatb R h o') eqn:E2; try lia.
    - apply Z.eqb_neq in Ev. destruct (osatb R h o') eqn:E2; [destruct S as [S _]; destruct S; auto; congruence|].
      destruct (osatb R h o); lia.
  Qed.
End Facts.
