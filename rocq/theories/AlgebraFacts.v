(** * AlgebraFacts: the arithmetic of distributions *)
From Coq Require Import QArith Permutation.
From Verif Require Import Py PyFacts PyFloat Constraint ConstraintFacts Distribution DistFacts SpecDice DiceFacts TagFacts ExprFacts SpecAlgebra.
Local Open Scope Z_scope.

Section Facts.
  Context (R : Runtime).
  Notation outcome := (outcome R).
  Notation dist := (dist R).
  Notation omap := (list (outcome * Z)).

  (** ** When two outcomes can hold together *)
  Definition compatb (a b : outcome) : bool :=
    match combine_sets R (o_cs a) (o_cs b) with Ok cs => cset_is_possible R cs | Raise _ => false end.

  Lemma compatb_iff : forall a b, o_ok R a -> o_ok R b -> (compatb a b = true <-> exists h, osat R h a /\ osat R h b).
  Proof.
    intros a b Ha Hb. unfold compatb. destruct (combine_ok R (o_cs a) (o_cs b)) as [cs E]; [left; apply Ha|]. rewrite E. split.
    - intros P. destruct (possible_sat R cs) as [h H]; auto; [eapply combine_normal; exact E|].
      exists h. now apply (sat_combine R h _ _ _ E) in H.
    - intros [h H]. apply (sat_possible R h). now apply (sat_combine R h _ _ _ E).
  Qed.

  Lemma compatb_sym : forall a b, o_ok R a -> o_ok R b -> compatb a b = compatb b a.
  Proof.
    intros a b Ha Hb. apply eq_true_iff_eq. rewrite !compatb_iff by auto. split; intros [h [H1 H2]]; exists h; auto.
  Qed.

  Lemma combine_value : forall op a b, o_ok R a -> forall F : outcome -> Z,
    match o_combine R op a b with Ok o => if o_is_possible R o then F o else 0 | Raise _ => 0 end =
    if compatb a b then match o_combine R op a b with Ok o => F o | Raise _ => 0 end else 0.
  Proof.
    intros op a b Ha F. unfold compatb. destruct (o_combine R op a b) as [o|x] eqn:E.
    - apply o_combine_inv in E. destruct E as [_ E]. rewrite E. reflexivity.
    - destruct (combine_sets R (o_cs a) (o_cs b)) as [cs|]; auto. destruct (cset_is_possible R cs); auto.
  Qed.

  Lemma esum_add : forall (F G : outcome -> Z) m, esum R (fun o => F o + G o) m = esum R F m + esum R G m.
  Proof. intros. unfold esum. rewrite <- zsum_map_add. apply zsum_map_ext_in. intros; lia. Qed.
  Lemma esum_scale : forall k (F : outcome -> Z) m, esum R (fun o => k * F o) m = k * esum R F m.
  Proof. intros. unfold esum. rewrite <- zsum_map_mul_l. apply zsum_map_ext_in. intros; lia. Qed.
  Lemma esum_zero : forall m, esum R (fun _ => 0) m = 0.
  Proof. intros. unfold esum. apply zsum_map_zero. intros; lia. Qed.
  Lemma esum_swap : forall (F : outcome -> outcome -> Z) m1 m2,
    esum R (fun a => esum R (F a) m2) m1 = esum R (fun b => esum R (fun a => F a b) m1) m2.
  Proof.
    intros. unfold esum.
    transitivity (zsum (map (fun x => zsum (map (fun y => snd x * snd y * F (fst x) (fst y)) m2)) m1)).
    - apply zsum_map_ext_in. intros x _. rewrite <- zsum_map_mul_l. apply zsum_map_ext_in. intros; lia.
    - rewrite zsum_map_swap. apply zsum_map_ext_in. intros x _. rewrite <- zsum_map_mul_l. apply zsum_map_ext_in. intros; lia.
  Qed.

  (** ** Sums over a combination *)
  Lemma esum_binop : forall op a b d F, dinv R a -> dinv R b -> d_binop R op a b = Ok d ->
    esum R F (d_map d) = esum R (fun x => esum R (fun y => if compatb x y then
        match o_combine R op x y with Ok o => F o | Raise _ => 0 end else 0) (d_map b)) (d_map a).
  Proof.
    intros op a b d F [Ka Ca _ _ _] [Kb Cb _ _ _] E. apply d_binop_inv in E. destruct E as [Hok ->].
    rewrite esum_mk_dist by (auto using combos_ok, combos_coherent). rewrite esum_combos.
    rewrite (zsum_map_ext_in _ _ (fun p => (fun x y : outcome * Z => snd x * (snd y * (if compatb (fst x) (fst y) then
        match o_combine R op (fst x) (fst y) with Ok o => F o | Raise _ => 0 end else 0))) (fst p) (snd p))).
    - rewrite (pairs_zsum _ _ (fun x y : outcome * Z => snd x * (snd y * (if compatb (fst x) (fst y) then
        match o_combine R op (fst x) (fst y) with Ok o => F o | Raise _ => 0 end else 0)))).
      unfold esum. apply zsum_map_ext_in. intros [o1 c1] _. cbn [fst snd]. now rewrite zsum_map_mul_l.
    - intros [[o1 c1] [o2 c2]] Hp. apply in_pairs in Hp. cbn [fst snd]. destruct Hp as [H1 _]. rewrite combine_value; [lia|].
      apply Ka. apply (in_map fst) in H1. exact H1.
  Qed.

  Lemma vsum_binop : forall op a b d (f : Z -> Z), dinv R a -> dinv R b -> d_binop R op a b = Ok d ->
    esum R (fun o => f (o_value o)) (d_map d) = esum R (fun x => esum R (fun y => if compatb x y then
        fopt f (vop_apply op (o_value x) (o_value y)) else 0) (d_map b)) (d_map a).
  Proof.
    intros op a b d f Da Db E. rewrite (esum_binop op a b d _ Da Db E). apply d_binop_inv in E. destruct E as [Hok _].
    apply esum_ext. intros x Hx. apply esum_ext. intros y Hy. destruct (Hok x y Hx Hy) as [o Eo]. rewrite Eo.
    apply o_combine_inv in Eo. destruct Eo as [Ev _]. rewrite Ev. reflexivity.
  Qed.

  Lemma keys_binop : forall op a b d, dinv R a -> dinv R b -> d_binop R op a b = Ok d -> forall o,
    In o (map fst (d_map d)) <-> exists x y, In x (map fst (d_map a)) /\ In y (map fst (d_map b)) /\ o_combine R op x y = Ok o /\ compatb x y = true.
  Proof.
    intros op a b d [Ka Ca _ _ _] [Kb Cb _ _ _] E o. apply d_binop_inv in E. destruct E as [Hok ->].
    rewrite mk_dist_keys by (auto using combos_ok, combos_coherent).
    assert (P : forall x y, o_combine R op x y = Ok o -> o_is_possible R o = compatb x y).
    { intros x y H. apply o_combine_inv in H. destruct H as [_ H]. unfold compatb. now rewrite H. }
    split.
    - intros H. apply combos_key in H. destruct H as [x [y [Hx [Hy [Eo Po]]]]]. exists x, y. rewrite <- (P x y); auto.
    - intros [x [y [Hx [Hy [Eo Po]]]]]. apply in_map_iff in Hx. apply in_map_iff in Hy.
      destruct Hx as [[x' c1] [<- Hx]]. destruct Hy as [[y' c2] [<- Hy]]. cbn [fst] in *.
      apply in_map_iff. exists (o, c1 * c2). split; auto. apply in_combos. exists x', c1, y', c2.
      rewrite (P x' y'); auto. split; auto. apply in_pairs. auto.
  Qed.

  Lemma listed_binop_gen : forall op a b d, dinv R a -> dinv R b -> d_binop R op a b = Ok d -> forall v,
    listed R d v <-> exists x y, In x (map fst (d_map a)) /\ In y (map fst (d_map b)) /\
      vop_apply op (o_value x) (o_value y) = Ok v /\ compatb x y = true.
  Proof.
    intros op a b d Da Db E v. rewrite listed_values. split.
    - intros [o [Ho <-]]. rewrite (keys_binop op a b d Da Db E) in Ho. destruct Ho as [x [y [Hx [Hy [Eo C]]]]].
      exists x, y. apply o_combine_inv in Eo. destruct Eo. auto.
    - intros [x [y [Hx [Hy [Ev C]]]]]. pose proof (d_binop_inv R op a b d E) as [Hok _]. destruct (Hok x y Hx Hy) as [o Eo].
      exists o. split.
      + apply (keys_binop op a b d Da Db E). exists x, y. auto.
      + apply o_combine_inv in Eo. destruct Eo as [Ev' _]. congruence.
  Qed.

  (** ** Swapping the operands *)
  Lemma same_swap : forall op op' a b d d', dinv R a -> dinv R b -> (forall x y, vop_apply op x y = vop_apply op' y x) ->
    d_binop R op a b = Ok d -> d_binop R op' b a = Ok d' -> same_results R d d'.
  Proof.
    intros op op' a b d d' Da Db Hop E E' v. split.
    - rewrite (listed_binop_gen op a b d Da Db E), (listed_binop_gen op' b a d' Db Da E'). split.
      + intros [x [y [Hx [Hy [Ev C]]]]]. exists y, x. rewrite <- Hop, <- compatb_sym; auto; [apply (di_keys R a Da) | apply (di_keys R b Db)]; auto.
      + intros [y [x [Hy [Hx [Ev C]]]]]. exists x, y. rewrite Hop, compatb_sym; auto; [apply (di_keys R a Da) | apply (di_keys R b Db)]; auto.
    - rewrite !reported_esum.
      rewrite (vsum_binop op a b d (fun o => if o =? v then 1 else 0) Da Db E), (vsum_binop op' b a d' (fun o => if o =? v then 1 else 0) Db Da E').
      rewrite esum_swap. apply esum_ext. intros y Hy. apply esum_ext. intros x Hx. rewrite Hop, compatb_sym; auto; [apply (di_keys R a Da) | apply (di_keys R b Db)]; auto.
  Qed.

  Lemma binop_not_div : forall op a b, dinv R a -> op <> VDiv -> exists d, d_binop R op a b = Ok d.
  Proof. intros op a b Da H. destruct (d_binop_cases R op a b Da) as [X|[_ [X _]]]; [auto | congruence]. Qed.

  Lemma commutative_swaps : forall op, commutative op -> op <> VDiv /\ forall x y, vop_apply op x y = vop_apply op y x.
  Proof.
    intros op H. assert (E : forall x y : Z, (x =? y) = (y =? x)) by (intros; apply Z.eqb_sym).
    repeat (destruct H as [<-|H]; [split; [discriminate | intros x y; cbn; try rewrite (E x y); try rewrite andb_comm; try rewrite orb_comm; try reflexivity; f_equal; lia]|]).
    destruct H.
  Qed.

  (** ** Operands that share no variable *)
  Lemma mentions_dnames : forall d n, mentions R d n <-> dnames R d n.
  Proof.
    intros d n. unfold mentions, dnames. split.
    - intros [o [c [vs [Ho Hc]]]]. exists o. split; [apply in_map_iff; exists (o, c); auto|]. apply in_names. exists (CVar n vs). simpl. auto.
    - intros [o [Ho Hn]]. apply in_map_iff in Ho. destruct Ho as [[o' c] [<- Ho]]. apply in_names in Hn.
      destruct Hn as [[| |m vs] [H1 H2]]; try destruct H2 as [].
      + subst. exists o', c, vs. auto.
      + destruct H.
  Qed.

  Lemma no_shared_compat : forall a b x y, dinv R a -> dinv R b -> no_shared_variable R a b -> In x (map fst (d_map a)) ->
    In y (map fst (d_map b)) -> compatb x y = true.
  Proof.
    intros a b x y Da Db N Hx Hy. pose proof (di_keys R a Da x Hx) as Ox. pose proof (di_keys R b Db y Hy) as Oy.
    apply compatb_iff; auto. destruct Ox as [_ [_ [_ [h1 H1]]]]. destruct Oy as [_ [_ [_ [h2 H2]]]].
    set (nx := names R (o_cs x)).
    exists (fun n => if existsb (text_eqb n) nx then h1 n else h2 n). split.
    - apply (sat_ext R _ h1); auto. intros n Hn. replace (existsb (text_eqb n) nx) with true; auto. symmetry. apply existsb_exists.
      exists n. split; auto. apply text_eqb_refl.
    - apply (sat_ext R _ h2); auto. intros n Hn. destruct (existsb (text_eqb n) nx) eqn:E; auto. exfalso.
      apply existsb_exists in E. destruct E as [m [Hm E]]. apply text_eqb_eq in E. subst m.
      apply (N n); apply mentions_dnames; [exists x | exists y]; auto.
  Qed.

  Lemma vsum_disjoint : forall op a b d (f : Z -> Z), dinv R a -> dinv R b -> no_shared_variable R a b -> d_binop R op a b = Ok d ->
    esum R (fun o => f (o_value o)) (d_map d) = esum R (fun x => esum R (fun y => fopt f (vop_apply op (o_value x) (o_value y))) (d_map b)) (d_map a).
  Proof.
    intros op a b d f Da Db N E. rewrite (vsum_binop op a b d f Da Db E). apply esum_ext. intros x Hx. apply esum_ext. intros y Hy.
    now rewrite (no_shared_compat a b x y Da Db N Hx Hy).
  Qed.

  Lemma total_esum : forall d, total_ways R d = esum R (fun _ => 1) (d_map d).
  Proof. intros d. unfold total_ways. rewrite result_map_total. unfold esum. apply zsum_map_ext_in. intros; lia. Qed.

  Lemma sum_esum : forall d, sum_of_results R d = esum R (fun o => o_value o) (d_map d).
  Proof. intros d. unfold sum_of_results. rewrite <- (result_map_sum R (fun v => v)). apply zsum_map_ext_in. intros; lia. Qed.

  Lemma esum_const : forall k m, esum R (fun _ => k) m = k * esum R (fun _ => 1) m.
  Proof. intros. rewrite <- esum_scale. apply esum_ext. intros; lia. Qed.

  (** the operator is defined on all pairs of values of the operands *)
  Lemma binop_defined : forall op a b d x y, d_binop R op a b = Ok d -> In x (map fst (d_map a)) -> In y (map fst (d_map b)) ->
    exists v, vop_apply op (o_value x) (o_value y) = Ok v.
  Proof.
    intros op a b d x y E Hx Hy. apply d_binop_inv in E. destruct E as [Hok _]. destruct (Hok x y Hx Hy) as [o Eo].
    apply o_combine_inv in Eo. destruct Eo. eauto.
  Qed.

  Lemma total_binop : forall op a b d, dinv R a -> dinv R b -> no_shared_variable R a b -> d_binop R op a b = Ok d ->
    total_ways R d = total_ways R a * total_ways R b.
  Proof.
    intros op a b d Da Db N E. rewrite !total_esum. rewrite (vsum_disjoint op a b d (fun _ => 1) Da Db N E).
    rewrite Z.mul_comm, <- esum_const. apply esum_ext. intros x Hx. apply esum_ext. intros y Hy.
    destruct (binop_defined op a b d x y E Hx Hy) as [v Ev]. rewrite Ev. reflexivity.
  Qed.

  Lemma esum_le : forall F G m, nonneg R m -> (forall o, F o <= G o) -> esum R F m <= esum R G m.
  Proof.
    intros F G m N H. unfold esum. induction m as [|[o c] m IH]; [reflexivity|]. cbn [map fst snd]. rewrite !zsum_cons.
    assert (0 <= c) by (apply (N (o, c)); left; auto). specialize (H o).
    assert (nonneg R m) by (intros oc Hoc; apply N; right; auto). specialize (IH H1). nia.
  Qed.

  Lemma total_nonneg : forall d, dinv R d -> 0 <= total_ways R d.
  Proof.
    intros d D. rewrite total_esum. transitivity (esum R (fun _ => 0) (d_map d)); [rewrite esum_zero; lia|].
    apply esum_le; [apply D | intros; lia].
  Qed.

  Lemma total_binop_le : forall op a b d, dinv R a -> dinv R b -> d_binop R op a b = Ok d -> total_ways R d <= total_ways R a * total_ways R b.
  Proof.
    intros op a b d Da Db E. rewrite !total_esum. rewrite (vsum_binop op a b d (fun _ => 1) Da Db E).
    rewrite Z.mul_comm, <- esum_const. apply esum_le; [apply Da|]. intros x. apply esum_le; [apply Db|]. intros y.
    destruct (compatb x y); [|lia]. destruct (vop_apply op (o_value x) (o_value y)); cbn; lia.
  Qed.

  Lemma total_unop : forall f a, dinv R a -> total_ways R (d_unop R (o_map R f) a) = total_ways R a.
  Proof. intros f a Da. rewrite !total_esum. now rewrite (esum_unop R (fun _ => 1) f a Da). Qed.

  Lemma total_count : forall d, dinv R d -> total_ways R d = d_count d.
  Proof. intros d D. unfold total_ways. rewrite result_map_total. symmetry. apply D. Qed.

  (** ** Sums of results, for operands that share no variable *)
  Lemma sum_add : forall a b d, dinv R a -> dinv R b -> no_shared_variable R a b -> d_binop R VAdd a b = Ok d ->
    sum_of_results R d = sum_of_results R a * total_ways R b + total_ways R a * sum_of_results R b.
  Proof.
    intros a b d Da Db N E. rewrite !sum_esum, !total_esum. rewrite (vsum_disjoint VAdd a b d (fun v => v) Da Db N E). cbn [vop_apply fopt].
    rewrite (esum_ext R _ (fun x => esum R (fun _ => 1) (d_map b) * o_value x + esum R (fun y => o_value y) (d_map b) * 1)).
    - rewrite esum_add, !esum_scale. change (fun o : outcome => o_value o) with (@o_value R). lia.
    - intros x _. rewrite (esum_add (fun _ => o_value x) (fun y => o_value y)). rewrite (esum_const (o_value x)). lia.
  Qed.

  Lemma sum_sub : forall a b d, dinv R a -> dinv R b -> no_shared_variable R a b -> d_binop R VSub a b = Ok d ->
    sum_of_results R d = sum_of_results R a * total_ways R b - total_ways R a * sum_of_results R b.
  Proof.
    intros a b d Da Db N E. rewrite !sum_esum, !total_esum. rewrite (vsum_disjoint VSub a b d (fun v => v) Da Db N E). cbn [vop_apply fopt].
    rewrite (esum_ext R _ (fun x => esum R (fun _ => 1) (d_map b) * o_value x + (- esum R (fun y => o_value y) (d_map b)) * 1)).
    - rewrite esum_add, !esum_scale. change (fun o : outcome => o_value o) with (@o_value R). lia.
    - intros x _. rewrite (esum_ext R _ (fun y => o_value x + (-1) * o_value y)) by (intros; lia).
      rewrite (esum_add (fun _ => o_value x) (fun y => (-1) * o_value y)), (esum_scale (-1) (fun y => o_value y)). rewrite (esum_const (o_value x)). lia.
  Qed.

  Lemma sum_mul : forall a b d, dinv R a -> dinv R b -> no_shared_variable R a b -> d_binop R VMul a b = Ok d ->
    sum_of_results R d = sum_of_results R a * sum_of_results R b.
  Proof.
    intros a b d Da Db N E. rewrite !sum_esum. rewrite (vsum_disjoint VMul a b d (fun v => v) Da Db N E). cbn [vop_apply fopt].
    rewrite (esum_ext R _ (fun x => esum R (fun y => o_value y) (d_map b) * o_value x)).
    - rewrite esum_scale. change (fun o : outcome => o_value o) with (@o_value R). lia.
    - intros x _. rewrite (esum_scale (o_value x) (fun y => o_value y)). lia.
  Qed.

  (** Means *)
  Lemma inject_Z_nonzero : forall z, z <> 0 -> ~ (inject_Z z == 0)%Q.
  Proof. intros z H E. apply H. unfold Qeq in E. simpl in E. lia. Qed.

  Lemma mean_linear : forall a b, dinv R a -> dinv R b -> no_shared_variable R a b -> total_ways R a <> 0 -> total_ways R b <> 0 ->
    (exists d, d_binop R VAdd a b = Ok d /\ (mean R d == mean R a + mean R b)%Q) /\
    (exists d, d_binop R VSub a b = Ok d /\ (mean R d == mean R a - mean R b)%Q) /\
    (exists d, d_binop R VMul a b = Ok d /\ (mean R d == mean R a * mean R b)%Q).
  Proof.
    intros a b Da Db N Na Nb. apply inject_Z_nonzero in Na. apply inject_Z_nonzero in Nb.
    split; [|split]; [destruct (binop_not_div VAdd a b Da) as [d E] | destruct (binop_not_div VSub a b Da) as [d E] | destruct (binop_not_div VMul a b Da) as [d E]];
      try discriminate; exists d; split; auto; unfold mean; rewrite (total_binop _ a b d Da Db N E);
      [rewrite (sum_add a b d Da Db N E) | rewrite (sum_sub a b d Da Db N E) | rewrite (sum_mul a b d Da Db N E)];
      unfold Z.sub; repeat first [rewrite inject_Z_plus | rewrite inject_Z_opp | rewrite inject_Z_mult]; field; auto.
  Qed.

  (** ** Neutral elements *)
  Lemma constant_dist : forall k, exists z o, mk_dist_ints R [(k, 1)] = Ok z /\ d_map z = [(o, 1)] /\ o_value o = k /\ dinv R z /\ forall h, osat R h o.
  Proof.
    intros k. destruct (mk_dist_ints_ok R [(k, 1)]) as [s [Es E]]. eexists. exists {| o_value := k; o_cs := s |}.
    split; [exact E|]. split; [reflexivity|]. split; auto. split.
    - apply mk_dist_inv; [apply lifted_coherent | now apply lifted_ok | apply lifted_nonneg; intros vc [<-|[]]; simpl; lia].
    - intros h. now apply (create_sat R s h).
  Qed.

  Lemma constant_compat : forall x o, o_ok R x -> o_ok R o -> (forall h, osat R h o) -> compatb x o = true.
  Proof. intros x o Hx Ho H. apply compatb_iff; auto. destruct Hx as [_ [_ [_ [h Hh]]]]. exists h. auto. Qed.

  Lemma neutral : forall op a k, dinv R a -> (forall x, vop_apply op x k = Ok x) ->
    exists z d, mk_dist_ints R [(k, 1)] = Ok z /\ d_binop R op a z = Ok d /\ same_results R d a.
  Proof.
    intros op a k Da Hk. destruct (constant_dist k) as [z [o [Ez [Mz [Vo [Dz So]]]]]]. exists z.
    assert (exists d, d_binop R op a z = Ok d) as [d E].
    { destruct (d_binop_cases R op a z Da) as [X|[_ [-> [_ L]]]]; [auto|]. exfalso. apply listed_values in L. rewrite Mz in L.
      destruct L as [o' [[<-|[]] V]]. cbn [fst] in V. rewrite Vo in V. rewrite V in Hk. specialize (Hk 1). cbn in Hk. discriminate. }
    exists d. split; auto. split; auto.
    assert (Oo : o_ok R o) by (apply (di_keys R z Dz); rewrite Mz; left; auto).
    intros v. split.
    - rewrite (listed_binop_gen op a z d Da Dz E). rewrite Mz, listed_values. split.
      + intros [x [y [Hx [[<-|[]] [Ev C]]]]]. cbn [fst] in Ev. rewrite Vo, Hk in Ev. injection Ev as <-. eauto.
      + intros [x [Hx <-]]. exists x, o. split; auto. split; [left; auto|]. rewrite Vo. split; [apply Hk|].
        apply constant_compat; auto. now apply (di_keys R a Da).
    - rewrite !reported_esum. rewrite (vsum_binop op a z d (fun o => if o =? v then 1 else 0) Da Dz E). apply esum_ext. intros x Hx.
      rewrite Mz. unfold esum. cbn [map fst snd]. rewrite zsum_cons. change (zsum []) with 0. rewrite Vo, Hk.
      rewrite constant_compat; auto; [cbn [fopt]; lia|]. now apply (di_keys R a Da).
  Qed.

  (** ** NOT and ABS *)
  Lemma unop_listed : forall f a, dinv R a -> forall v, listed R (d_unop R (o_map R f) a) v <-> exists x, listed R a x /\ f x = v.
  Proof.
    intros f a [K C _ _ _] v. rewrite listed_values, d_unop_list.
    setoid_rewrite (mk_dist_keys R _ _ (unop_coherent R f _ C) (unop_ok R f _ K)). setoid_rewrite unop_keys. split.
    - intros [o [[o' [Ho ->]] <-]]. exists (o_value o'). split; auto. apply listed_values. eauto.
    - intros [x [L <-]]. apply listed_values in L. destruct L as [o [Ho <-]]. exists (o_map R f o). split; eauto.
  Qed.

  Lemma unop_reported : forall f a, dinv R a -> forall v, reported R (d_unop R (o_map R f) a) v = esum R (fun o => if f (o_value o) =? v then 1 else 0) (d_map a).
  Proof. intros f a Da v. rewrite reported_esum. now rewrite esum_unop. Qed.

  Lemma unop_same : forall f g a, dinv R a -> (forall x, f (g x) = g x) -> same_results R (d_unop R (o_map R f) (d_unop R (o_map R g) a)) (d_unop R (o_map R g) a).
  Proof.
    intros f g a Da H v. split.
    - rewrite !unop_listed by auto using d_unop_inv. setoid_rewrite unop_listed; auto. split.
      + intros [x [[y [L <-]] <-]]. exists y. auto.
      + intros [y [L <-]]. exists (g y). split; eauto.
    - rewrite !unop_reported by auto using d_unop_inv. rewrite esum_unop by auto. apply esum_ext. intros o _. cbn. now rewrite H.
  Qed.

  Lemma unop_three : forall f a, dinv R a -> (forall x, f (f (f x)) = f x) ->
    same_results R (d_unop R (o_map R f) (d_unop R (o_map R f) (d_unop R (o_map R f) a))) (d_unop R (o_map R f) a).
  Proof.
    intros f a Da H v. split.
    - rewrite !unop_listed by auto using d_unop_inv. setoid_rewrite unop_listed; auto using d_unop_inv. setoid_rewrite unop_listed; auto. split.
      + intros [x [[y [[z [L <-]] <-]] <-]]. exists z. auto.
      + intros [y [L <-]]. exists (f (f y)). split; [|auto]. exists (f y). split; eauto.
    - rewrite !unop_reported by auto using d_unop_inv. rewrite !esum_unop by auto using d_unop_inv. apply esum_ext. intros o _. cbn. now rewrite H.
  Qed.

  (** ** Moving brackets *)
  Definition compat3 (x y z : outcome) : Prop := exists h, osat R h x /\ osat R h y /\ osat R h z.

  Lemma compat_combined : forall op x y z o, o_ok R x -> o_ok R y -> o_ok R z -> o_combine R op x y = Ok o ->
    ((compatb x y = true /\ compatb o z = true) <-> compat3 x y z).
  Proof.
    intros op x y z o Hx Hy Hz E. assert (P : o_is_possible R o = compatb x y).
    { pose proof (o_combine_inv R _ _ _ _ E) as [_ H]. unfold compatb. now rewrite H. }
    split.
    - intros [H1 H2]. rewrite <- P in H1. apply compatb_iff in H2; auto; [|apply (o_combine_ok R op x y); auto].
      destruct H2 as [h [H2 H3]]. apply (o_combine_sat R _ _ _ _ h E) in H2. exists h. tauto.
    - intros [h [H1 [H2 H3]]]. assert (C : compatb x y = true) by (apply compatb_iff; eauto). split; auto.
      apply compatb_iff; auto; [apply (o_combine_ok R op x y); auto; congruence|]. exists h. split; auto. apply (o_combine_sat R _ _ _ _ h E). auto.
  Qed.

  Lemma compat_combined' : forall op x y z o, o_ok R x -> o_ok R y -> o_ok R z -> o_combine R op y z = Ok o ->
    ((compatb y z = true /\ compatb x o = true) <-> compat3 x y z).
  Proof.
    intros op x y z o Hx Hy Hz E. assert (P : o_is_possible R o = compatb y z).
    { pose proof (o_combine_inv R _ _ _ _ E) as [_ H]. unfold compatb. now rewrite H. }
    split.
    - intros [H1 H2]. rewrite <- P in H1. apply compatb_iff in H2; auto; [|apply (o_combine_ok R op y z); auto].
      destruct H2 as [h [H2 H3]]. apply (o_combine_sat R _ _ _ _ h E) in H3. exists h. tauto.
    - intros [h [H1 [H2 H3]]]. assert (C : compatb y z = true) by (apply compatb_iff; eauto). split; auto.
      apply compatb_iff; auto; [apply (o_combine_ok R op y z); auto; congruence|]. exists h. split; auto. apply (o_combine_sat R _ _ _ _ h E). auto.
  Qed.

  Lemma assoc_value : forall op, associative op -> op <> VDiv /\ exists g, (forall x y, vop_apply op x y = Ok (g x y)) /\ (forall x y z, g (g x y) z = g x (g y z)).
  Proof.
    intros op H.
    assert (L : forall x y z, 
      binary_to_int (value_to_binary_value (binary_to_int (value_to_binary_value x && value_to_binary_value y)) && value_to_binary_value z) =
      binary_to_int (value_to_binary_value x && value_to_binary_value (binary_to_int (value_to_binary_value y && value_to_binary_value z))) /\
      binary_to_int (value_to_binary_value (binary_to_int (value_to_binary_value x || value_to_binary_value y)) || value_to_binary_value z) =
      binary_to_int (value_to_binary_value x || value_to_binary_value (binary_to_int (value_to_binary_value y || value_to_binary_value z)))).
    { intros x y z. destruct (value_to_binary_value x), (value_to_binary_value y), (value_to_binary_value z); split; reflexivity. }
    repeat (destruct H as [<-|H]; [split; [discriminate|]; eexists; split; [reflexivity | cbv beta; intros x y z; try apply L; lia]|]). destruct H.
  Qed.

  Lemma same_assoc : forall op a b c ab bc l r, dinv R a -> dinv R b -> dinv R c -> associative op ->
    d_binop R op a b = Ok ab -> d_binop R op b c = Ok bc -> d_binop R op ab c = Ok l -> d_binop R op a bc = Ok r -> same_results R l r.
  Proof.
    intros op a b c ab bc l r Da Db Dc HA Eab Ebc El Er. destruct (assoc_value op HA) as [Hdiv [g [G A]]].
    assert (Dab := d_binop_inv_preserved R op a b ab Da Db Eab). assert (Dbc := d_binop_inv_preserved R op b c bc Db Dc Ebc).
    assert (T : forall x y, o_ok R x -> exists o, o_combine R op x y = Ok o /\ o_value o = g (o_value x) (o_value y)).
    { intros x y Hx. destruct (o_combine_total R op x y Hx) as [Eq [cs Ecs]]. rewrite Eq, G, Ecs. eexists. split; reflexivity. }
    intros v. split.
    - rewrite (listed_binop_gen op ab c l Dab Dc El), (listed_binop_gen op a bc r Da Dbc Er). split.
      + intros [o [z [Ho [Hz [Ev C]]]]]. apply (keys_binop op a b ab Da Db Eab) in Ho. destruct Ho as [x [y [Hx [Hy [Eo Co]]]]].
        assert (Ox := di_keys R a Da x Hx). assert (Oy := di_keys R b Db y Hy). assert (Oz := di_keys R c Dc z Hz).
        destruct (T y z Oy) as [o' [Eo' Vo']]. exists x, o'.
        assert (C3 := proj1 (compat_combined op x y z o Ox Oy Oz Eo) (conj Co C)). apply (compat_combined' op x y z o' Ox Oy Oz Eo') in C3.
        split; auto. split; [apply (keys_binop op b c bc Db Dc Ebc); exists y, z; tauto|]. split; [|tauto].
        apply o_combine_inv in Eo. destruct Eo as [Vo _]. rewrite G in *. rewrite Vo'. injection Vo as Vo. rewrite <- Vo in Ev. rewrite <- A. exact Ev.
      + intros [x [o' [Hx [Ho [Ev C]]]]]. apply (keys_binop op b c bc Db Dc Ebc) in Ho. destruct Ho as [y [z [Hy [Hz [Eo' Co]]]]].
        assert (Ox := di_keys R a Da x Hx). assert (Oy := di_keys R b Db y Hy). assert (Oz := di_keys R c Dc z Hz).
        destruct (T x y Ox) as [o [Eo Vo]]. exists o, z.
        assert (C3 := proj1 (compat_combined' op x y z o' Ox Oy Oz Eo') (conj Co C)). apply (compat_combined op x y z o Ox Oy Oz Eo) in C3.
        split; [apply (keys_binop op a b ab Da Db Eab); exists x, y; tauto|]. split; auto. split; [|tauto].
        apply o_combine_inv in Eo'. destruct Eo' as [Vo' _]. rewrite G in *. rewrite Vo. injection Vo' as Vo'. rewrite <- Vo' in Ev. rewrite A. exact Ev.
    - rewrite !reported_esum.
      rewrite (vsum_binop op ab c l (fun o => if o =? v then 1 else 0) Dab Dc El), (vsum_binop op a bc r (fun o => if o =? v then 1 else 0) Da Dbc Er).
      rewrite (esum_binop op a b ab _ Da Db Eab). apply esum_ext. intros x Hx.
      rewrite (esum_binop op b c bc (fun o' => if compatb x o' then fopt (fun o => if o =? v then 1 else 0) (vop_apply op (o_value x) (o_value o')) else 0) Db Dc Ebc).
      apply esum_ext. intros y Hy.
      assert (Ox := di_keys R a Da x Hx). assert (Oy := di_keys R b Db y Hy). destruct (T x y Ox) as [o [Eo Vo]]. rewrite Eo.
      transitivity (esum R (fun z => if compatb x y then (if compatb o z then fopt (fun o => if o =? v then 1 else 0) (vop_apply op (o_value o) (o_value z)) else 0) else 0) (d_map c)).
      { destruct (compatb x y); auto. now rewrite esum_zero. }
      apply esum_ext. intros z Hz. assert (Oz := di_keys R c Dc z Hz). destruct (T y z Oy) as [o' [Eo' Vo']]. rewrite Eo'.
      rewrite !G, Vo, Vo', A. cbn [fopt].
      assert (C1 := compat_combined op x y z o Ox Oy Oz Eo). assert (C2 := compat_combined' op x y z o' Ox Oy Oz Eo').
      destruct (compatb x y), (compatb o z), (compatb y z), (compatb x o'); auto; exfalso; intuition discriminate.
  Qed.
End Facts.
