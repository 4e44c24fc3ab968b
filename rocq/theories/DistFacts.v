(** * DistFacts: lemmas about Distribution.v: outcomes, distributions and their combinations *)
From Coq Require Import Permutation.
From Verif Require Import Py PyFacts PyFloat Constraint ConstraintFacts Distribution.

Section Facts.
  Context (R : Runtime).
  Notation Cs := (rt_c R).
  Notation outcome := (outcome R).
  Notation dist := (dist R).
  Notation omap := (list (outcome * Z)).

  (** ** Outcomes *)
  Definition osat (h : text -> Z) (o : outcome) : Prop := sat R h (o_cs o).
  Definition osatb (h : text -> Z) (o : outcome) : bool := satb R h (o_cs o).

  Lemma osatb_iff : forall h o, osatb h o = true <-> osat h o.
  Proof. intros. apply satb_iff. Qed.

  (** An outcome that the code can produce: printable names, merged constraints, not impossible *)
  Definition o_ok (o : outcome) : Prop :=
    set_ok R (o_cs o) /\ normal R (o_cs o) /\ cs_iter Cs (o_cs o) <> [] /\ exists h, osat h o.

  Lemma o_match_refl : forall o, o_match R o o = true.
  Proof.
    intros. unfold o_match, o_eqb, cset_eqb. now rewrite !Z.eqb_refl, text_eqb_refl.
  Qed.

  Lemma o_match_spec : forall a b, o_ok a -> o_ok b -> o_match R a b = true ->
    o_value a = o_value b /\ forall h, osat h a <-> osat h b.
  Proof.
    intros a b [Ha _] [Hb _] E. unfold o_match, o_eqb in E. rewrite !andb_true_iff in E.
    destruct E as [_ [E1 E2]]. apply Z.eqb_eq in E1. split; auto.
    intros h. now apply cset_eqb_sat.
  Qed.

  (** ** Coherent maps: outcomes that can hold together carry the same constraint set object *)
  Definition coherent (m : omap) : Prop :=
    forall a b h, In a (map fst m) -> In b (map fst m) -> osat h a -> osat h b -> o_cs a = o_cs b.
  Definition keys_ok (m : omap) : Prop := forall o, In o (map fst m) -> o_ok o.
  Definition nonneg (m : omap) : Prop := forall oc, In oc m -> 0 <= snd oc.

  Lemma match_eq : forall m a b, coherent m -> keys_ok m -> In a (map fst m) -> In b (map fst m) ->
    o_match R a b = true -> a = b.
  Proof.
    intros m a b C K Ha Hb E. destruct (o_match_spec a b) as [E1 E2]; auto.
    destruct (K a Ha) as [_ [_ [_ [h Hh]]]].
    assert (o_cs a = o_cs b) by (eapply C; eauto; now apply E2).
    destruct a, b; simpl in *; congruence.
  Qed.

  Lemma coherent_sub : forall m m', (forall o, In o (map fst m') -> In o (map fst m)) -> coherent m -> coherent m'.
  Proof. intros m m' H C a b h Ha Hb. apply C; auto. Qed.
  Lemma keys_ok_sub : forall m m', (forall o, In o (map fst m') -> In o (map fst m)) -> keys_ok m -> keys_ok m'.
  Proof. intros m m' H C a Ha. apply C; auto. Qed.

  (** ** The invariant of distributions *)
  Record dinv (d : dist) : Prop := {
    di_keys : keys_ok (d_map d);
    di_coherent : coherent (d_map d);
    di_unmatched : unmatched (o_match R) (d_map d);
    di_nonneg : nonneg (d_map d);
    di_count : d_count d = zsum (map snd (d_map d))
  }.

  Lemma saa_keys : forall m, coherent m -> keys_ok m -> forall o,
    In o (map fst (safe_add_all (o_match R) m [])) <-> In o (map fst m).
  Proof.
    intros m C K o. split.
    - intros H. apply safe_add_all_keys_in in H. destruct H as [H|H]; [destruct H | auto].
    - intros H. destruct (safe_add_all_keys_new (o_match R) m [] o H) as [x [H1 H2]].
      destruct H2 as [->|H2]; auto. replace o with x; auto.
      apply (match_eq m); auto. apply safe_add_all_keys_in in H1. destruct H1 as [H1|H1]; [destruct H1 | auto].
  Qed.

  Lemma saa_wsum : forall m P, coherent m -> keys_ok m -> wsum P (safe_add_all (o_match R) m []) = wsum P m.
  Proof.
    intros m P C K. rewrite wsum_safe_add_all; auto.
    intros k k' Hk Hk' E. simpl in Hk. rewrite (match_eq m k k'); auto.
  Qed.

  Lemma saa_nonneg : forall m, nonneg m -> nonneg (safe_add_all (o_match R) m []).
  Proof. intros m H oc. refine (safe_add_all_vals_nonneg (o_match R) m [] _ H oc). intros kv []. Qed.

  Lemma saa_unmatched : forall m, unmatched (o_match R) (safe_add_all (o_match R) m []).
  Proof. intros. apply safe_add_all_unmatched. constructor. Qed.

  Lemma mk_dist_inv : forall m, coherent m -> keys_ok m -> nonneg m -> dinv (mk_dist R m).
  Proof.
    intros m C K N. constructor; simpl.
    - intros o Ho. apply K. now rewrite saa_keys in Ho.
    - apply (coherent_sub m); auto. intros o Ho. now rewrite saa_keys in Ho.
    - apply saa_unmatched.
    - now apply saa_nonneg.
    - reflexivity.
  Qed.

  Lemma mk_dist_wsum : forall m P, coherent m -> keys_ok m -> wsum P (d_map (mk_dist R m)) = wsum P m.
  Proof. intros. now apply saa_wsum. Qed.

  Lemma mk_dist_keys : forall m o, coherent m -> keys_ok m -> (In o (map fst (d_map (mk_dist R m))) <-> In o (map fst m)).
  Proof. intros. now apply saa_keys. Qed.

  (** mk_dist on a map that was already built as a dictionary *)
  Lemma mk_dist_saa : forall m, mk_dist R (safe_add_all (o_match R) m []) = mk_dist R m.
  Proof.
    intros. unfold mk_dist. rewrite (safe_add_all_id _ (safe_add_all (o_match R) m [])); auto.
    simpl. apply saa_unmatched.
  Qed.

  (** ** Sums over the entries of a distribution *)
  Definition esum (F : outcome -> Z) (m : omap) : Z := zsum (map (fun oc => snd oc * F (fst oc)) m).

  Lemma esum_wsum : forall P m, wsum P m = esum (fun o => if P o then 1 else 0) m.
  Proof.
    intros. unfold esum. induction m as [|[o c] m IH]; simpl; auto. rewrite IH. destruct (P o); lia.
  Qed.

  Lemma esum_ext : forall F G m, (forall o, In o (map fst m) -> F o = G o) -> esum F m = esum G m.
  Proof.
    intros. unfold esum. apply zsum_map_ext_in. intros [o c] Ho. simpl. rewrite H; auto.
    apply (in_map fst) in Ho. auto.
  Qed.

  Lemma esum_safe_add : forall F d k v, (forall k', In k' (map fst d) -> o_match R k' k = true -> F k' = F k) ->
    esum F (safe_add (o_match R) d k v) = esum F d + v * F k.
  Proof.
    unfold esum. induction d as [|[k' v'] d IH]; simpl; intros k v H; [lia|].
    destruct (o_match R k' k) eqn:E; simpl.
    - rewrite (H k'); auto. lia.
    - rewrite IH; auto. lia.
  Qed.

  Lemma esum_saa_gen : forall F l d,
    (forall k k', In k (map fst d ++ map fst l) -> In k' (map fst l) -> o_match R k k' = true -> F k = F k') ->
    esum F (safe_add_all (o_match R) l d) = esum F d + esum F l.
  Proof.
    induction l as [|[k v] l IH]; intros d H.
    - simpl. unfold esum. simpl. lia.
    - rewrite safe_add_all_cons, IH.
      + rewrite esum_safe_add.
        * unfold esum. simpl. lia.
        * intros k' Hk'. apply H; [apply in_or_app; auto | left; auto].
      + intros k1 k2 H1 H2. apply H; [|right; auto].
        apply in_app_or in H1. apply in_or_app. simpl. destruct H1 as [H1|H1]; auto.
        apply safe_add_keys_in in H1. intuition.
  Qed.

  Lemma esum_saa : forall F m, coherent m -> keys_ok m -> esum F (safe_add_all (o_match R) m []) = esum F m.
  Proof.
    intros F m C K. rewrite esum_saa_gen; [reflexivity|].
    intros k k' Hk Hk' E. simpl in Hk. rewrite (match_eq m k k'); auto.
  Qed.

  Lemma esum_mk_dist : forall F m, coherent m -> keys_ok m -> esum F (d_map (mk_dist R m)) = esum F m.
  Proof. intros. now apply esum_saa. Qed.

  (** ** Combining two outcomes *)
  Lemma o_combine_inv : forall op a b o, o_combine R op a b = Ok o ->
    vop_apply op (o_value a) (o_value b) = Ok (o_value o) /\ combine_sets R (o_cs a) (o_cs b) = Ok (o_cs o).
  Proof.
    intros op a b o E. unfold o_combine in E.
    destruct (vop_apply op (o_value a) (o_value b)) as [v|]; [|discriminate]. simpl in E.
    destruct (combine_sets R (o_cs a) (o_cs b)) as [cs|]; [|discriminate]. simpl in E.
    injection E as <-. auto.
  Qed.

  Lemma o_combine_total : forall op a b, o_ok a ->
    o_combine R op a b = match vop_apply op (o_value a) (o_value b) with
                         | Ok v => match combine_sets R (o_cs a) (o_cs b) with
                                   | Ok cs => Ok {| o_value := v; o_cs := cs |} | Raise e => Raise e end
                         | Raise e => Raise e end
    /\ exists cs, combine_sets R (o_cs a) (o_cs b) = Ok cs.
  Proof.
    intros op a b [_ [_ [N _]]]. split.
    - unfold o_combine. destruct (vop_apply op (o_value a) (o_value b)); simpl; auto.
    - apply combine_ok. auto.
  Qed.

  Lemma o_combine_sat : forall op a b o h, o_combine R op a b = Ok o -> (osat h o <-> osat h a /\ osat h b).
  Proof. intros op a b o h E. apply o_combine_inv in E. destruct E as [_ E]. now apply sat_combine. Qed.

  Lemma o_combine_ok : forall op a b o, o_ok a -> o_ok b -> o_combine R op a b = Ok o -> o_is_possible R o = true -> o_ok o.
  Proof.
    intros op a b o [Ha _] [Hb _] E P. apply o_combine_inv in E. destruct E as [_ E].
    assert (N : normal R (o_cs o)) by (eapply combine_normal; eauto).
    split; [|split; [|split]]; auto.
    - intros n Hn. eapply names_combine in Hn; eauto. destruct Hn; auto.
    - eapply combine_nonempty; eauto.
    - now apply possible_sat.
  Qed.

  (** The list of possible combinations, before they are collected in a dictionary *)
  Definition combos (op : vop) (ps : list ((outcome * Z) * (outcome * Z))) : omap :=
    flat_map (fun p => match o_combine R op (fst (fst p)) (fst (snd p)) with
                       | Ok o => if o_is_possible R o then [(o, snd (fst p) * snd (snd p))] else []
                       | Raise _ => []
                       end) ps.

  Lemma combine_loop_ok : forall op ps acc,
    (forall p, In p ps -> exists o, o_combine R op (fst (fst p)) (fst (snd p)) = Ok o) ->
    combine_loop R op ps acc = Ok (safe_add_all (o_match R) (combos op ps) acc).
  Proof.
    induction ps as [|[[o1 c1] [o2 c2]] ps IH]; intros acc H; [reflexivity|].
    simpl. destruct (H ((o1, c1), (o2, c2)) (or_introl eq_refl)) as [o E]. simpl in E. rewrite E. simpl.
    rewrite IH by (intros; apply H; right; auto).
    destruct (o_is_possible R o); reflexivity.
  Qed.

  Lemma combine_loop_inv : forall op ps acc m, combine_loop R op ps acc = Ok m ->
    (forall p, In p ps -> exists o, o_combine R op (fst (fst p)) (fst (snd p)) = Ok o).
  Proof.
    induction ps as [|[[o1 c1] [o2 c2]] ps IH]; intros acc m E p Hp; [destruct Hp|].
    simpl in E. destruct (o_combine R op o1 o2) as [o|] eqn:Eo; [|discriminate]. simpl in E.
    destruct Hp as [<-|Hp]; [simpl; eauto|]. eapply IH; eauto.
  Qed.

  Lemma combine_loop_raise : forall op ps acc e, combine_loop R op ps acc = Raise e ->
    exists p, In p ps /\ o_combine R op (fst (fst p)) (fst (snd p)) = Raise e.
  Proof.
    induction ps as [|[[o1 c1] [o2 c2]] ps IH]; intros acc e E; [discriminate|].
    simpl in E. destruct (o_combine R op o1 o2) as [o|e'] eqn:Eo; simpl in E.
    - apply IH in E. destruct E as [p [H1 H2]]. exists p. split; [right; auto | auto].
    - injection E as ->. eexists. split; [left; eauto | auto].
  Qed.

  Lemma d_binop_inv : forall op a b d, d_binop R op a b = Ok d ->
    (forall o1 o2, In o1 (map fst (d_map a)) -> In o2 (map fst (d_map b)) -> exists o, o_combine R op o1 o2 = Ok o) /\
    d = mk_dist R (combos op (pairs (d_map a) (d_map b))).
  Proof.
    intros op a b d E. unfold d_binop, combine_distributions in E.
    destruct (combine_loop R op (pairs (d_map a) (d_map b)) []) as [m|] eqn:Em; [|discriminate].
    simpl in E. injection E as <-.
    pose proof (combine_loop_inv _ _ _ _ Em) as H. split.
    - intros o1 o2 H1 H2. apply in_map_iff in H1. apply in_map_iff in H2.
      destruct H1 as [[o1' c1] [<- H1]]. destruct H2 as [[o2' c2] [<- H2]].
      apply (H ((o1', c1), (o2', c2))). apply in_pairs. auto.
    - rewrite combine_loop_ok in Em by auto. injection Em as <-. apply mk_dist_saa.
  Qed.

  Lemma in_combos : forall op ps o c, In (o, c) (combos op ps) <->
    exists o1 c1 o2 c2, In ((o1, c1), (o2, c2)) ps /\ o_combine R op o1 o2 = Ok o /\ o_is_possible R o = true /\ c = c1 * c2.
  Proof.
    intros. unfold combos. rewrite in_flat_map. split.
    - intros [[[o1 c1] [o2 c2]] [Hp H]]. simpl in H. destruct (o_combine R op o1 o2) as [o'|] eqn:E; [|destruct H].
      destruct (o_is_possible R o') eqn:P; [|destruct H]. destruct H as [H|[]]. injection H as <- <-.
      exists o1, c1, o2, c2. auto.
    - intros [o1 [c1 [o2 [c2 [Hp [E [P ->]]]]]]]. exists ((o1, c1), (o2, c2)). split; auto. simpl.
      rewrite E, P. left. auto.
  Qed.

  Lemma combos_key : forall op a b o, In o (map fst (combos op (pairs a b))) ->
    exists o1 o2, In o1 (map fst a) /\ In o2 (map fst b) /\ o_combine R op o1 o2 = Ok o /\ o_is_possible R o = true.
  Proof.
    intros op a b o H. apply in_map_iff in H. destruct H as [[o' c] [<- H]]. apply in_combos in H.
    destruct H as [o1 [c1 [o2 [c2 [Hp [E [P _]]]]]]]. apply in_pairs in Hp. destruct Hp as [H1 H2].
    apply (in_map fst) in H1. apply (in_map fst) in H2. exists o1, o2. auto.
  Qed.

  Lemma combos_ok : forall op a b, keys_ok a -> keys_ok b -> keys_ok (combos op (pairs a b)).
  Proof.
    intros op a b Ka Kb o Ho. apply combos_key in Ho. destruct Ho as [o1 [o2 [H1 [H2 [E P]]]]].
    apply (o_combine_ok op o1 o2); auto.
  Qed.

  Lemma combos_coherent : forall op a b, coherent a -> coherent b -> coherent (combos op (pairs a b)).
  Proof.
    intros op a b Ca Cb x y h Hx Hy Sx Sy. apply combos_key in Hx. apply combos_key in Hy.
    destruct Hx as [x1 [x2 [Hx1 [Hx2 [Ex _]]]]]. destruct Hy as [y1 [y2 [Hy1 [Hy2 [Ey _]]]]].
    apply (o_combine_sat _ _ _ _ h Ex) in Sx. apply (o_combine_sat _ _ _ _ h Ey) in Sy.
    assert (E1 : o_cs x1 = o_cs y1) by (apply (Ca x1 y1 h); tauto).
    assert (E2 : o_cs x2 = o_cs y2) by (apply (Cb x2 y2 h); tauto).
    apply o_combine_inv in Ex. apply o_combine_inv in Ey. destruct Ex as [_ Ex]. destruct Ey as [_ Ey].
    rewrite E1, E2 in Ex. congruence.
  Qed.

  Lemma combos_nonneg : forall op a b, nonneg a -> nonneg b -> nonneg (combos op (pairs a b)).
  Proof.
    intros op a b Na Nb [o c] H. apply in_combos in H. destruct H as [o1 [c1 [o2 [c2 [Hp [E [P ->]]]]]]].
    apply in_pairs in Hp. destruct Hp as [H1 H2]. apply Na in H1. apply Nb in H2. simpl in *. nia.
  Qed.

  Lemma d_binop_inv_preserved : forall op a b d, dinv a -> dinv b -> d_binop R op a b = Ok d -> dinv d.
  Proof.
    intros op a b d [Ka Ca Ua Na _] [Kb Cb Ub Nb _] E. apply d_binop_inv in E. destruct E as [_ ->].
    apply mk_dist_inv; auto using combos_ok, combos_coherent, combos_nonneg.
  Qed.

  (** The sum of a function over a combination *)
  Lemma esum_combos : forall F op ps,
    esum F (combos op ps) =
    zsum (map (fun p => snd (fst p) * snd (snd p) *
                        match o_combine R op (fst (fst p)) (fst (snd p)) with
                        | Ok o => if o_is_possible R o then F o else 0
                        | Raise _ => 0
                        end) ps).
  Proof.
    intros F op. unfold esum, combos. induction ps as [|[[o1 c1] [o2 c2]] ps IH]; [reflexivity|].
    cbn [flat_map map fst snd]. rewrite map_app, zsum_app, IH.
    rewrite zsum_cons.
    destruct (o_combine R op o1 o2) as [o|]; [destruct (o_is_possible R o)|]; cbn [map fst snd]; rewrite ?zsum_cons;
      change (zsum []) with 0; lia.
  Qed.

  (** ** Counting the outcomes that a history of the variables allows *)
  Definition cntf (h : text -> Z) (d : dist) (f : Z -> Z) : Z :=
    esum (fun o => if osatb h o then f (o_value o) else 0) (d_map d).

  Lemma osatb_combine : forall op a b o h, o_combine R op a b = Ok o -> osatb h o = osatb h a && osatb h b.
  Proof.
    intros op a b o h E. apply eq_true_iff_eq. rewrite andb_true_iff, !osatb_iff. now apply (o_combine_sat op).
  Qed.

  Lemma osatb_possible : forall h o, osatb h o = true -> o_is_possible R o = true.
  Proof. intros h o H. apply osatb_iff in H. eapply sat_possible; eauto. Qed.

  Definition fopt (f : Z -> Z) (r : res Z) : Z := match r with Ok x => f x | Raise _ => 0 end.

  Lemma cntf_binop : forall op a b d h f, dinv a -> dinv b -> d_binop R op a b = Ok d ->
    cntf h d f = cntf h a (fun x => cntf h b (fun y => fopt f (vop_apply op x y))).
  Proof.
    intros op a b d h f [Ka Ca _ _ _] [Kb Cb _ _ _] E. apply d_binop_inv in E. destruct E as [Hok ->].
    unfold cntf. rewrite esum_mk_dist by (auto using combos_ok, combos_coherent).
    rewrite esum_combos.
    transitivity (zsum (map (fun p => (fun x y : outcome * Z => snd x * (if osatb h (fst x) then
        snd y * (if osatb h (fst y) then fopt f (vop_apply op (o_value (fst x)) (o_value (fst y))) else 0) else 0))
        (fst p) (snd p)) (pairs (d_map a) (d_map b)))).
    - apply zsum_map_ext_in. intros [[o1 c1] [o2 c2]] Hp. apply in_pairs in Hp. cbn [fst snd].
      destruct Hp as [H1 H2]. apply (in_map fst) in H1. apply (in_map fst) in H2. simpl in H1, H2.
      destruct (Hok o1 o2 H1 H2) as [o Eo]. rewrite Eo.
      rewrite (osatb_combine op o1 o2 o h Eo).
      pose proof (osatb_combine op o1 o2 o h Eo) as Es.
      apply o_combine_inv in Eo. destruct Eo as [Ev _]. rewrite Ev. simpl fopt.
      destruct (osatb h o1) eqn:E1; destruct (osatb h o2) eqn:E2; simpl in *;
        try (destruct (o_is_possible R o); lia).
      rewrite (osatb_possible h o Es). lia.
    - rewrite (pairs_zsum _ _ (fun x y : outcome * Z => snd x * (if osatb h (fst x) then
        snd y * (if osatb h (fst y) then fopt f (vop_apply op (o_value (fst x)) (o_value (fst y))) else 0) else 0))).
      unfold esum. apply zsum_map_ext_in. intros [o1 c1] H1. cbn [fst snd].
      destruct (osatb h o1).
      + now rewrite zsum_map_mul_l.
      + rewrite zsum_map_mul_l. f_equal. apply zsum_map_zero. auto.
  Qed.

  Lemma cntf_ext : forall h d f g, (forall x, f x = g x) -> cntf h d f = cntf h d g.
  Proof. intros. unfold cntf. apply esum_ext. intros. destruct (osatb h o); auto. Qed.

  Lemma cntf_scale : forall h d f k, cntf h d (fun x => k * f x) = k * cntf h d f.
  Proof.
    intros. unfold cntf, esum. rewrite <- zsum_map_mul_l. apply zsum_map_ext_in. intros. destruct (osatb h (fst x)); lia.
  Qed.

  (** ** Unary operators *)
  Lemma d_unop_list : forall f a, d_unop R f a = mk_dist R (map (fun oc => (f (fst oc), snd oc)) (d_map a)).
  Proof. intros. unfold d_unop. apply mk_dist_saa. Qed.

  Lemma unop_keys : forall (f : outcome -> outcome) (a : omap) o, In o (map fst (map (fun oc => (f (fst oc), snd oc)) a)) <->
    exists o', In o' (map fst a) /\ o = f o'.
  Proof.
    intros f a o. rewrite map_map. simpl. rewrite in_map_iff. split.
    - intros [oc [<- H]]. exists (fst oc). split; auto. now apply in_map.
    - intros [o' [H ->]]. apply in_map_iff in H. destruct H as [oc [<- H]]. exists oc. auto.
  Qed.

  Lemma unop_ok : forall f a, keys_ok a -> keys_ok (map (fun oc => (o_map R f (fst oc), snd oc)) a).
  Proof.
    intros f a K o Ho. apply unop_keys in Ho. destruct Ho as [o' [H ->]]. apply K in H. exact H.
  Qed.

  Lemma unop_coherent : forall f a, coherent a -> coherent (map (fun oc => (o_map R f (fst oc), snd oc)) a).
  Proof.
    intros f a C x y h Hx Hy Sx Sy. apply unop_keys in Hx. apply unop_keys in Hy.
    destruct Hx as [x' [Hx ->]]. destruct Hy as [y' [Hy ->]]. simpl. apply (C x' y' h); auto.
  Qed.

  Lemma unop_nonneg : forall (f : outcome -> outcome) a, nonneg a -> nonneg (map (fun oc => (f (fst oc), snd oc)) a).
  Proof.
    intros f a N oc H. apply in_map_iff in H. destruct H as [oc' [<- H]]. now apply N in H.
  Qed.

  Lemma d_unop_inv : forall f a, dinv a -> dinv (d_unop R (o_map R f) a).
  Proof.
    intros f a [K C _ N _]. rewrite d_unop_list. apply mk_dist_inv; auto using unop_ok, unop_coherent, unop_nonneg.
  Qed.

  Lemma esum_unop : forall F f a, dinv a ->
    esum F (d_map (d_unop R (o_map R f) a)) = esum (fun o => F (o_map R f o)) (d_map a).
  Proof.
    intros F f a [K C _ N _]. rewrite d_unop_list, esum_mk_dist by auto using unop_ok, unop_coherent.
    unfold esum. rewrite map_map. reflexivity.
  Qed.

  Lemma cntf_unop : forall h f g a, dinv a -> cntf h (d_unop R (o_map R g) a) f = cntf h a (fun x => f (g x)).
  Proof. intros h f g a D. unfold cntf. now rewrite esum_unop. Qed.

  (** ** Distributions built from ints *)
  Lemma lift_ints_ok : forall m, exists s, create_constraint_set R = Ok s /\
    lift_ints R m = Ok (map (fun vc => ({| o_value := fst vc; o_cs := s |}, snd vc)) m).
  Proof.
    intros. destruct (create_ok R) as [s E]. exists s. split; auto.
    induction m as [|[v c] m IH]; simpl; auto. unfold create_empty. rewrite E. simpl. rewrite IH. reflexivity.
  Qed.

  Definition lifted (s : cset Cs) (m : list (Z * Z)) : omap :=
    map (fun vc => ({| o_value := fst vc; o_cs := s |}, snd vc)) m.

  Lemma mk_dist_ints_ok : forall m, exists s, create_constraint_set R = Ok s /\ mk_dist_ints R m = Ok (mk_dist R (lifted s m)).
  Proof.
    intros. destruct (lift_ints_ok m) as [s [E1 E2]]. exists s. split; auto. unfold mk_dist_ints. now rewrite E2.
  Qed.

  Lemma lifted_keys : forall s m o, In o (map fst (lifted s m)) -> o_cs o = s /\ In (o_value o) (map fst m).
  Proof.
    intros s m o H. apply in_map_iff in H. destruct H as [[o' c] [<- H]]. apply in_map_iff in H.
    destruct H as [vc [E H]]. injection E as <- <-. simpl. split; auto. now apply in_map.
  Qed.

  Lemma created_ok : forall s v, create_constraint_set R = Ok s -> o_ok {| o_value := v; o_cs := s |}.
  Proof.
    intros s v E. split; [|split; [|split]]; simpl.
    - intros n Hn. now apply (create_names R s n E) in Hn.
    - eapply create_normal; eauto.
    - eapply create_nonempty; eauto.
    - exists (fun _ => 0). apply (create_sat R s _ E).
  Qed.

  Lemma lifted_ok : forall s m, create_constraint_set R = Ok s -> keys_ok (lifted s m).
  Proof.
    intros s m E o Ho. apply lifted_keys in Ho. destruct o as [v cs]. destruct Ho as [Ho _]. simpl in Ho. subst.
    now apply created_ok.
  Qed.

  Lemma lifted_coherent : forall s m, coherent (lifted s m).
  Proof.
    intros s m a b h Ha Hb _ _. apply lifted_keys in Ha. apply lifted_keys in Hb. intuition congruence.
  Qed.

  Lemma lifted_nonneg : forall s m, (forall vc, In vc m -> 0 <= snd vc) -> nonneg (lifted s m).
  Proof. intros s m H oc Hoc. apply in_map_iff in Hoc. destruct Hoc as [vc [<- Hvc]]. now apply H in Hvc. Qed.

  Lemma mk_dist_ints_spec : forall m, (forall vc, In vc m -> 0 <= snd vc) ->
    exists d, mk_dist_ints R m = Ok d /\ dinv d /\
      (forall h f, cntf h d f = zsum (map (fun vc => snd vc * f (fst vc)) m)) /\
      (forall o, In o (map fst (d_map d)) -> create_constraint_set R = Ok (o_cs o)) /\
      (forall F, esum (fun o => F (o_value o)) (d_map d) = zsum (map (fun vc => snd vc * F (fst vc)) m)).
  Proof.
    intros m N. destruct (mk_dist_ints_ok m) as [s [Es Ed]]. exists (mk_dist R (lifted s m)).
    assert (C := lifted_coherent s m). assert (K := lifted_ok s m Es).
    split; [auto|]. split; [|split; [|split]].
    - apply mk_dist_inv; auto using lifted_nonneg.
    - intros h f. unfold cntf. rewrite esum_mk_dist by auto. unfold esum, lifted. rewrite map_map. simpl.
      apply zsum_map_ext_in. intros vc Hvc. unfold osatb; simpl.
      assert (S : satb R h s = true) by (apply satb_iff, (create_sat R s h Es)). now rewrite S.
    - intros o Ho. rewrite mk_dist_keys in Ho by auto. apply lifted_keys in Ho. destruct Ho as [-> _]. auto.
    - intros F. rewrite esum_mk_dist by auto. unfold esum, lifted. rewrite map_map. reflexivity.
  Qed.

  (** ** The result map *)
  Lemma result_map_get : forall d v, zget (get_result_map R d) v = wsum (fun o => o_value o =? v) (d_map d).
  Proof.
    intros. unfold get_result_map. rewrite zdict_get, (wsum_map_key _ _ (@o_value R)). reflexivity.
  Qed.

  Lemma result_map_nodup : forall d, NoDup (map fst (get_result_map R d)).
  Proof. intros. apply zdict_nodup. Qed.

  Lemma result_map_keys : forall d v, In v (map fst (get_result_map R d)) <-> exists o, In o (map fst (d_map d)) /\ o_value o = v.
  Proof.
    intros. unfold get_result_map. rewrite zdict_keys, map_map. simpl. rewrite in_map_iff. split.
    - intros [oc [<- H]]. exists (fst oc). split; auto. now apply in_map.
    - intros [o [H <-]]. apply in_map_iff in H. destruct H as [oc [<- H]]. exists oc. auto.
  Qed.

  Lemma result_map_nonneg : forall d, nonneg (d_map d) -> forall vc, In vc (get_result_map R d) -> 0 <= snd vc.
  Proof.
    intros d N. apply safe_add_all_vals_nonneg; [intros kv []|].
    intros kv H. apply in_map_iff in H. destruct H as [oc [<- H]]. now apply N in H.
  Qed.

  (** sums over the result map are sums over the outcomes *)
  Lemma zsaa_sum : forall F l d, zsum (map (fun vc => snd vc * F (fst vc)) (safe_add_all Z.eqb l d)) =
    zsum (map (fun vc => snd vc * F (fst vc)) d) + zsum (map (fun vc => snd vc * F (fst vc)) l).
  Proof.
    intros F. assert (H : forall d k v, zsum (map (fun vc => snd vc * F (fst vc)) (safe_add Z.eqb d k v)) =
      zsum (map (fun vc => snd vc * F (fst vc)) d) + v * F k).
    { induction d as [|[k' v'] d IH]; simpl; intros k v; [lia|]. destruct (k' =? k) eqn:E; simpl.
      - apply Z.eqb_eq in E. subst. lia.
      - rewrite IH. lia. }
    induction l as [|[k v] l IH]; intros d; [simpl; lia|]. rewrite safe_add_all_cons, IH, H. simpl. lia.
  Qed.

  Lemma result_map_sum : forall F d, zsum (map (fun vc => snd vc * F (fst vc)) (get_result_map R d)) =
    esum (fun o => F (o_value o)) (d_map d).
  Proof.
    intros. unfold get_result_map. rewrite zsaa_sum. simpl. rewrite map_map. reflexivity.
  Qed.

  Lemma result_map_total : forall d, zsum (map snd (get_result_map R d)) = zsum (map snd (d_map d)).
  Proof.
    intros. pose proof (result_map_sum (fun _ => 1) d) as H. unfold esum in H.
    rewrite (zsum_map_ext_in _ _ snd) in H by (intros; lia). rewrite H.
    apply zsum_map_ext_in. intros. lia.
  Qed.
End Facts.
