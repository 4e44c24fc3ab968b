(** * DiceFacts: lemmas about DiceModel.v *)
From Coq Require Import Permutation Sorting.
From Verif Require Import Py PyFacts PyFloat Constraint ConstraintFacts Distribution DistFacts DiceModel SpecDice.

(** ** Sums over lists of results *)
Definition lsum {A} (f : A -> Z) (l : list A) : Z := zsum (map f l).

Lemma lsum_flat_map : forall A B (f : A -> list B) (g : B -> Z) l, lsum g (flat_map f l) = lsum (fun a => lsum g (f a)) l.
Proof. intros. unfold lsum. apply zsum_flat_map. Qed.

Lemma lsum_map : forall A B (f : A -> B) (g : B -> Z) l, lsum g (map f l) = lsum (fun a => g (f a)) l.
Proof. intros. unfold lsum. now rewrite map_map. Qed.

Lemma lsum_ext : forall A (f g : A -> Z) l, (forall x, In x l -> f x = g x) -> lsum f l = lsum g l.
Proof. intros. now apply zsum_map_ext_in. Qed.

Lemma lsum_count : forall A (P : A -> bool) l, lsum (fun x => if P x then 1 else 0) l = Z.of_nat (length (filter P l)).
Proof.
  unfold lsum. induction l; simpl; auto. rewrite IHl. destruct (P a); simpl length; lia.
Qed.

Lemma total_zsum : forall t, total t = zsum t.
Proof. reflexivity. Qed.

Lemma lsum_repeat : forall (f : Z -> Z) v n, lsum f (repeat v n) = Z.of_nat n * f v.
Proof. unfold lsum. induction n; simpl map; rewrite ?zsum_cons; [reflexivity|]. rewrite IHn. lia. Qed.

Lemma lsum_faces : forall f m, natural_counts m -> lsum f (faces m) = zsum (map (fun vc => snd vc * f (fst vc)) m).
Proof.
  intros f m N. unfold faces. rewrite lsum_flat_map. apply zsum_map_ext_in. intros [v c] H. simpl.
  rewrite lsum_repeat, Z2Nat.id; auto. now apply (N v).
Qed.

Lemma in_faces : forall m v, In v (faces m) <-> exists c, In (v, c) m /\ 0 < c.
Proof.
  intros. unfold faces. rewrite in_flat_map. split.
  - intros [[v' c] [H1 H2]]. simpl in H2. assert (v = v') by (eapply repeat_spec; eauto). subst.
    exists c. split; auto. destruct (Z.to_nat c) eqn:E; [destruct H2 | lia].
  - intros [c [H1 H2]]. exists (v, c). split; auto. simpl. destruct (Z.to_nat c) eqn:E; [lia | left; auto].
Qed.

Lemma lsum_tuples : forall (F : list Z -> Z) n fs, lsum F (tuples (S n) fs) = lsum (fun x => lsum (fun t => F (x :: t)) (tuples n fs)) fs.
Proof. intros. simpl. rewrite lsum_flat_map. apply lsum_ext. intros. now rewrite lsum_map. Qed.

Lemma in_tuples : forall n fs t, In t (tuples n fs) <-> length t = n /\ (forall x, In x t -> In x fs).
Proof.
  induction n; simpl; intros fs t.
  - split; [intros [<-|[]]; split; auto; intros x [] | intros [H _]; destruct t; [auto | discriminate]].
  - rewrite in_flat_map. split.
    + intros [x [Hx H]]. apply in_map_iff in H. destruct H as [t' [<- H]]. apply IHn in H. destruct H as [H1 H2].
      split; [simpl; auto|]. intros y [<-|Hy]; auto.
    + intros [H1 H2]. destruct t as [|x t]; [discriminate|]. exists x. split; [apply H2; left; auto|].
      apply in_map. apply IHn. split; [simpl in H1; lia|]. intros y Hy. apply H2. right. auto.
Qed.

Lemma ways_lsum : forall score n fs v, ways score n fs v = lsum (fun t => if score t =? v then 1 else 0) (tuples n fs).
Proof. intros. unfold ways. now rewrite lsum_count. Qed.

(** ** Plain distributions: no outcome depends on a variable *)
Section Plain.
  Context (R : Runtime).
  Notation Cs := (rt_c R).

  Definition plain (d : dist R) : Prop := forall o h, In o (map fst (d_map d)) -> osat R h o.

  Lemma cntf_plain : forall h d f, plain d -> cntf R h d f = esum R (fun o => f (o_value o)) (d_map d).
  Proof.
    intros h d f P. unfold cntf. apply esum_ext. intros o Ho.
    assert (S : osatb R h o = true) by (apply osatb_iff; auto). now rewrite S.
  Qed.

  Lemma reported_esum : forall d v, reported R d v = esum R (fun o => if o_value o =? v then 1 else 0) (d_map d).
  Proof.
    intros. unfold reported. change (zget (get_result_map R d) v = esum R (fun o => if o_value o =? v then 1 else 0) (d_map d)).
    now rewrite result_map_get, esum_wsum.
  Qed.

  Lemma reported_plain : forall h d v, plain d -> reported R d v = cntf R h d (fun x => if x =? v then 1 else 0).
  Proof. intros. rewrite cntf_plain; auto. apply reported_esum. Qed.

  Lemma binop_keys : forall op a b d, dinv R a -> dinv R b -> d_binop R op a b = Ok d -> forall o,
    In o (map fst (d_map d)) -> exists o1 o2, In o1 (map fst (d_map a)) /\ In o2 (map fst (d_map b)) /\ o_combine R op o1 o2 = Ok o.
  Proof.
    intros op a b d [Ka Ca _ _ _] [Kb Cb _ _ _] E o Ho. apply d_binop_inv in E. destruct E as [_ ->].
    rewrite mk_dist_keys in Ho by (auto using combos_ok, combos_coherent).
    apply combos_key in Ho. destruct Ho as [o1 [o2 [H1 [H2 [H3 _]]]]]. eauto.
  Qed.

  Lemma plain_binop : forall op a b d, dinv R a -> dinv R b -> plain a -> plain b -> d_binop R op a b = Ok d -> plain d.
  Proof.
    intros op a b d Da Db Pa Pb E o h Ho. destruct (binop_keys op a b d Da Db E o Ho) as [o1 [o2 [H1 [H2 H3]]]].
    apply (o_combine_sat R op o1 o2 o h H3). split; auto.
  Qed.

  (** the listed values of a combination of plain distributions *)
  Lemma listed_values : forall d v, listed R d v <-> exists o, In o (map fst (d_map d)) /\ o_value o = v.
  Proof. intros. apply result_map_keys. Qed.

  Lemma listed_binop : forall op a b d, dinv R a -> dinv R b -> plain a -> plain b -> d_binop R op a b = Ok d ->
    forall v, listed R d v <-> exists x y, listed R a x /\ listed R b y /\ vop_apply op x y = Ok v.
  Proof.
    intros op a b d Da Db Pa Pb E v. rewrite listed_values. split.
    - intros [o [Ho <-]]. destruct (binop_keys op a b d Da Db E o Ho) as [o1 [o2 [H1 [H2 H3]]]].
      exists (o_value o1), (o_value o2). rewrite !listed_values. split; [eauto|]. split; [eauto|].
      now apply o_combine_inv in H3.
    - intros [x [y [Hx [Hy Hv]]]]. rewrite listed_values in Hx, Hy. destruct Hx as [o1 [H1 <-]]. destruct Hy as [o2 [H2 <-]].
      assert (E' := E). apply d_binop_inv in E'. destruct E' as [Hok ->]. destruct (Hok o1 o2 H1 H2) as [o Ho].
      exists o. split.
      + rewrite mk_dist_keys.
        * apply in_map_iff in H1. apply in_map_iff in H2. destruct H1 as [[o1' c1] [<- H1]]. destruct H2 as [[o2' c2] [<- H2]].
          apply in_map_iff. exists (o, c1 * c2). split; auto. apply in_combos.
          exists o1', c1, o2', c2. split; [now apply in_pairs|]. split; auto. split; auto.
          apply (sat_possible R (fun _ => 0)). apply (o_combine_sat R op o1' o2' o _ Ho).
          split; [apply Pa | apply Pb]; apply in_map_iff; [exists (o1', c1) | exists (o2', c2)]; auto.
        * apply combos_coherent; [apply di_coherent | apply di_coherent]; auto.
        * apply combos_ok; [apply di_keys | apply di_keys]; auto.
      + apply o_combine_inv in Ho. destruct Ho as [Ho _]. congruence.
  Qed.

  Lemma listed_reported : forall d v, dinv R d -> (reported R d v <> 0 -> listed R d v).
  Proof.
    intros d v D H. unfold reported in H. destruct (dget Z.eqb (get_result_map R d) v) as [c|] eqn:E; [|lia].
    apply dget_some_in in E; [|apply Zeqb_iff]. apply (in_map fst) in E. auto.
  Qed.

  Lemma mk_dist_ints_plain : forall m, natural_counts m ->
    exists d, mk_dist_ints R m = Ok d /\ dinv R d /\ plain d /\
      (forall h f, cntf R h d f = zsum (map (fun vc => snd vc * f (fst vc)) m)) /\
      (forall v, listed R d v <-> In v (map fst m)).
  Proof.
    intros m N. destruct (mk_dist_ints_spec R m) as [d [E [D [C [K S]]]]]; [intros [v c] H; now apply (N v)|].
    exists d. split; auto. split; auto. split; [|split; auto].
    - intros o h Ho. apply K in Ho. now apply (create_sat R (o_cs o) h).
    - intros v. rewrite listed_values. destruct (mk_dist_ints_ok R m) as [s [Es Ed]].
      rewrite E in Ed. injection Ed as ->. split.
      + intros [o [Ho <-]]. rewrite mk_dist_keys in Ho by (auto using lifted_coherent, lifted_ok).
        now apply lifted_keys in Ho.
      + intros H. exists {| o_value := v; o_cs := s |}. split; auto.
        rewrite mk_dist_keys by (auto using lifted_coherent, lifted_ok).
        apply in_map_iff in H. destruct H as [vc [<- H]]. apply in_map_iff.
        exists ({| o_value := fst vc; o_cs := s |}, snd vc). split; auto.
        apply in_map_iff. exists vc. auto.
  Qed.

  (** ** dice_dist *)
  Lemma add_ok : forall a b, dinv R a -> exists d, d_binop R VAdd a b = Ok d.
  Proof.
    intros a b D. unfold d_binop, combine_distributions. rewrite combine_loop_ok; [simpl; eauto|].
    intros [[o1 c1] [o2 c2]] H. apply in_pairs in H. destruct H as [H _]. simpl.
    destruct (o_combine_total R VAdd o1 o2) as [E [cs Ecs]].
    { apply (di_keys R a D). apply (in_map fst) in H. auto. }
    rewrite E, Ecs. simpl. eauto.
  Qed.

  Lemma add_times_spec : forall fs single, dinv R single -> plain single ->
    (forall h f, cntf R h single f = lsum f fs) ->
    forall k acc, dinv R acc -> plain acc -> exists d, add_times R k acc single = Ok d /\ dinv R d /\ plain d /\
      (forall h f, cntf R h d f = cntf R h acc (fun x => lsum (fun t => f (x + total t)) (tuples k fs))) /\
      (forall v, listed R d v <-> exists x t, listed R acc x /\ length t = k /\ (forall y, In y t -> listed R single y) /\ v = x + total t).
  Proof.
    intros fs single Ds Ps Cs. induction k as [|k IH]; intros acc Da Pa.
    - exists acc. simpl. split; auto. split; auto. split; auto. split.
      + intros h f. apply cntf_ext. intros x. unfold lsum. cbn [map tuples zsum fold_right total]. now rewrite !Z.add_0_r.
      + intros v. split.
        * intros H. exists v, []. repeat split; auto; [intros y [] | simpl; lia].
        * intros [x [t [Hx [Ht [_ ->]]]]]. destruct t; [|discriminate]. simpl. now rewrite Z.add_0_r.
    - cbn [add_times]. destruct (add_ok acc single Da) as [acc' E]. rewrite E. cbn [rbind].
      assert (Da' := d_binop_inv_preserved R _ _ _ _ Da Ds E). assert (Pa' := plain_binop _ _ _ _ Da Ds Pa Ps E).
      destruct (IH acc' Da' Pa') as [d [Ed [Dd [Pd [Cd Ld]]]]]. exists d. split; auto. split; auto. split; auto. split.
      + intros h f. rewrite Cd, (cntf_binop R _ _ _ _ h _ Da Ds E). apply cntf_ext. intros x.
        rewrite Cs, lsum_tuples. apply lsum_ext. intros y _. simpl. apply lsum_ext. intros t _. f_equal. lia.
      + intros v. rewrite Ld. split.
        * intros [x [t [Hx [Ht [Hl ->]]]]]. rewrite (listed_binop _ _ _ _ Da Ds Pa Ps E) in Hx.
          destruct Hx as [x1 [x2 [H1 [H2 H3]]]]. injection H3 as <-. exists x1, (x2 :: t).
          repeat split; auto; [simpl; auto | intros y [<-|Hy]; auto | simpl; lia].
        * intros [x [[|y t] [Hx [Ht [Hl ->]]]]]; [discriminate|]. exists (x + y), t. rewrite (listed_binop _ _ _ _ Da Ds Pa Ps E).
          repeat split; auto; [exists x, y; repeat split; auto; apply Hl; left; auto | intros z Hz; apply Hl; right; auto | simpl; lia].
  Qed.

  Lemma result_map_natural : forall d, dinv R d -> natural_counts (get_result_map R d).
  Proof. intros d D v c H. apply (result_map_nonneg R d (di_nonneg R d D)) in H. auto. Qed.

  (** the distribution of dice: max(1, n) dice are rolled *)
  Lemma dice_dist_spec : forall d, natural_counts (dice_map d) ->
    let n := Z.to_nat (Z.max 1 (dice_num d)) in
    exists dd, dice_dist R d = Ok dd /\ dinv R dd /\ plain dd /\
      (forall h f, cntf R h dd f = lsum (fun t => f (total t)) (tuples n (faces (dice_map d)))) /\
      (forall v, listed R dd v <-> exists t, length t = n /\ (forall x, In x t -> In x (map fst (dice_map d))) /\ total t = v).
  Proof.
    intros d N n. destruct (mk_dist_ints_plain (dice_map d) N) as [single [Es [Ds [Ps [Cs Ls]]]]].
    destruct (mk_dist_ints_plain (get_result_map R single)) as [start [Est [Dst [Pst [Cst Lst]]]]]; [now apply result_map_natural|].
    assert (Cs' : forall h f, cntf R h single f = lsum f (faces (dice_map d))).
    { intros h f. now rewrite Cs, lsum_faces. }
    assert (Cst' : forall h f, cntf R h start f = lsum f (faces (dice_map d))).
    { intros h f. rewrite Cst, result_map_sum, <- (cntf_plain h) by auto. apply Cs'. }
    assert (Lst' : forall v, listed R start v <-> In v (map fst (dice_map d))).
    { intros v. rewrite Lst. apply Ls. }
    destruct (add_times_spec (faces (dice_map d)) single Ds Ps Cs' (Z.to_nat (dice_num d - 1)) start Dst Pst)
      as [dd [Ed [Dd [Pd [Cd Ld]]]]].
    assert (En : n = S (Z.to_nat (dice_num d - 1))) by (subst n; lia).
    exists dd. split; [|split; [|split; [|split]]]; auto.
    - unfold dice_dist. rewrite Es. simpl. rewrite Est. simpl. auto.
    - intros h f. rewrite Cd, Cst', En, lsum_tuples. reflexivity.
    - intros v. rewrite Ld, En. split.
      + intros [x [t [Hx [Ht [Hl ->]]]]]. exists (x :: t). split; [simpl; auto|]. split; auto.
        intros y [<-|Hy]; [now apply Lst' | now apply Ls, Hl].
      + intros [[|x t] [Ht [Hl <-]]]; [discriminate|]. exists x, t. repeat split.
        * apply Lst', Hl. left. auto.
        * now injection Ht.
        * intros y Hy. apply Ls, Hl. right. auto.
  Qed.
End Plain.
