(** * SameProofs: C65 and C66 *)
From Coq Require Import Permutation.
From Verif Require Import Py PyFacts PyFloat Constraint ConstraintFacts Distribution DistFacts DiceModel SpecDice DiceFacts DropKeepFacts DiceProofs Expr Parser Interp
  SpecProgram SpecRoll SpecCost SpecInterp SpecAlgebra ExprFacts StateFacts ProgramFacts JointFacts RaiseFacts WfFacts InterpRun ProgramProofs RollFacts RollProofs ExtFacts ExtProofs CostProofs
  SpecSame SpecAlgebra.


(** The lists that are compared: equal up to order, or with the same elements *)
Section Alike.
  Context (E : forall A, list A -> list A -> Prop) (Erefl : forall A (l : list A), E A l l) (Etrans : forall A (a b c : list A), E A a b -> E A b c -> E A a c)
    (Eflat : forall A B (f g : A -> list B) l l', E A l l' -> (forall x, E B (f x) (g x)) -> E B (flat_map f l) (flat_map g l')).

  Lemma Emap : forall A B (f : A -> B) l l', E A l l' -> E B (map f l) (map f l').
  Proof.
    intros A B f l l' H. assert (X : forall l : list A, map f l = flat_map (fun x => [f x]) l) by (induction l0; cbn; congruence).
    rewrite !X. now apply Eflat.
  Qed.
  Lemma Etuples : forall n fs gs, E Z fs gs -> E (list Z) (tuples n fs) (tuples n gs).
  Proof. induction n as [|n IH]; intros fs gs H; [apply Erefl|]. cbn [tuples]. apply Eflat; [exact H|]. intros x. now apply Emap, IH. Qed.
  Lemma Eboth : forall f a a' b b', E _ a a' -> E _ b b' -> E _ (both f a b) (both f a' b').
  Proof. intros f a a' b b' Ha Hb. unfold both. apply Eflat; [exact Ha|]. intros x. now apply Emap. Qed.

  Lemma both_tuples : forall (f : Z -> Z -> option Z) (g g1 g2 : list Z -> Z) i j fs,
    (forall t1 t2, In t1 (tuples i fs) -> In t2 (tuples j fs) -> f (g1 t1) (g2 t2) = Some (g (t1 ++ t2))) ->
    both f (map (fun t => Some (g1 t)) (tuples i fs)) (map (fun t => Some (g2 t)) (tuples j fs)) = map (fun t => Some (g t)) (tuples (i + j) fs).
  Proof.
    intros f g g1 g2 i. revert f g g1 g2. induction i as [|i IH]; intros f g g1 g2 j fs H.
    - cbn [tuples plus map both flat_map]. unfold both. cbn [flat_map map]. rewrite app_nil_r, map_map. apply map_ext_in. intros t I. apply (H [] t); cbn; auto.
    - cbn [tuples plus]. unfold both. 
      assert (X : forall (l : list Z), incl l fs -> flat_map (fun x => map (fun y => match x, y with Some x, Some y => f x y | _, _ => None end) (map (fun t => Some (g2 t)) (tuples j fs)))
        (map (fun t => Some (g1 t)) (flat_map (fun x => map (cons x) (tuples i fs)) l)) =
        map (fun t => Some (g t)) (flat_map (fun x => map (cons x) (tuples (i + j) fs)) l)).
      { induction l as [|x l IHl]; intros L; [reflexivity|]. cbn [flat_map]. rewrite !map_app, flat_map_app. f_equal.
        - rewrite !map_map. rewrite <- (IH f (fun t => g (x :: t)) (fun t => g1 (x :: t)) g2 j fs); [reflexivity|].
          intros t1 t2 I1 I2. apply (H (x :: t1) t2); [|exact I2]. cbn [tuples]. apply in_flat_map. exists x. split; [apply L; now left|]. now apply in_map.
        - apply IHl. intros y Y. apply L. now right. }
      apply X. apply incl_refl.
  Qed.

  Context (sides : list (Z * Z) -> list Z) (fs0 vs0 fs : list Z) (Hdie : forall m, such_die fs0 vs0 m -> E Z (sides m) fs).

  Lemma sum_joint : forall n e env, sum_of fs0 vs0 n e -> E _ (joint sides env e) (map (fun t => Some (total t)) (tuples n fs)).
  Proof.
    intros n e env H. induction H as [d D N|n e H IH|i j a b Ha IHa Hb IHb]; cbn [joint].
    - now apply Emap, Etuples, Hdie.
    - exact IH.
    - eapply Etrans; [apply Eboth; eassumption|]. rewrite (both_tuples _ total total total i j fs); [apply Erefl|].
      intros t1 t2 _ _. f_equal. change total with zsum. now rewrite zsum_app.
  Qed.

  Definition best (mx : bool) (t : list Z) : Z := if mx then keep_highest 1 t else drop_highest (length t - 1) t.
  Lemma best_spec : forall mx t, t <> [] -> In (best mx t) t /\ forall x, In x t -> within mx x (best mx t).
  Proof.
    intros mx t N. assert (P := sort_desc_perm t). assert (L := Permutation_length P).
    assert (S : zsorted (rev (sort_desc t))) by (rewrite sort_desc_rev, rev_involutive; apply zsort_sorted).
    destruct mx; unfold best, keep_highest, drop_highest, within.
    - destruct (sort_desc t) as [|y l] eqn:Es; [apply Permutation_nil in P; contradiction|]. cbn [firstn]. unfold total. cbn [fold_right]. rewrite Z.add_0_r. split.
      + apply (Permutation_in _ P). now left.
      + intros x I. apply (Permutation_in _ (Permutation_sym P)) in I. destruct I as [<-|I]; [lia|]. cbn [rev] in S. apply zsorted_app in S.
        apply S; [now apply in_rev in I|now left].
    - rewrite <- L. destruct (sort_desc t) as [|y0 l0] eqn:Es; [apply Permutation_nil in P; contradiction|]. rewrite <- Es in *. 
      assert (Ne : sort_desc t <> []) by (rewrite Es; discriminate). destruct (exists_last Ne) as [l [y El]]. rewrite El in *.
      rewrite app_length. cbn [length]. replace (length l + 1 - 1)%nat with (length l) by lia. rewrite skipn_app, skipn_all, Nat.sub_diag. cbn [skipn app].
      unfold total. cbn [fold_right]. rewrite Z.add_0_r. split.
      + apply (Permutation_in _ P). apply in_or_app. right. now left.
      + intros x I. apply (Permutation_in _ (Permutation_sym P)) in I. apply in_app_or in I. destruct I as [I|[<-|[]]]; [|lia].
        rewrite rev_app_distr in S. cbn [rev app] in S. change (zsorted ([y] ++ rev l)) in S. apply zsorted_app in S. apply S; [now left | now apply in_rev in I].
  Qed.
  Lemma best_app : forall mx t1 t2, t1 <> [] -> t2 <> [] -> best mx (t1 ++ t2) = (if mx then Z.max else Z.min) (best mx t1) (best mx t2).
  Proof.
    intros mx t1 t2 N1 N2. destruct (best_spec mx t1 N1) as [I1 B1]. destruct (best_spec mx t2 N2) as [I2 B2].
    destruct (best_spec mx (t1 ++ t2)) as [I B]; [intros X; apply app_eq_nil in X; tauto|].
    assert (C1 := B _ (in_or_app t1 t2 _ (or_introl I1))). assert (C2 := B _ (in_or_app t1 t2 _ (or_intror I2))).
    apply in_app_or in I. unfold within in *. destruct mx; (destruct I as [I|I]; [specialize (B1 _ I)|specialize (B2 _ I)]; lia).
  Qed.
  Lemma best_one : forall mx x, best mx [x] = x.
  Proof. intros mx x. destruct (best_spec mx [x]) as [[I|[]] _]; [discriminate|auto]. Qed.

  Lemma best_positive : forall mx n e, best_of mx fs0 vs0 n e -> (1 <= n)%nat.
  Proof. induction 1; lia. Qed.

  Lemma best_joint : forall mx n e env, best_of mx fs0 vs0 n e -> E _ (joint sides env e) (map (fun t => Some (best mx t)) (tuples n fs)).
  Proof.
    intros mx n e env H. induction H as [d D N|dk D N K1 K2|n e H IH|i j a b Ha IHa Hb IHb]; cbn [joint].
    - rewrite N. change (Z.to_nat 1) with 1%nat. replace (map (fun t => Some (best mx t)) (tuples 1 fs)) with (map (fun t => Some (total t)) (tuples 1 fs)).
      + now apply Emap, Etuples, Hdie.
      + apply map_ext_in. intros t I. apply in_tuples in I. destruct I as [I _]. destruct t as [|x [|y t]]; try discriminate. rewrite best_one. unfold total. cbn. f_equal. lia.
    - unfold pool_results. rewrite K1, K2. destruct mx; [change (1 =? 0) with false; cbv iota|].
      + rewrite map_map. change (Z.to_nat 1) with 1%nat. now apply Emap, Etuples, Hdie.
      + destruct (Z.leb_spec (dk_num dk) (dk_num dk - 1)); [lia|]. rewrite map_map.
        replace (map (fun t => Some (best false t)) (tuples (Z.to_nat (dk_num dk)) fs)) with
          (map (fun t => Some (drop_highest (Z.to_nat (dk_num dk - 1)) t)) (tuples (Z.to_nat (dk_num dk)) fs)).
        * now apply Emap, Etuples, Hdie.
        * apply map_ext_in. intros t I. apply in_tuples in I. destruct I as [I _]. unfold best. rewrite I. f_equal. f_equal. lia.
    - exact IH.
    - eapply Etrans; [apply Eboth; eassumption|]. rewrite (both_tuples _ (best mx) (best mx) (best mx) i j fs); [apply Erefl|].
      intros t1 t2 I1 I2. apply in_tuples in I1, I2. destruct I1 as [I1 _]. destruct I2 as [I2 _]. apply best_positive in Ha, Hb.
      rewrite best_app by (intros ->; cbn in *; lia). destruct mx; reflexivity.
  Qed.
End Alike.

(** ** The two ways of comparing *)
Definition alike (A : Type) (a b : list A) : Prop := forall x, In x a <-> In x b.
Lemma alike_flat : forall A B (f g : A -> list B) l l', alike A l l' -> (forall x, alike B (f x) (g x)) -> alike B (flat_map f l) (flat_map g l').
Proof. intros A B f g l l' H K y. rewrite !in_flat_map. split; intros [x [I J]]; exists x; (split; [now apply H|now apply K]). Qed.
Lemma perm_flat : forall A B (f g : A -> list B) l l', Permutation l l' -> (forall x, Permutation (f x) (g x)) -> Permutation (flat_map f l) (flat_map g l').
Proof.
  intros A B f g l l' H K. transitivity (flat_map f l').
  - now apply Permutation_flat_map.
  - clear H. induction l' as [|x l' IH]; cbn [flat_map]; [constructor|]. now apply Permutation_app.
Qed.

(** Expressions without variables, made of [n] such dice *)
Definition plain (fs vs : list Z) (e : expr) : Prop :=
  (forall env, rolled env e = joint faces env e) /\
  reads e = [] /\ no_assignment e /\ (well_formed e -> simple e) /\ (forall m, In m (dice_of e) -> such_die fs vs m) /\
  (forall mx origins ok, extreme_exact mx origins ok e).
Definition priced (vs : list Z) (n : nat) (e : expr) : Prop := forall R s sides, well_formed e -> NoDup sides -> (forall v, In v sides <-> In v vs) ->
  cost_of R e s = (s, Ok (Z.of_nat n * Z.of_nat (length sides))).
Definition scored (fs vs : list Z) (score : list Z -> Z) (n : nat) (e : expr) : Prop :=
  (forall env, Permutation (joint faces env e) (map (fun t => Some (score t)) (tuples n fs))) /\
  (forall env, alike _ (joint (map fst) env e) (map (fun t => Some (score t)) (tuples n vs))) /\ plain fs vs e.

Lemma such_sides : forall fs vs m sides, such_die fs vs m -> NoDup sides -> (forall v, In v sides <-> In v vs) -> lists_sides m sides.
Proof. intros fs vs m sides [_ D] N H. split; [exact N|]. intros v. now rewrite H, D. Qed.

Lemma plain_dice : forall fs vs d, such_die fs vs (dice_map d) -> 1 <= dice_num d -> plain fs vs (EDice d).
Proof.
  intros fs vs d D N. split; [reflexivity|]. split; [reflexivity|]. split; [exact Logic.I|]. split; [intros [W _]; split; [exact W|exact N]|].
  split; [intros m [<-|[]]; exact D|]. intros; exact Logic.I.
Qed.
Lemma priced_dice : forall fs vs d, such_die fs vs (dice_map d) -> 1 <= dice_num d -> priced vs (Z.to_nat (dice_num d)) (EDice d).
Proof.
  intros fs vs d D N R s sides [[form M] _] Nd Hs. cbn [cost_of]. unfold ret, dice_cost. rewrite (sides_count (dice_map d) sides (mk_dice_sides form d M)) by (now apply (such_sides fs vs)).
  rewrite Z2Nat.id by lia. reflexivity.
Qed.
Lemma plain_pool : forall fs vs dk, such_die fs vs (dk_map dk) -> 1 <= dk_num dk -> plain fs vs (EDropKeep dk).
Proof.
  intros fs vs dk D N. split; [reflexivity|]. split; [reflexivity|]. split; [exact Logic.I|]. split; [intros [W [_ K]]; split; [exact W|]; split; [exact N|exact K]|].
  split; [intros m [<-|[]]; exact D|]. intros; exact Logic.I.
Qed.
Lemma priced_pool : forall mx fs vs dk, such_die fs vs (dk_map dk) -> 1 <= dk_num dk -> dk_keep dk = mx -> dk_k dk = (if mx then 1 else dk_num dk - 1) ->
  priced vs (Z.to_nat (dk_num dk)) (EDropKeep dk).
Proof.
  intros mx fs vs dk D N K1 K2 R s sides W Nd Hs. destruct (cost_of_pool R dk sides s W) as [c [E [_ [E1 [_ E3]]]]]; [now apply (such_sides fs vs)|]. rewrite E. f_equal. f_equal.
  assert (K : dice_kept dk = 1) by (unfold dice_kept; rewrite K1, K2; destruct mx; lia). rewrite K in *. rewrite Z2Nat.id by lia.
  destruct (Z.eq_dec (dk_num dk) 1) as [Z|Z]; [rewrite E1 by lia | rewrite E3 by lia]; lia.
Qed.
Lemma priced_pair : forall vs i j a b R s sides, priced vs i a -> priced vs j b -> well_formed a -> well_formed b -> NoDup sides -> (forall v, In v sides <-> In v vs) ->
  cost_sum R (cost_of R a) (cost_of R b) s = (s, Ok (Z.of_nat (i + j) * Z.of_nat (length sides))).
Proof.
  intros vs i j a b R s sides A B Wa Wb Nd Hs. unfold cost_sum, bind. rewrite (A R s sides Wa Nd Hs), (B R s sides Wb Nd Hs).
  unfold ret. f_equal. f_equal. lia.
Qed.
Lemma plain_add : forall fs vs a b, plain fs vs a -> plain fs vs b -> plain fs vs (EAdd a b).
Proof.
  intros fs vs a b [A1 [A2 [A3 [A4 [A5 _]]]]] [B1 [B2 [B3 [B4 [B5 _]]]]].
  split; [intros env; cbn [rolled joint]; now rewrite A1, B1|]. split; [cbn [reads]; now rewrite A2, B2|]. split; [split; assumption|].
  split; [intros [Wa Wb]; split; auto|]. split; [intros m I; apply in_app_or in I; destruct I; auto|]. intros; exact Logic.I.
Qed.
Lemma plain_pick : forall mm fs vs a b, plain fs vs a -> plain fs vs b -> plain fs vs (EMinMax mm a b).
Proof.
  intros mm fs vs a b [A1 [A2 [A3 [A4 [A5 A6]]]]] [B1 [B2 [B3 [B4 [B5 B6]]]]].
  split; [intros env; cbn [rolled joint]; now rewrite A1, B1|]. split; [cbn [reads]; now rewrite A2, B2|]. split; [split; assumption|].
  split; [intros [M [Wa Wb]]; split; auto|]. split; [intros m I; apply in_app_or in I; destruct I; auto|].
  intros mx origins ok; cbn [extreme_exact]; split; [apply A6|]; split; [apply B6|]; right; intros m n k I; rewrite A2 in I; destruct I.
Qed.
Lemma sum_priced : forall fs vs n e, sum_of fs vs n e -> priced vs n e.
Proof.
  intros fs vs n e H. induction H; [now apply (priced_dice fs) | assumption |]. intros R s sides [Wa Wb]. now apply priced_pair.
Qed.
Lemma best_priced : forall mx fs vs n e, best_of mx fs vs n e -> priced vs n e.
Proof.
  intros mx fs vs n e H. induction H as [d D N|dk D N K1 K2|n e H IH|i j a b Ha IHa Hb IHb]; [|now apply (priced_pool mx fs)|assumption|].
  - replace 1%nat with (Z.to_nat (dice_num d)) by (rewrite N; reflexivity). apply (priced_dice fs); [exact D|lia].
  - intros R s sides [_ [Wa Wb]]. now apply priced_pair.
Qed.

Lemma sum_scored : forall fs vs n e, sum_of fs vs n e -> scored fs vs total n e.
Proof.
  intros fs vs n e H. split; [|split].
  - intros env. apply (sum_joint Permutation Permutation_refl Permutation_trans perm_flat faces fs vs); [|exact H]. intros m D. apply D.
  - intros env. apply (sum_joint alike (fun A l x => iff_refl _) (fun A a b c H1 H2 x => iff_trans (H1 x) (H2 x)) alike_flat (map fst) fs vs); [|exact H]. intros m [_ D]. exact D.
  - induction H; [now apply plain_dice | assumption | now apply plain_add].
Qed.
Lemma best_scored : forall mx fs vs n e, best_of mx fs vs n e -> scored fs vs (best mx) n e.
Proof.
  intros mx fs vs n e H. split; [|split].
  - intros env. apply (best_joint Permutation Permutation_refl Permutation_trans perm_flat faces fs vs); [|exact H]. intros m D. apply D.
  - intros env. apply (best_joint alike (fun A l x => iff_refl _) (fun A a b c H1 H2 x => iff_trans (H1 x) (H2 x)) alike_flat (map fst) fs vs); [|exact H]. intros m [_ D]. exact D.
  - induction H as [d D N|dk D N K1 K2|n e H IH|i j a b Ha IHa Hb IHb]; [apply plain_dice; [exact D|lia]|now apply plain_pool|assumption|now apply plain_pick].
Qed.

Lemma reports_unique : forall R s lines d d', reports R s lines d -> reports R s lines d' -> d = d'.
Proof. intros R s lines d d' [s1 [m1 [E1 D1]]] [s2 [m2 [E2 D2]]]. rewrite E1 in E2. injection E2 as <- <-. congruence. Qed.

(** ** What is reported of them *)
Section Reported.
  Context (R : Runtime).

  Lemma scored_none : forall fs vs score n e env, scored fs vs score n e -> ~ In None (joint (map fst) env e).
  Proof. intros fs vs score n e env [_ [H _]] I. apply H in I. apply in_map_iff in I. destruct I as [t [X _]]. discriminate. Qed.

  Lemma scored_good : forall fs vs score n e t, scored fs vs score n e -> parse t = Ok e -> vs <> [] ->
    simple e /\ reads e = [] /\ good_program [(None, e)] /\ program_text [t] [(None, e)] /\ sided [(None, e)] /\ runnable [(None, e)].
  Proof.
    intros fs vs score n e t [_ [_ [_ [Rd [Na [S [D _]]]]]]] P V. apply parse_wf in P as W. assert (Se := S W). assert (G := single_program e Se Rd).
    split; [exact Se|]. split; [exact Rd|]. split; [exact G|]. split; [repeat constructor; exact P|]. split.
    - intros m I. cbn in I. rewrite app_nil_r in I. apply D in I. destruct I as [_ I]. intros ->. destruct vs as [|v vs]; [contradiction|]. apply (I v). now left.
    - split; [discriminate|]. split; [apply G|]. intros k e' [X|[]]. injection X as <- <-. auto.
  Qed.

  Lemma scored_reports : forall fs vs score n e s t, scored fs vs score n e -> reachable R s -> parse t = Ok e -> vs <> [] ->
    exists d, reports R s [t] d /\ (forall v, reported R d v = ways score n fs v) /\
      (forall v, listed R d v <-> exists r, In r (tuples n vs) /\ score r = v).
  Proof.
    intros fs vs score n e s t H Hs P V. destruct (scored_good fs vs score n e t H P V) as [S [Rd [G [T [Sd _]]]]].
    destruct (run R true [(None, e)] s) as [s' [d|x]] eqn:E.
    - assert (Rp : reports R s [t] d) by (apply (reports_run R [(None, e)] [t] s d (proj1 G) T); eauto). exists d. split; [exact Rp|].
      destruct (expression_counts R s t e d Hs P S Rd Rp) as [C L]. destruct H as [H1 [H2 _]]. split; intros v.
      + rewrite C, occurrences_lsum, (lsum_perm _ _ _ _ (H1 no_values)), lsum_map, ways_lsum. reflexivity.
      + rewrite L, (H2 no_values (Some v)), in_map_iff. split; intros [r [A B]]; exists r; split; congruence || assumption.
    - destruct (run_raises R true _ s s' x (reachable_sinv R s Hs) G Sd E) as [_ I]. exfalso. exact (scored_none fs vs score n e no_values H I).
  Qed.

  Lemma scored_same : forall fs vs score n e1 e2 s1 s2 t1 t2, scored fs vs score n e1 -> scored fs vs score n e2 -> reachable R s1 -> reachable R s2 ->
    parse t1 = Ok e1 -> parse t2 = Ok e2 -> vs <> [] -> exists d1 d2, reports R s1 [t1] d1 /\ reports R s2 [t2] d2 /\ same_results R d1 d2.
  Proof.
    intros fs vs score n e1 e2 s1 s2 t1 t2 H1 H2 Hs1 Hs2 P1 P2 V. destruct (scored_reports _ _ _ _ _ s1 t1 H1 Hs1 P1 V) as [d1 [A1 [B1 C1]]].
    destruct (scored_reports _ _ _ _ _ s2 t2 H2 Hs2 P2 V) as [d2 [A2 [B2 C2]]]. exists d1, d2. split; [exact A1|]. split; [exact A2|].
    intros v. rewrite C1, C2, B1, B2. split; reflexivity.
  Qed.

  Lemma scored_rolls : forall fs vs score n e s t v, scored fs vs score n e -> parse t = Ok e -> vs <> [] -> drawable [(None, e)] -> roll_weight R s [t] v = ways score n fs v.
  Proof.
    intros fs vs score n e s t v H P V D. destruct (scored_good fs vs score n e t H P V) as [_ [_ [_ [T [_ Rn]]]]].
    destruct (roll_semantics R s [t] _ T Rn D) as [_ [W _]]. rewrite W. cbn [rolled_program]. destruct H as [H1 [_ [H3 _]]].
    rewrite H3, occurrences_lsum, (lsum_perm _ _ _ _ (H1 no_values)), lsum_map, ways_lsum. reflexivity.
  Qed.

  Lemma scored_extremes : forall fs vs score n e1 e2 s1 s2 t1 t2 mx v, scored fs vs score n e1 -> scored fs vs score n e2 -> reachable R s1 -> reachable R s2 ->
    parse t1 = Ok e1 -> parse t2 = Ok e2 -> vs <> [] -> (extreme_is R mx s1 [t1] v <-> extreme_is R mx s2 [t2] v).
  Proof.
    intros fs vs score n e1 e2 s1 s2 t1 t2 mx v H1 H2 Hs1 Hs2 P1 P2 V. destruct (scored_reports _ _ _ _ _ s1 t1 H1 Hs1 P1 V) as [d1 [A1 [B1 C1]]].
    destruct (scored_reports _ _ _ _ _ s2 t2 H2 Hs2 P2 V) as [d2 [A2 [B2 C2]]].
    destruct (scored_good _ _ _ _ _ t1 H1 P1 V) as [_ [_ [G1 [T1 [Sd1 _]]]]]. destruct (scored_good _ _ _ _ _ t2 H2 P2 V) as [_ [_ [G2 [T2 [Sd2 _]]]]].
    rewrite (extreme_exactly R mx s1 s1 [t1] _ d1 Hs1 Hs1 T1 G1 Sd1) by (try exact A1; apply H1).
    rewrite (extreme_exactly R mx s2 s2 [t2] _ d2 Hs2 Hs2 T2 G2 Sd2) by (try exact A2; apply H2).
    assert (L : forall x, listed R d1 x <-> listed R d2 x) by (intros x; now rewrite C1, C2).
    rewrite L. split; intros [I B]; (split; [exact I|]); intros x X; apply B; now apply L.
  Qed.

  Lemma priced_cost : forall vs n e s t sides, priced vs n e -> parse t = Ok e -> NoDup sides -> (forall v, In v sides <-> In v vs) ->
    get_estimated_cost R [t] s = (s, Ok (Z.of_nat n * Z.of_nat (length sides))).
  Proof.
    intros vs n e s t sides C P Nd Hs. rewrite (cost_line R t e s P). apply C; auto. now apply parse_wf in P.
  Qed.
End Reported.

(** ** Symmetry *)
Lemma tuples_map : forall (f : Z -> Z) n fs, tuples n (map f fs) = map (map f) (tuples n fs).
Proof.
  induction n as [|n IH]; intros fs; [reflexivity|]. cbn [tuples]. rewrite IH. generalize (tuples n fs) as T. intros T. induction fs as [|x fs IHf]; [reflexivity|].
  cbn [map flat_map]. rewrite IHf, map_app, !map_map. reflexivity.
Qed.
Lemma total_mirror : forall c t, total (map (fun x => c - x) t) = Z.of_nat (length t) * c - total t.
Proof. intros c t. unfold total. induction t as [|x t IH]; [reflexivity|]. cbn [map fold_right length]. rewrite IH. lia. Qed.

Lemma ways_mirror : forall f g c m n fs, Permutation (map (fun x => c - x) fs) fs ->
  (forall t, length t = n -> f (map (fun x => c - x) t) = m - g t) -> forall v, ways f n fs v = ways g n fs (m - v).
Proof.
  intros f g c m n fs P H v. rewrite <- (ways_perm f n _ _ v P). rewrite !ways_lsum, tuples_map, lsum_map. apply lsum_ext. intros t I. apply in_tuples in I.
  rewrite (H t) by apply I. destruct (Z.eqb_spec (m - g t) v), (Z.eqb_spec (g t) (m - v)); auto; lia.
Qed.
Lemma tuples_mirror : forall f g c m n vs, (forall v, In v vs <-> In (c - v) vs) -> (forall t, length t = n -> f (map (fun x => c - x) t) = m - g t) ->
  forall v, (exists t, In t (tuples n vs) /\ g t = m - v) -> exists t, In t (tuples n vs) /\ f t = v.
Proof.
  intros f g c m n vs M H v [t [I E]]. apply in_tuples in I. destruct I as [L I]. exists (map (fun x => c - x) t). split; [|rewrite (H t L); lia].
  apply in_tuples. split; [now rewrite map_length|]. intros x X. apply in_map_iff in X. destruct X as [y [<- Y]]. apply M. replace (c - (c - y)) with y by lia. auto.
Qed.

Lemma zsorted_mirror : forall c l, zsorted l -> zsorted (map (fun x => c - x) (rev l)).
Proof.
  intros c l. induction l as [|x l IH]; intros H; [constructor|]. change (x :: l) with ([x] ++ l) in H. apply zsorted_app in H. destruct H as [_ [H1 H2]].
  cbn [rev]. rewrite map_app. apply zsorted_app. split; [now apply IH|]. split; [repeat constructor|].
  intros a b Ha [<-|[]]. apply in_map_iff in Ha. destruct Ha as [y [<- Hy]]. apply in_rev in Hy. specialize (H2 x y (or_introl eq_refl) Hy). lia.
Qed.
Lemma zsort_mirror : forall c t, zsort (map (fun x => c - x) t) = map (fun x => c - x) (sort_desc t).
Proof.
  intros c t. apply sorted_perm_eq.
  - apply zsort_sorted.
  - rewrite sort_desc_rev. apply zsorted_mirror, zsort_sorted.
  - transitivity (map (fun x => c - x) t); [apply zsort_perm|]. apply Permutation_map, Permutation_sym, sort_desc_perm.
Qed.
Lemma drop_mirror : forall c k t, (k <= length t)%nat -> drop_highest (length t - k) (map (fun x => c - x) t) = Z.of_nat k * c - keep_highest k t.
Proof.
  intros c k t L. rewrite <- drop_score by (rewrite map_length; lia). rewrite map_length, zsort_mirror, firstn_map. change zsum with total. rewrite total_mirror.
  rewrite firstn_length, (Permutation_length (sort_desc_perm t)). replace (length t - (length t - k))%nat with k by lia. rewrite Nat.min_l by lia. reflexivity.
Qed.

Lemma keep_mirror : forall c k t, (k <= length t)%nat -> keep_highest k (map (fun x => c - x) t) = Z.of_nat k * c - drop_highest (length t - k) t.
Proof.
  intros c k t L. assert (H := drop_mirror c k (map (fun x => c - x) t)). rewrite map_length, map_map in H.
  rewrite (map_ext _ (fun x => x)), map_id in H by (intros; lia). rewrite H by exact L. lia.
Qed.

(** ** Consecutive faces *)
Lemma consecutive_succ : forall a k, consecutive a (S k) = consecutive a k ++ [a + Z.of_nat k].
Proof. intros a k. unfold consecutive. now rewrite seq_S, map_app. Qed.
Lemma in_consecutive : forall a k v, In v (consecutive a k) <-> a <= v < a + Z.of_nat k.
Proof.
  intros a k v. unfold consecutive. rewrite in_map_iff. split.
  - intros [i [<- I]]. apply in_seq in I. lia.
  - intros H. exists (Z.to_nat (v - a)). split; [lia|]. apply in_seq. lia.
Qed.
Lemma consecutive_nodup : forall a k, NoDup (consecutive a k).
Proof. intros a k. unfold consecutive. apply FinFun.Injective_map_NoDup; [|apply seq_NoDup]. intros i j H. lia. Qed.
Lemma consecutive_mirrored : forall a k vs, (forall v, In v vs <-> In v (consecutive a k)) -> mirrored (2 * a + Z.of_nat k - 1) (consecutive a k) vs.
Proof.
  intros a k vs H. split.
  - apply NoDup_Permutation.
    + apply FinFun.Injective_map_NoDup; [|apply consecutive_nodup]. intros x y E. lia.
    + apply consecutive_nodup.
    + intros v. rewrite in_map_iff. split.
      * intros [x [<- I]]. apply in_consecutive in I. apply in_consecutive. lia.
      * intros I. apply in_consecutive in I. exists (2 * a + Z.of_nat k - 1 - v). split; [lia|]. apply in_consecutive. lia.
  - intros v. rewrite !H, !in_consecutive. lia.
Qed.

Lemma telescope : forall (F : Z -> Z) a k v, lsum (fun x => F (v + 1 - x)) (consecutive a k) =
  lsum (fun x => F (v - x)) (consecutive a k) + F (v + 1 - a) - F (v + 1 - a - Z.of_nat k).
Proof.
  intros F a k v. induction k as [|k IH].
  - cbn. replace (v + 1 - a - 0) with (v + 1 - a) by lia. lia.
  - rewrite consecutive_succ. unfold lsum in *. rewrite !map_app, !zsum_app, IH. cbn [map]. rewrite !zsum_cons. change (zsum []) with 0.
    replace (v + 1 - a - Z.of_nat (S k)) with (v - (a + Z.of_nat k)) by lia. replace (v + 1 - (a + Z.of_nat k)) with (v + 1 - a - Z.of_nat k) by lia. lia.
Qed.

Section Unimodal.
  Context (a : Z) (k : nat).
  Notation c := (2 * a + Z.of_nat k - 1).
  Notation W n v := (ways total n (consecutive a k) v).

  Lemma W_mirror : forall n v, W n v = W n (Z.of_nat n * c - v).
  Proof. intros n v. apply (ways_mirror total total c); [apply (consecutive_mirrored a k (consecutive a k)); tauto|]. intros t <-. apply total_mirror. Qed.
  Lemma W_succ : forall n v, W (S n) v = lsum (fun x => W n (v - x)) (consecutive a k).
  Proof.
    intros n v. rewrite ways_lsum, lsum_tuples. apply lsum_ext. intros x _. rewrite ways_lsum. apply lsum_ext. intros t _. unfold total. cbn [fold_right]. fold (total t).
    destruct (Z.eqb_spec (x + total t) v), (Z.eqb_spec (total t) (v - x)); auto; lia.
  Qed.
  Lemma climbs : forall (F : Z -> Z) m, (forall v, 2 * (v + 1) <= m -> F v <= F (v + 1)) -> forall v w, v <= w -> 2 * w <= m -> F v <= F w.
  Proof.
    intros F m H v w L. replace w with (v + Z.of_nat (Z.to_nat (w - v))) by lia. induction (Z.to_nat (w - v)) as [|i IH]; intros B; [rewrite Z.add_0_r; lia|].
    assert (X := H (v + Z.of_nat i)). replace (v + Z.of_nat i + 1) with (v + Z.of_nat (S i)) in X by lia. specialize (X B).
    assert (Y := IH ltac:(lia)). lia.
  Qed.
  Lemma W_climbs : forall n v w, v <= w -> 2 * w <= Z.of_nat n * c -> W n v <= W n w.
  Proof.
    induction n as [|n IH].
    - intros v w L B. change (Z.of_nat 0) with 0 in B. rewrite Z.mul_0_l in B. unfold ways. cbn [tuples filter]. change (total []) with 0.
      destruct (Z.eqb_spec 0 v), (Z.eqb_spec 0 w); cbn [length]; lia.
    - apply climbs. intros v B. rewrite !W_succ. rewrite (telescope (fun x => W n x) a k v).
      assert (X : W n (v + 1 - a - Z.of_nat k) <= W n (v + 1 - a)); [|lia].
      destruct (Z_le_gt_dec (2 * (v + 1 - a)) (Z.of_nat n * c)) as [C|C]; [apply IH; lia|].
      rewrite (W_mirror n (v + 1 - a)). apply IH; lia.
  Qed.
End Unimodal.

Section Mirror.
  Context (R : Runtime).

  Lemma sum_mirror : forall s t e d n fs vs c, reachable R s -> parse t = Ok e -> sum_of fs vs n e -> mirrored c fs vs -> vs <> [] -> reports R s [t] d ->
    forall v, reported R d v = reported R d (Z.of_nat n * c - v) /\ (listed R d v <-> listed R d (Z.of_nat n * c - v)).
  Proof.
    intros s t e d n fs vs c Hs P H [M1 M2] V Rp v. destruct (scored_reports R fs vs total n e s t (sum_scored _ _ _ _ H) Hs P V) as [d' [Rp' [C L]]].
    assert (d' = d) as -> by exact (reports_unique R s [t] d' d Rp' Rp).
    assert (T : forall t, length t = n -> total (map (fun x => c - x) t) = Z.of_nat n * c - total t) by (intros r <-; apply total_mirror).
    rewrite !C, !L. split; [now apply (ways_mirror total total c)|]. split.
    - intros X. apply (tuples_mirror total total c (Z.of_nat n * c) n vs M2 T). now replace (Z.of_nat n * c - (Z.of_nat n * c - v)) with v by lia.
    - intros X. now apply (tuples_mirror total total c (Z.of_nat n * c) n vs M2 T).
  Qed.

  Lemma sum_unimodal : forall s t e d n a k vs, reachable R s -> parse t = Ok e -> sum_of (consecutive a k) vs n e -> vs <> [] -> reports R s [t] d ->
    forall v w, v <= w -> 2 * w <= Z.of_nat n * (2 * a + Z.of_nat k - 1) -> reported R d v <= reported R d w.
  Proof.
    intros s t e d n a k vs Hs P H V Rp v w L B. destruct (scored_reports R _ vs total n e s t (sum_scored _ _ _ _ H) Hs P V) as [d' [Rp' [C _]]].
    assert (d' = d) as -> by exact (reports_unique R s [t] d' d Rp' Rp). rewrite !C. now apply W_climbs.
  Qed.

  Lemma pool_scored : forall fs vs dk, such_die fs vs (dk_map dk) -> 1 <= dk_num dk -> (if dk_keep dk then 1 <= dk_k dk else dk_k dk < dk_num dk) ->
    scored fs vs (if dk_keep dk then keep_highest (Z.to_nat (dk_k dk)) else drop_highest (Z.to_nat (dk_k dk))) (Z.to_nat (dk_num dk)) (EDropKeep dk).
  Proof.
    intros fs vs dk D N K. assert (J : forall sides env, joint sides env (EDropKeep dk) =
      map (fun t => Some ((if dk_keep dk then keep_highest (Z.to_nat (dk_k dk)) else drop_highest (Z.to_nat (dk_k dk))) t)) (tuples (Z.to_nat (dk_num dk)) (sides (dk_map dk)))).
    { intros sides env. cbn [joint]. unfold pool_results. destruct (dk_keep dk).
      - destruct (Z.eqb_spec (dk_k dk) 0); [lia|]. now rewrite map_map.
      - destruct (Z.leb_spec (dk_num dk) (dk_k dk)); [lia|]. now rewrite map_map. }
    split; [|split; [|now apply plain_pool]].
    - intros env. rewrite J. apply (Emap Permutation Permutation_refl perm_flat), (Etuples Permutation Permutation_refl perm_flat), D.
    - intros env. rewrite J. apply (Emap alike (fun A l x => iff_refl _) alike_flat), (Etuples alike (fun A l x => iff_refl _) alike_flat). intros v. apply D.
  Qed.

  Lemma pool_mirror : forall s s' t t' dk dk' d d' fs vs c, reachable R s -> reachable R s' -> parse t = Ok (EDropKeep dk) -> parse t' = Ok (EDropKeep dk') ->
    such_die fs vs (dk_map dk) -> such_die fs vs (dk_map dk') -> mirrored c fs vs -> vs <> [] -> dk_keep dk = true -> dk_keep dk' = false ->
    dk_num dk' = dk_num dk -> dk_k dk' = dk_num dk - dk_k dk -> 1 <= dk_k dk <= dk_num dk -> reports R s [t] d -> reports R s' [t'] d' ->
    forall v, reported R d v = reported R d' (dk_k dk * c - v) /\ (listed R d v <-> listed R d' (dk_k dk * c - v)).
  Proof.
    intros s s' t t' dk dk' d d' fs vs c Hs Hs' P P' D D' [M1 M2] V K K' En Ek B Rp Rp' v.
    assert (S := pool_scored fs vs dk D). rewrite K in S. specialize (S ltac:(lia) ltac:(lia)).
    assert (S' := pool_scored fs vs dk' D'). rewrite K', En, Ek in S'. specialize (S' ltac:(lia) ltac:(lia)).
    destruct (scored_reports R _ _ _ _ _ s t S Hs P V) as [d1 [Rp1 [C L]]]. assert (d1 = d) as -> by exact (reports_unique R s [t] d1 d Rp1 Rp).
    destruct (scored_reports R _ _ _ _ _ s' t' S' Hs' P' V) as [d2 [Rp2 [C' L']]]. assert (d2 = d') as -> by exact (reports_unique R s' [t'] d2 d' Rp2 Rp').
    set (n := Z.to_nat (dk_num dk)) in *. set (k := Z.to_nat (dk_k dk)) in *.
    assert (E : Z.to_nat (dk_num dk - dk_k dk) = (n - k)%nat) by (unfold n, k; lia). rewrite E in *.
    assert (A : forall t, length t = n -> keep_highest k (map (fun x => c - x) t) = dk_k dk * c - drop_highest (n - k) t).
    { intros r Hr. rewrite keep_mirror by (unfold n, k in *; lia). rewrite Hr. f_equal. f_equal. unfold k. lia. }
    assert (A' : forall t, length t = n -> drop_highest (n - k) (map (fun x => c - x) t) = dk_k dk * c - keep_highest k t).
    { intros r Hr. rewrite <- Hr. rewrite drop_mirror by (unfold n, k in *; lia). f_equal. f_equal. unfold k. lia. }
    rewrite C, C', L, L'. split; [now apply (ways_mirror _ _ c)|]. split.
    - intros X. apply (tuples_mirror _ _ c (dk_k dk * c) n vs M2 A'). now replace (dk_k dk * c - (dk_k dk * c - v)) with v by lia.
    - intros X. now apply (tuples_mirror _ _ c (dk_k dk * c) n vs M2 A).
  Qed.
End Mirror.

(** ** Two expressions with the same dice *)
Lemma same_dice_scored : forall fs vs n e1 e2, same_dice fs vs n e1 e2 -> (exists score, scored fs vs score n e1 /\ scored fs vs score n e2) /\ priced vs n e1 /\ priced vs n e2.
Proof.
  intros fs vs n e1 e2 [[A B]|[mx [A B]]].
  - split; [exists total; split; now apply sum_scored|]. split; now apply (sum_priced fs).
  - split; [exists (best mx); split; now apply best_scored|]. split; now apply (best_priced mx fs).
Qed.
Lemma same_dice_reports : forall (R : Runtime) (s1 s2 : state R) t1 t2 e1 e2 n fs vs, reachable R s1 -> reachable R s2 -> parse t1 = Ok e1 -> parse t2 = Ok e2 -> vs <> [] ->
  same_dice fs vs n e1 e2 -> exists d1 d2, reports R s1 [t1] d1 /\ reports R s2 [t2] d2 /\ same_results R d1 d2.
Proof. intros R s1 s2 t1 t2 e1 e2 n fs vs H1 H2 P1 P2 V H. destruct (same_dice_scored _ _ _ _ _ H) as [[score [A B]] _]. now apply (scored_same R fs vs score n e1 e2). Qed.
Lemma same_dice_rolls : forall (R : Runtime) (s1 s2 : state R) t1 t2 e1 e2 n fs vs, parse t1 = Ok e1 -> parse t2 = Ok e2 -> vs <> [] ->
  same_dice fs vs n e1 e2 -> drawable [(None, e1)] -> drawable [(None, e2)] -> forall v, roll_weight R s1 [t1] v = roll_weight R s2 [t2] v.
Proof.
  intros R s1 s2 t1 t2 e1 e2 n fs vs P1 P2 V H D1 D2 v. destruct (same_dice_scored _ _ _ _ _ H) as [[score [A B]] _].
  now rewrite (scored_rolls R fs vs score n e1), (scored_rolls R fs vs score n e2).
Qed.
Lemma same_dice_extremes : forall (R : Runtime) (s1 s2 : state R) t1 t2 e1 e2 n fs vs, reachable R s1 -> reachable R s2 -> parse t1 = Ok e1 -> parse t2 = Ok e2 -> vs <> [] ->
  same_dice fs vs n e1 e2 -> forall mx v, extreme_is R mx s1 [t1] v <-> extreme_is R mx s2 [t2] v.
Proof. intros R s1 s2 t1 t2 e1 e2 n fs vs H1 H2 P1 P2 V H mx v. destruct (same_dice_scored _ _ _ _ _ H) as [[score [A B]] _]. now apply (scored_extremes R fs vs score n e1 e2). Qed.
Lemma same_dice_cost : forall (R : Runtime) (s1 s2 : state R) t1 t2 e1 e2 n fs vs sides, parse t1 = Ok e1 -> parse t2 = Ok e2 -> same_dice fs vs n e1 e2 ->
  NoDup sides -> (forall v, In v sides <-> In v vs) ->
  get_estimated_cost R [t1] s1 = (s1, Ok (Z.of_nat n * Z.of_nat (length sides))) /\ get_estimated_cost R [t2] s2 = (s2, Ok (Z.of_nat n * Z.of_nat (length sides))).
Proof. intros R s1 s2 t1 t2 e1 e2 n fs vs sides P1 P2 H Nd Hs. destruct (same_dice_scored _ _ _ _ _ H) as [_ [A B]]. split; [now apply (priced_cost R vs n e1)|now apply (priced_cost R vs n e2)]. Qed.
