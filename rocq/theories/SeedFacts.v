(** * SeedFacts: the same computation in two runtimes and with other names for the variables *)
From Verif Require Import Py PyFacts PyFloat Constraint ConstraintFacts Distribution DistFacts DiceModel SpecDice DiceFacts NotationFacts DiceProofs
  Expr Lexer Parser Interp Random TagFacts SpecProgram ExprFacts StateFacts WfFacts SpecSeed SpecRename.

Lemma Forall2_map_both : forall A B C D (P : A -> B -> Prop) (Q : C -> D -> Prop) (f : A -> C) (g : B -> D) l l',
  Forall2 P l l' -> (forall a b, In a l -> In b l' -> P a b -> Q (f a) (g b)) -> Forall2 Q (map f l) (map g l').
Proof. intros A B C D P Q f g l l' H. induction H; intros K; cbn; constructor; auto with datatypes. Qed.

Lemma Forall2_flat_map : forall A B C D (P : A -> B -> Prop) (Q : C -> D -> Prop) (f : A -> list C) (g : B -> list D) l l',
  Forall2 P l l' -> (forall a b, In a l -> In b l' -> P a b -> Forall2 Q (f a) (g b)) -> Forall2 Q (flat_map f l) (flat_map g l').
Proof. intros A B C D P Q f g l l' H. induction H; intros K; cbn; [constructor|]. apply Forall2_app; auto with datatypes. Qed.

Lemma Forall2_same : forall A B C (f : A -> C) (g : B -> C) l l', Forall2 (fun a b => f a = g b) l l' -> map f l = map g l'.
Proof. intros A B C f g l l' H. induction H; cbn; [auto | congruence]. Qed.

Lemma Forall2_weaken : forall A B (P Q : A -> B -> Prop) l l', (forall a b, P a b -> Q a b) -> Forall2 P l l' -> Forall2 Q l l'.
Proof. intros A B P Q l l' K H. induction H; constructor; auto. Qed.

Lemma simple_natural : forall form dk d, mk_dropkeep form = Ok dk -> dk_simple dk = Some (SDice d) -> natural_counts (dice_map d).
Proof.
  intros form dk d Mk E. destruct (mk_dropkeep_inv form dk Mk) as [N Inv].
  destruct (dk_keep dk); destruct Inv as [I1 [I2 I3]]; destruct (Z_le_gt_dec (dk_num dk) (dk_k dk)) as [C|C]; destruct (Z.eq_dec (dk_k dk) 0) as [Z|Z];
    try (destruct (I1 ltac:(lia)) as [d' [E' [Em _]]]; rewrite E' in E; inversion E; subst; now rewrite Em);
    try (destruct (I2 ltac:(lia) Z) as [d' [E' [Em _]]]; rewrite E' in E; inversion E; subst; now rewrite Em);
    try (rewrite I1 in E by lia; discriminate); try (rewrite I2 in E by lia; discriminate); rewrite I3 in E by lia; discriminate.
Qed.

(** ** Other names *)
Fixpoint rename (rho : text -> text) (e : expr) : expr :=
  match e with
  | EParen e => EParen (rename rho e) | ENot e => ENot (rename rho e) | EAbs e => EAbs (rename rho e)
  | EAdd a b => EAdd (rename rho a) (rename rho b) | ESub a b => ESub (rename rho a) (rename rho b)
  | EMul a b => EMul (rename rho a) (rename rho b) | EDiv a b => EDiv (rename rho a) (rename rho b)
  | EBin o a b => EBin o (rename rho a) (rename rho b) | EMinMax m a b => EMinMax m (rename rho a) (rename rho b)
  | EAssign n e => EAssign (rho n) (rename rho e) | EVar n => EVar (rho n)
  | EDropKeep _ | EDice _ | EInt _ | EBool _ => e
  end.

(** what stands before and after the last underscore *)
Fixpoint cut (i : text) : option (text * text) :=
  match i with
  | [] => None
  | c :: i' => match cut i' with
               | Some (n, k) => Some (c :: n, k)
               | None => if Ascii.ascii_dec c "_"%char then Some ([], i') else None
               end
  end.
Lemma cut_none : forall i, ~ In "_"%char i -> cut i = None.
Proof.
  induction i as [|c i IH]; intros H; cbn; [auto|]. rewrite IH by (cbn in H; tauto). destruct (Ascii.ascii_dec c "_"%char); [|auto].
  subst c. cbn in H. tauto.
Qed.
Lemma cut_join : forall n k, ~ In "_"%char k -> cut (n ++ "_"%char :: k) = Some (n, k).
Proof. induction n as [|c n IH]; intros k H; cbn; [now rewrite cut_none | now rewrite IH]. Qed.
Lemma cut_inv : forall i, match cut i with Some (n, k) => i = n ++ "_"%char :: k /\ ~ In "_"%char k | None => ~ In "_"%char i end.
Proof.
  induction i as [|c i IH]; cbn; [auto|]. destruct (cut i) as [[n k]|].
  - destruct IH as [-> H]. split; auto.
  - destruct (Ascii.ascii_dec c "_"%char) as [->|N]; [split; auto|]. intros [E|E]; auto.
Qed.

Section Two.
  Context (R1 R2 : Runtime) (rho : text -> text) (rho_inj : forall a b, rho a = rho b -> a = b) (rho_stdout : rho stdout = stdout).

  Definition new_instance (i : text) : text := match cut i with Some (n, k) => rho n ++ "_"%char :: k | None => i end.
  Lemma new_instance_inj : forall i j, new_instance i = new_instance j -> i = j.
  Proof.
    intros i j H. unfold new_instance in H. assert (X := cut_inv i). assert (Y := cut_inv j).
    destruct (cut i) as [[n k]|]; destruct (cut j) as [[n' k']|].
    - destruct X as [-> X]. destruct Y as [-> Y]. apply last_split in H; auto. destruct H as [H ->]. now rewrite (rho_inj _ _ H).
    - subst j. destruct Y. apply in_app_iff. right. now left.
    - subst i. destruct X. apply in_app_iff. right. now left.
    - auto.
  Qed.
  Lemma new_instance_name : forall n k, new_instance (instance_name n k) = instance_name (rho n) k.
  Proof. intros n k. unfold new_instance, instance_name. change ($"_") with ["_"%char]. cbn [app]. now rewrite cut_join by (apply text_of_Z_not_in; reflexivity). Qed.

  Lemma same_name : forall a b, text_eqb (rho a) (rho b) = text_eqb a b.
  Proof.
    intros a b. destruct (text_eqb a b) eqn:E.
    - apply text_eqb_eq in E. subst. apply text_eqb_refl.
    - apply text_eqb_neq in E. apply text_eqb_neq. intros H. apply E. now apply rho_inj.
  Qed.
  Lemma dget_named : forall A (l : list (text * A)) n, dget text_eqb (map (on_name rho) l) (rho n) = dget text_eqb l n.
  Proof. induction l as [|[k a] l IH]; intros n; cbn; [auto|]. rewrite same_name. destruct (text_eqb k n); auto. Qed.
  Lemma dset_named : forall A (l : list (text * A)) n v, dset text_eqb (map (on_name rho) l) (rho n) v = map (on_name rho) (dset text_eqb l n v).
  Proof. induction l as [|[k a] l IH]; intros n v; cbn; [auto|]. rewrite same_name. destruct (text_eqb k n); cbn; [auto | now rewrite IH]. Qed.
  Lemma bump_named : forall l n, bump (map (on_name rho) l) (rho n) = map (on_name rho) (bump l n).
  Proof. unfold bump. induction l as [|[k a] l IH]; intros n; cbn; [auto|]. rewrite same_name. destruct (text_eqb k n); cbn; [auto | now rewrite IH]. Qed.
  Notation omap1 := (list (outcome R1 * Z)).
  Notation omap2 := (list (outcome R2 * Z)).

  (** The same value under the same conditions *)
  Definition orel (a : outcome R1) (b : outcome R2) : Prop := o_value a = o_value b /\ forall h, osat R1 (fun i => h (new_instance i)) a <-> osat R2 h b.
  Definition erel (x : outcome R1 * Z) (y : outcome R2 * Z) : Prop := orel (fst x) (fst y) /\ snd x = snd y.
  Definition mrel : omap1 -> omap2 -> Prop := Forall2 erel.
  Definition drel (a : dist R1) (b : dist R2) : Prop := mrel (d_map a) (d_map b) /\ d_count a = d_count b.

  Lemma history : forall (o : outcome R1) h, osat R1 h o -> exists h', osat R1 (fun i => h' (new_instance i)) o.
  Proof.
    intros o h H. exists (fun j => match find (fun i => text_eqb (new_instance i) j) (names R1 (o_cs o)) with Some i => h i | None => 0 end).
    refine (sat_ext R1 _ _ _ _ H). intros n Hn. destruct (find _ _) as [i|] eqn:E.
    - apply find_some in E. destruct E as [_ E]. apply text_eqb_eq in E. now rewrite (new_instance_inj _ _ E).
    - apply (find_none _ _ E) in Hn. now rewrite text_eqb_refl in Hn.
  Qed.

  Lemma mrel_counts : forall m1 m2, mrel m1 m2 -> map snd m1 = map snd m2.
  Proof. intros. apply Forall2_same. eapply Forall2_weaken; [|exact H]. intros a b [_ E]. exact E. Qed.

  (** ** Dictionaries find related keys at the same places *)
  Lemma match_rel : forall (m1 : omap1) (m2 : omap2) a b a' b', coherent R1 m1 -> keys_ok R1 m1 -> coherent R2 m2 -> keys_ok R2 m2 ->
    In a (map fst m1) -> In b (map fst m1) -> In a' (map fst m2) -> In b' (map fst m2) -> orel a a' -> orel b b' ->
    o_match R1 a b = o_match R2 a' b'.
  Proof.
    intros m1 m2 a b a' b' C1 K1 C2 K2 Ha Hb Ha' Hb' [Va Sa] [Vb Sb]. apply eq_true_iff_eq. split; intros E.
    - assert (a = b) by (apply (match_eq R1 m1); auto). subst b. destruct (K1 a Ha) as [_ [_ [_ [h0 Hh0]]]]. destruct (history a h0 Hh0) as [h Hh].
      assert (o_cs a' = o_cs b') by (apply (C2 a' b' h); auto; [now apply Sa | now apply Sb]).
      assert (a' = b') by (destruct a', b'; cbn in *; congruence). subst b'. apply o_match_refl.
    - assert (a' = b') by (apply (match_eq R2 m2); auto). subst b'. destruct (K2 a' Ha') as [_ [_ [_ [h Hh]]]].
      assert (o_cs a = o_cs b) by (apply (C1 a b (fun i => h (new_instance i))); auto; [now apply Sa | now apply Sb]).
      assert (a = b) by (destruct a, b; cbn in *; congruence). subst b. apply o_match_refl.
  Qed.

  Section Universe.
    Context (m1 : omap1) (m2 : omap2) (C1 : coherent R1 m1) (K1 : keys_ok R1 m1) (C2 : coherent R2 m2) (K2 : keys_ok R2 m2).

    Lemma safe_add_rel : forall d1 d2, mrel d1 d2 -> (forall o, In o (map fst d1) -> In o (map fst m1)) -> (forall o, In o (map fst d2) -> In o (map fst m2)) ->
      forall k1 k2 v, In k1 (map fst m1) -> In k2 (map fst m2) -> orel k1 k2 ->
      mrel (safe_add (o_match R1) d1 k1 v) (safe_add (o_match R2) d2 k2 v).
    Proof.
      intros d1 d2 H. induction H as [|[a c] [a' c'] d1 d2 [E1 E2] H IH]; intros S1 S2 k1 k2 v I1 I2 E; cbn [safe_add].
      - constructor; [split; auto | constructor].
      - cbn in E1, E2. subst c'. rewrite (match_rel m1 m2 a k1 a' k2); cbn in *; auto. destruct (o_match R2 a' k2).
        + constructor; [split; auto | auto].
        + constructor; [split; auto|]. apply IH; auto.
    Qed.

    Lemma saa_rel_gen : forall l1 l2, mrel l1 l2 -> (forall o, In o (map fst l1) -> In o (map fst m1)) -> (forall o, In o (map fst l2) -> In o (map fst m2)) ->
      forall d1 d2, mrel d1 d2 -> (forall o, In o (map fst d1) -> In o (map fst m1)) -> (forall o, In o (map fst d2) -> In o (map fst m2)) ->
      mrel (safe_add_all (o_match R1) l1 d1) (safe_add_all (o_match R2) l2 d2).
    Proof.
      intros l1 l2 H. induction H as [|[a c] [a' c'] l1 l2 [E1 E2] H IH]; intros L1 L2 d1 d2 D S1 S2; cbn; auto.
      cbn in E1, E2. subst c'. apply IH.
      - intros; apply L1; now right.
      - intros; apply L2; now right.
      - apply safe_add_rel; auto; [apply L1 | apply L2]; now left.
      - intros o Ho. change (safe_add (o_match R1) d1 a c) with (safe_add_all (o_match R1) [(a, c)] d1) in Ho.
        apply safe_add_all_keys_in in Ho. destruct Ho as [Ho|[<-|[]]]; [auto | apply L1; now left].
      - intros o Ho. change (safe_add (o_match R2) d2 a' c) with (safe_add_all (o_match R2) [(a', c)] d2) in Ho.
        apply safe_add_all_keys_in in Ho. destruct Ho as [Ho|[<-|[]]]; [auto | apply L2; now left].
    Qed.
  End Universe.

  Lemma saa_rel : forall m1 m2, coherent R1 m1 -> keys_ok R1 m1 -> coherent R2 m2 -> keys_ok R2 m2 -> mrel m1 m2 ->
    mrel (safe_add_all (o_match R1) m1 []) (safe_add_all (o_match R2) m2 []).
  Proof. intros m1 m2 C1 K1 C2 K2 H. apply (saa_rel_gen m1 m2); auto; try (intros o []). constructor. Qed.

  Lemma mk_dist_rel : forall m1 m2, coherent R1 m1 -> keys_ok R1 m1 -> coherent R2 m2 -> keys_ok R2 m2 -> mrel m1 m2 ->
    drel (mk_dist R1 m1) (mk_dist R2 m2).
  Proof.
    intros m1 m2 C1 K1 C2 K2 H. assert (S := saa_rel m1 m2 C1 K1 C2 K2 H). split; cbn; [exact S|]. now rewrite (mrel_counts _ _ S).
  Qed.

  (** ** Operators *)
  Definition rrel {A B} (P : A -> B -> Prop) (x : res A) (y : res B) : Prop :=
    match x, y with Ok a, Ok b => P a b | Raise e, Raise e' => e = e' | _, _ => False end.

  Lemma o_combine_rel : forall op a b a' b', o_ok R1 a -> o_ok R1 b -> o_ok R2 a' -> o_ok R2 b' -> orel a a' -> orel b b' ->
    rrel (fun o o' => orel o o' /\ o_is_possible R1 o = o_is_possible R2 o') (o_combine R1 op a b) (o_combine R2 op a' b').
  Proof.
    intros op a b a' b' Oa Ob Oa' Ob' [Va Sa] [Vb Sb].
    destruct (o_combine R1 op a b) as [o|x] eqn:E; destruct (o_combine R2 op a' b') as [o'|x'] eqn:E'; cbn [rrel].
    - assert (S : forall h, osat R1 (fun i => h (new_instance i)) o <-> osat R2 h o').
      { intros h. rewrite (o_combine_sat R1 _ _ _ _ _ E), (o_combine_sat R2 _ _ _ _ h E'), Sa, Sb. reflexivity. }
      split; [split; auto|].
      + apply o_combine_inv in E. apply o_combine_inv in E'. destruct E as [E _]. destruct E' as [E' _]. rewrite Va, Vb in E. congruence.
      + apply eq_true_iff_eq. split; intros P.
        * destruct (o_combine_ok R1 op a b o Oa Ob E P) as [_ [_ [_ [h0 Hh0]]]]. destruct (history o h0 Hh0) as [h Hh]. apply S in Hh. apply (osatb_possible R2 h). now apply osatb_iff.
        * destruct (o_combine_ok R2 op a' b' o' Oa' Ob' E' P) as [_ [_ [_ [h Hh]]]]. apply S in Hh. apply (osatb_possible R1 (fun i => h (new_instance i))). now apply osatb_iff.
    - apply o_combine_inv in E. destruct E as [E _]. destruct (o_combine_total R2 op a' b' Oa') as [T [cs C]]. rewrite C, <- Va, <- Vb, E, E' in T. discriminate.
    - apply o_combine_inv in E'. destruct E' as [E' _]. destruct (o_combine_total R1 op a b Oa) as [T [cs C]]. rewrite C, Va, Vb, E', E in T. discriminate.
    - destruct (o_combine_total R1 op a b Oa) as [T [cs C]]. destruct (o_combine_total R2 op a' b' Oa') as [T' [cs' C']].
      rewrite C, Va, Vb, E in T. rewrite C', E' in T'. destruct (vop_apply op (o_value a') (o_value b')); congruence.
  Qed.

  Definition prel (p : (outcome R1 * Z) * (outcome R1 * Z)) (q : (outcome R2 * Z) * (outcome R2 * Z)) : Prop :=
    erel (fst p) (fst q) /\ erel (snd p) (snd q).

  Lemma pairs_rel : forall a1 a2 b1 b2, mrel a1 a2 -> mrel b1 b2 -> Forall2 prel (pairs a1 b1) (pairs a2 b2).
  Proof.
    intros a1 a2 b1 b2 Ha Hb. unfold pairs. eapply Forall2_flat_map; [exact Ha|]. intros x y _ _ E.
    eapply Forall2_map_both; [exact Hb|]. intros u v _ _ F. split; auto.
  Qed.

  Definition both_ok1 (p : (outcome R1 * Z) * (outcome R1 * Z)) : Prop := o_ok R1 (fst (fst p)) /\ o_ok R1 (fst (snd p)).
  Definition both_ok2 (p : (outcome R2 * Z) * (outcome R2 * Z)) : Prop := o_ok R2 (fst (fst p)) /\ o_ok R2 (fst (snd p)).

  Lemma combos_rel : forall op ps1 ps2, Forall2 prel ps1 ps2 -> (forall p, In p ps1 -> both_ok1 p) -> (forall p, In p ps2 -> both_ok2 p) ->
    mrel (combos R1 op ps1) (combos R2 op ps2).
  Proof.
    intros op ps1 ps2 H K1 K2. eapply Forall2_flat_map; [exact H|]. intros p q Hp Hq [[E1 F1] [E2 F2]].
    destruct (K1 p Hp) as [Oa Ob]. destruct (K2 q Hq) as [Oa' Ob'].
    assert (Z := o_combine_rel op _ _ _ _ Oa Ob Oa' Ob' E1 E2). destruct (o_combine R1 op (fst (fst p)) (fst (snd p))) as [o|x]; destruct (o_combine R2 op (fst (fst q)) (fst (snd q))) as [o'|x']; cbn in Z; try contradiction.
    - destruct Z as [Z ->]. destruct (o_is_possible R2 o'); constructor; [|constructor]. split; cbn; [auto | congruence].
    - constructor.
  Qed.

  (** the same exception, or the same number of rounds *)
  Lemma combine_loop_same : forall op ps1 ps2, Forall2 prel ps1 ps2 -> (forall p, In p ps1 -> both_ok1 p) -> (forall p, In p ps2 -> both_ok2 p) ->
    forall acc1 acc2, rrel (fun _ _ => True) (combine_loop R1 op ps1 acc1) (combine_loop R2 op ps2 acc2).
  Proof.
    intros op ps1 ps2 H. induction H as [|[[o1 c1] [o2 c2]] [[o1' c1'] [o2' c2']] ps1 ps2 [[E1 F1] [E2 F2]] H IH]; intros K1 K2 acc1 acc2; [exact Logic.I|].
    cbn [combine_loop]. destruct (K1 _ (or_introl eq_refl)) as [Oa Ob]. destruct (K2 _ (or_introl eq_refl)) as [Oa' Ob']. cbn [fst snd] in *.
    assert (Z := o_combine_rel op _ _ _ _ Oa Ob Oa' Ob' E1 E2). destruct (o_combine R1 op o1 o2) as [o|x]; destruct (o_combine R2 op o1' o2') as [o'|x']; cbn in Z; try contradiction.
    - cbn [rbind]. apply IH; intros; [apply K1 | apply K2]; now right.
    - cbn [rbind rrel]. exact Z.
  Qed.

  Lemma pairs_ok1 : forall a b, keys_ok R1 a -> keys_ok R1 b -> forall p, In p (pairs a b) -> both_ok1 p.
  Proof. intros a b Ka Kb [x y] H. apply in_pairs in H. destruct H. split; [apply Ka | apply Kb]; cbn; now apply in_map. Qed.
  Lemma pairs_ok2 : forall a b, keys_ok R2 a -> keys_ok R2 b -> forall p, In p (pairs a b) -> both_ok2 p.
  Proof. intros a b Ka Kb [x y] H. apply in_pairs in H. destruct H. split; [apply Ka | apply Kb]; cbn; now apply in_map. Qed.

  Lemma binop_rel : forall op a b a' b', dinv R1 a -> dinv R1 b -> dinv R2 a' -> dinv R2 b' -> drel a a' -> drel b b' ->
    rrel drel (d_binop R1 op a b) (d_binop R2 op a' b').
  Proof.
    intros op a b a' b' Ia Ib Ia' Ib' [Ma _] [Mb _]. assert (P := pairs_rel _ _ _ _ Ma Mb).
    assert (O1 := pairs_ok1 _ _ (di_keys R1 a Ia) (di_keys R1 b Ib)). assert (O2 := pairs_ok2 _ _ (di_keys R2 a' Ia') (di_keys R2 b' Ib')).
    assert (S := combine_loop_same op _ _ P O1 O2 [] []).
    destruct (d_binop R1 op a b) as [d|x] eqn:E; destruct (d_binop R2 op a' b') as [d'|x'] eqn:E'.
    - apply d_binop_inv in E. apply d_binop_inv in E'. destruct E as [_ ->]. destruct E' as [_ ->]. cbn [rrel].
      apply mk_dist_rel; try (apply combos_coherent; apply di_coherent; assumption); try (apply combos_ok; apply di_keys; assumption).
      now apply combos_rel.
    - unfold d_binop, combine_distributions in E, E'. destruct (combine_loop R1 op _ []), (combine_loop R2 op _ []); cbn in S, E, E'; try discriminate; contradiction.
    - unfold d_binop, combine_distributions in E, E'. destruct (combine_loop R1 op _ []), (combine_loop R2 op _ []); cbn in S, E, E'; try discriminate; contradiction.
    - unfold d_binop, combine_distributions in E, E'. destruct (combine_loop R1 op _ []), (combine_loop R2 op _ []); cbn in S, E, E'; try discriminate. cbn. congruence.
  Qed.

  Lemma unop_rel : forall f a a', dinv R1 a -> dinv R2 a' -> drel a a' -> drel (d_unop R1 (o_map R1 f) a) (d_unop R2 (o_map R2 f) a').
  Proof.
    intros f a a' Ia Ia' [M _]. rewrite !d_unop_list.
    apply mk_dist_rel; try (apply unop_coherent; apply di_coherent; assumption); try (apply unop_ok; apply di_keys; assumption).
    eapply Forall2_map_both; [exact M|]. intros [o c] [o' c'] _ _ [[E F] G]. cbn in *. split; cbn; [|auto]. split; cbn; [congruence | exact F].
  Qed.

  (** ** Distributions of ints *)
  Lemma ints_rel : forall m, rrel drel (mk_dist_ints R1 m) (mk_dist_ints R2 m).
  Proof.
    intros m. destruct (mk_dist_ints_ok R1 m) as [s1 [E1 ->]]. destruct (mk_dist_ints_ok R2 m) as [s2 [E2 ->]]. cbn [rrel].
    apply mk_dist_rel; try apply lifted_coherent; try (now apply lifted_ok). unfold lifted.
    induction m as [|[v c] m IH]; cbn; constructor; auto. split; cbn; [|auto]. split; cbn; [auto|]. intros h. unfold osat. cbn.
    split; intros _; [apply (create_sat R2 s2 h E2) | apply (create_sat R1 s1 _ E1)].
  Qed.

  Lemma result_map_rel : forall a b, drel a b -> get_result_map R1 a = get_result_map R2 b.
  Proof.
    intros a b [M _]. unfold get_result_map. f_equal. apply Forall2_same. eapply Forall2_weaken; [|exact M].
    intros [o c] [o' c'] [[E _] F]. cbn in *. congruence.
  Qed.

  Lemma add_times_rel : forall k acc1 acc2 s1 s2, dinv R1 acc1 -> dinv R2 acc2 -> dinv R1 s1 -> dinv R2 s2 -> drel acc1 acc2 -> drel s1 s2 ->
    rrel drel (add_times R1 k acc1 s1) (add_times R2 k acc2 s2).
  Proof.
    induction k as [|k IH]; intros acc1 acc2 s1 s2 I1 I2 J1 J2 Ha Hs; cbn [add_times]; [exact Ha|].
    assert (B := binop_rel VAdd acc1 s1 acc2 s2 I1 J1 I2 J2 Ha Hs).
    destruct (d_binop R1 VAdd acc1 s1) as [d|x] eqn:E; destruct (d_binop R2 VAdd acc2 s2) as [d'|x'] eqn:E'; cbn [rrel] in B; try contradiction.
    - cbn [rbind]. apply IH; auto; [exact (d_binop_inv_preserved R1 _ _ _ _ I1 J1 E) | exact (d_binop_inv_preserved R2 _ _ _ _ I2 J2 E')].
    - cbn [rbind rrel]. exact B.
  Qed.

  Lemma dice_dist_rel : forall d, natural_counts (dice_map d) -> rrel drel (dice_dist R1 d) (dice_dist R2 d).
  Proof.
    intros d N. unfold dice_dist.
    assert (N' : forall vc, In vc (dice_map d) -> 0 <= snd vc) by (intros [v c] H; apply (N v c H)).
    destruct (mk_dist_ints_spec R1 _ N') as [d1 [E1 [I1 _]]]. destruct (mk_dist_ints_spec R2 _ N') as [d2 [E2 [I2 _]]].
    assert (H := ints_rel (dice_map d)). rewrite E1, E2 in H |- *. cbn [rbind rrel] in H |- *.
    rewrite (result_map_rel d1 d2 H).
    assert (M := result_map_nonneg R2 d2 (di_nonneg R2 d2 I2)).
    destruct (mk_dist_ints_spec R1 _ M) as [e1 [F1 [J1 _]]]. destruct (mk_dist_ints_spec R2 _ M) as [e2 [F2 [J2 _]]].
    assert (H' := ints_rel (get_result_map R2 d2)). rewrite F1, F2 in H' |- *. cbn [rbind rrel] in H' |- *. now apply add_times_rel.
  Qed.

  (** ** Storing a variable *)
  Lemma tag_all_rel : forall inst m1 m2, mrel m1 m2 -> mrel (tag_all R1 inst m1) (tag_all R2 (new_instance inst) m2).
  Proof.
    intros inst m1 m2 H. induction H as [|[o c] [o' c'] m1 m2 [[E F] G] H IH]; cbn [tag_all]; [constructor|]. cbn in E, F, G.
    destruct (tag_outcome_ok R1 inst o) as [t T]. destruct (tag_outcome_ok R2 (new_instance inst) o') as [t' T']. rewrite T, T'.
    constructor; [|exact IH]. split; cbn; [|auto]. split.
    - destruct (tag_outcome_inv R1 inst o t T) as [-> _]. destruct (tag_outcome_inv R2 _ o' t' T') as [-> _]. auto.
    - intros h. rewrite (tag_sat R1 inst o t _ T), (tag_sat R2 _ o' t' h T'), F, E. reflexivity.
  Qed.

  Definition nrel (x : text * dist R1) (y : text * dist R2) : Prop := fst y = rho (fst x) /\ drel (snd x) (snd y).
  Definition srel (s1 : state R1) (s2 : state R2) : Prop :=
    Forall2 nrel (st_var s1) (st_var s2) /\ st_const s2 = map (on_name rho) (st_const s1) /\ st_times s2 = map (on_name rho) (st_times s1).

  Lemma dget_rel : forall (l1 : list (text * dist R1)) (l2 : list (text * dist R2)), Forall2 nrel l1 l2 ->
    forall n, match dget text_eqb l1 n, dget text_eqb l2 (rho n) with Some a, Some b => drel a b | None, None => True | _, _ => False end.
  Proof.
    intros l1 l2 H n. induction H as [|[k a] [k' b] l1 l2 [E D] H IH]; cbn; [auto|]. cbn in E, D. subst k'. rewrite same_name. destruct (text_eqb k n); auto.
  Qed.

  Lemma dset_rel : forall (l1 : list (text * dist R1)) (l2 : list (text * dist R2)) n a b, Forall2 nrel l1 l2 -> drel a b ->
    Forall2 nrel (dset text_eqb l1 n a) (dset text_eqb l2 (rho n) b).
  Proof.
    intros l1 l2 n a b H D. induction H as [|[k x] [k' y] l1 l2 [E F] H IH]; cbn; [constructor; [split; auto | constructor]|]. cbn in E, F. subst k'. rewrite same_name.
    destruct (text_eqb k n); constructor; auto; split; auto.
  Qed.

  (** ** Computations on the state *)
  Definition related {A B} (P : A -> B -> Prop) (r1 : state R1 * res A) (r2 : state R2 * res B) : Prop :=
    srel (fst r1) (fst r2) /\ rrel P (snd r1) (snd r2).

  Lemma related_bind : forall A B C D (Q1 : state R1 -> A -> Prop) (Q2 : state R2 -> B -> Prop) (P : A -> B -> Prop) (P' : C -> D -> Prop)
    (m1 : M R1 A) (m2 : M R2 B) (f1 : A -> M R1 C) (f2 : B -> M R2 D) s1 s2,
    kept R1 Q1 s1 (m1 s1) -> kept R2 Q2 s2 (m2 s2) -> related P (m1 s1) (m2 s2) ->
    (forall t1 t2 a b, sinv R1 t1 -> sinv R2 t2 -> later R1 s1 t1 -> later R2 s2 t2 -> srel t1 t2 -> Q1 t1 a -> Q2 t2 b -> P a b ->
      related P' (f1 a t1) (f2 b t2)) ->
    related P' (bind R1 m1 f1 s1) (bind R2 m2 f2 s2).
  Proof.
    intros A B C D Q1 Q2 P P' m1 m2 f1 f2 s1 s2 K1 K2 [S H] F. unfold bind.
    destruct K1 as [I1 [L1 K1]]. destruct K2 as [I2 [L2 K2]].
    destruct (m1 s1) as [t1 [a|x]]; destruct (m2 s2) as [t2 [b|y]]; cbn [fst snd rrel] in *; try contradiction.
    - now apply F.
    - split; cbn; auto.
  Qed.

  Lemma related_lift : forall A B (P : A -> B -> Prop) r1 r2 s1 s2, srel s1 s2 -> rrel P r1 r2 -> related P (lift R1 r1 s1) (lift R2 r2 s2).
  Proof. intros. split; auto. Qed.
  Lemma related_ret : forall A B (P : A -> B -> Prop) a b s1 s2, srel s1 s2 -> P a b -> related P (ret R1 a s1) (ret R2 b s2).
  Proof. intros. split; auto. Qed.

  Lemma rrel_eq : forall A (r : res A), rrel eq r r.
  Proof. intros A [a|x]; cbn; auto. Qed.

  Lemma set_var_rel : forall s1 s2 n d1 d2, sinv R1 s1 -> sinv R2 s2 -> srel s1 s2 -> dwf R1 s1 d1 -> dwf R2 s2 d2 -> drel d1 d2 -> name_ok n -> name_ok (rho n) ->
    related (fun _ _ => True) (set_var R1 n d1 s1) (set_var R2 (rho n) d2 s2).
  Proof.
    intros s1 s2 n d1 d2 I1 I2 S W1 W2 D N N'.
    destruct (set_var_spec R1 s1 n d1 I1 W1 N) as [e1 [E1 [M1 [C1 _]]]]. destruct (set_var_spec R2 s2 (rho n) d2 I2 W2 N') as [e2 [E2 [M2 [C2 _]]]].
    rewrite E1, E2. destruct S as [SV [SC ST]]. assert (T : next_instance R2 s2 (rho n) = new_instance (next_instance R1 s1 n)).
    { unfold next_instance, times_of. now rewrite ST, dget_named, new_instance_name. }
    split; cbn [fst snd rrel]; [|exact Logic.I]. split; [|split]; cbn; [|auto|rewrite ST; apply bump_named].
    apply dset_rel; auto. destruct D as [DM DC]. split; [|congruence]. rewrite M1, M2, T. now apply tag_all_rel.
  Qed.

  Lemma binop_m_rel : forall op (a1 b1 : M R1 (dist R1)) (a2 b2 : M R2 (dist R2)) s1 s2,
    kept R1 (dwf R1) s1 (a1 s1) -> kept R2 (dwf R2) s2 (a2 s2) -> related drel (a1 s1) (a2 s2) ->
    (forall t1, sinv R1 t1 -> kept R1 (dwf R1) t1 (b1 t1)) -> (forall t2, sinv R2 t2 -> kept R2 (dwf R2) t2 (b2 t2)) ->
    (forall t1 t2, sinv R1 t1 -> sinv R2 t2 -> srel t1 t2 -> related drel (b1 t1) (b2 t2)) ->
    related drel (binop_m R1 op a1 b1 s1) (binop_m R2 op a2 b2 s2).
  Proof.
    intros op a1 b1 a2 b2 s1 s2 K1 K2 H L1 L2 F. unfold binop_m. eapply related_bind; [exact K1 | exact K2 | exact H|].
    intros t1 t2 x1 x2 I1 I2 _ _ S W1 W2 X. eapply related_bind; [apply L1; auto | apply L2; auto | apply F; auto|].
    intros u1 u2 y1 y2 J1 J2 _ _ S' V1 V2 Y. apply related_lift; auto. apply binop_rel; auto; [apply W1 | apply V1 | apply W2 | apply V2].
  Qed.

  Lemma dist_of_rel : forall e, well_formed e -> well_formed (rename rho e) -> forall s1 s2, sinv R1 s1 -> sinv R2 s2 -> srel s1 s2 ->
    related drel (dist_of R1 e s1) (dist_of R2 (rename rho e) s2).
  Proof.
    assert (BIN : forall op e1 e2, well_formed e1 /\ well_formed e2 -> well_formed (rename rho e1) /\ well_formed (rename rho e2) ->
      (well_formed e1 -> well_formed (rename rho e1) ->
       forall s1 s2, sinv R1 s1 -> sinv R2 s2 -> srel s1 s2 -> related drel (dist_of R1 e1 s1) (dist_of R2 (rename rho e1) s2)) ->
      (well_formed e2 -> well_formed (rename rho e2) ->
       forall s1 s2, sinv R1 s1 -> sinv R2 s2 -> srel s1 s2 -> related drel (dist_of R1 e2 s1) (dist_of R2 (rename rho e2) s2)) ->
      forall s1 s2, sinv R1 s1 -> sinv R2 s2 -> srel s1 s2 ->
      related drel (binop_m R1 op (dist_of R1 e1) (dist_of R1 e2) s1) (binop_m R2 op (dist_of R2 (rename rho e1)) (dist_of R2 (rename rho e2)) s2)).
    { intros op e1 e2 [W1 W2] [V1 V2] H1 H2 s1 s2 I1 I2 S. apply binop_m_rel; auto; intros; apply dist_of_kept; auto. }
    induction e; intros W W' s1 s2 I1 I2 S; cbn [well_formed rename] in W, W'; cbn [rename].
    - cbn [dist_of]. auto.
    - cbn [dist_of]. eapply related_bind; [apply dist_of_kept; auto | apply dist_of_kept; auto | apply IHe; auto|].
      intros t1 t2 a b J1 J2 _ _ S' V1 V2 X. apply related_ret; auto. apply unop_rel; [apply V1 | apply V2 | exact X].
    - destruct W as [[form Mk] [N K]]. cbn [dist_of]. destruct (mk_dropkeep_inv form d Mk) as [Nat _]. destruct (dk_simple d) as [[d0|t]|] eqn:E.
      + apply related_lift; auto. apply dice_dist_rel. eapply simple_natural; eauto.
      + apply related_lift; auto. destruct (int_of_text t); cbn [rbind]; [apply ints_rel | reflexivity].
      + apply related_lift; auto. unfold dk_dist_full. destruct (dk_outcome_map d); cbn [rbind]; [apply ints_rel | reflexivity].
    - destruct W as [[form Mk] N]. cbn [dist_of]. apply related_lift; auto. apply dice_dist_rel. eapply dice_natural; eauto.
    - cbn [dist_of]. apply related_lift; auto. destruct (int_of_text number); cbn [rbind]; [apply ints_rel | reflexivity].
    - cbn [dist_of]. apply related_lift; auto. apply ints_rel.
    - cbn [dist_of]. apply BIN; auto; tauto.
    - cbn [dist_of]. apply BIN; auto; tauto.
    - cbn [dist_of]. apply BIN; auto; tauto.
    - cbn [dist_of]. apply BIN; auto; tauto.
    - cbn [dist_of]. destruct (dist_operator operator); [apply BIN; auto; tauto | apply related_lift; auto; reflexivity].
    - cbn [dist_of]. apply BIN; auto; tauto.
    - cbn [dist_of]. eapply related_bind; [apply dist_of_kept; auto | apply dist_of_kept; auto | apply IHe; auto|].
      intros t1 t2 a b J1 J2 _ _ S' V1 V2 X. apply related_ret; auto. apply unop_rel; [apply V1 | apply V2 | exact X].
    - cbn [dist_of]. destruct W as [Nc W]. destruct W' as [Nc' W']. eapply related_bind; [apply dist_of_kept; auto | apply dist_of_kept; auto | apply IHe; auto|].
      intros t1 t2 a b J1 J2 _ _ S' V1 V2 X.
      eapply (related_bind _ _ _ _ (fun _ _ => True) (fun _ _ => True)); [apply kept_set_var; auto | apply kept_set_var; auto | apply set_var_rel; auto|].
      intros u1 u2 _ _ _ _ _ _ S'' _ _ _. now apply related_ret.
    - cbn [dist_of]. unfold get_var. assert (H := dget_rel _ _ (proj1 S) name).
      destruct (dget text_eqb (st_var s1) name), (dget text_eqb (st_var s2) (rho name)); try contradiction; split; cbn; auto.
  Qed.

  (** ** What is read off a distribution *)
  Lemma ext_rel : forall mx a b, drel a b -> d_ext R1 mx a = d_ext R2 mx b.
  Proof. intros mx a b D. unfold d_ext, d_max, d_min. now rewrite (result_map_rel a b D). Qed.
  Lemma zero_rel : forall a b, drel a b -> contains_zero R1 a = contains_zero R2 b.
  Proof. intros a b D. unfold contains_zero. now rewrite (result_map_rel a b D). Qed.
  Lemma average_rel : forall a b, drel a b -> d_average R1 a = d_average R2 b.
  Proof. intros a b D. unfold d_average. now rewrite (result_map_rel a b D), (proj2 D). Qed.
  Lemma dict_rel : forall a b, drel a b -> get_dict_form R1 a = get_dict_form R2 b.
  Proof. intros a b D. unfold get_dict_form. now rewrite (result_map_rel a b D), (proj2 D). Qed.
  Lemma at_least_rel : forall a b, drel a b -> at_least R1 a = at_least R2 b.
  Proof. intros a b D. unfold at_least. now rewrite (dict_rel a b D). Qed.
  Lemma at_most_rel : forall a b, drel a b -> at_most R1 a = at_most R2 b.
  Proof. intros a b D. unfold at_most. now rewrite (dict_rel a b D). Qed.
  Lemma histogram_data_rel : forall a b, drel a b -> histogram_data R1 a = histogram_data R2 b.
  Proof. intros a b D. unfold histogram_data. now rewrite (dict_rel a b D). Qed.
  Lemma at_least_data_rel : forall a b, drel a b -> at_least_histogram_data R1 a = at_least_histogram_data R2 b.
  Proof. intros a b D. unfold at_least_histogram_data. now rewrite (at_least_rel a b D). Qed.
  Lemma at_most_data_rel : forall a b, drel a b -> at_most_histogram_data R1 a = at_most_histogram_data R2 b.
  Proof. intros a b D. unfold at_most_histogram_data. now rewrite (at_most_rel a b D). Qed.
  Lemma histogram_rel : forall a b, drel a b -> histogram_plot R1 a = histogram_plot R2 b.
  Proof. intros a b D. unfold histogram_plot, with_average. now rewrite (histogram_data_rel a b D), (average_rel a b D). Qed.
  Lemma at_least_plot_rel : forall a b, drel a b -> at_least_plot R1 a = at_least_plot R2 b.
  Proof. intros a b D. unfold at_least_plot, with_average. now rewrite (at_least_data_rel a b D), (average_rel a b D). Qed.
  Lemma at_most_plot_rel : forall a b, drel a b -> at_most_plot R1 a = at_most_plot R2 b.
  Proof. intros a b D. unfold at_most_plot, with_average. now rewrite (at_most_data_rel a b D), (average_rel a b D). Qed.

  (** ** max, min and estimated_cost *)
  Lemma get_constant_rel : forall n s1 s2, srel s1 s2 -> related eq (s1, get_constant R1 n s1) (s2, get_constant R2 (rho n) s2).
  Proof. intros n s1 s2 S. split; [exact S|]. cbn. unfold get_constant. destruct S as [_ [-> _]]. rewrite dget_named. apply rrel_eq. Qed.

  Lemma set_constant_rel : forall n v s1 s2, srel s1 s2 -> srel (set_constant R1 n v s1) (set_constant R2 (rho n) v s2).
  Proof. intros n v s1 s2 [S1 [S2 S3]]. split; [exact S1|]. cbn. now rewrite S2, S3, dset_named, bump_named. Qed.

  Lemma set_const_m_rel : forall n v s1 s2, srel s1 s2 -> related (fun _ _ => True) (set_const_m R1 n v s1) (set_const_m R2 (rho n) v s2).
  Proof. intros. split; [now apply set_constant_rel | exact Logic.I]. Qed.

  Lemma ext_via_rel : forall mx e, well_formed e -> well_formed (rename rho e) -> forall s1 s2, sinv R1 s1 -> sinv R2 s2 -> srel s1 s2 ->
    related eq (ext_via_dist R1 mx e s1) (ext_via_dist R2 mx (rename rho e) s2).
  Proof.
    intros mx e W W' s1 s2 I1 I2 S. unfold ext_via_dist. eapply related_bind; [apply dist_of_kept; auto | apply dist_of_kept; auto | apply dist_of_rel; auto|].
    intros t1 t2 a b _ _ _ _ S' _ _ X. apply related_lift; auto. rewrite (ext_rel mx a b X). apply rrel_eq.
  Qed.

  Lemma ext_of_rel : forall mx e, well_formed e -> well_formed (rename rho e) -> forall s1 s2, sinv R1 s1 -> sinv R2 s2 -> srel s1 s2 ->
    related eq (ext_of R1 mx e s1) (ext_of R2 mx (rename rho e) s2).
  Proof.
    intros mx. induction e; intros W W' s1 s2 I1 I2 S; try (exact (ext_via_rel mx _ W W' s1 s2 I1 I2 S)); cbn [ext_of rename]; pose proof W as W0; pose proof W' as W0'; cbn [well_formed rename] in W, W'.
    - auto.
    - destruct (dk_simple d) as [[d0|t]|]; apply related_lift; auto; apply rrel_eq.
    - apply related_lift; auto; apply rrel_eq.
    - apply related_lift; auto; apply rrel_eq.
    - now apply related_ret.
    - destruct W as [W1 W2]. destruct W' as [V1 V2]. eapply related_bind; [apply dist_of_kept; auto | apply dist_of_kept; auto | apply dist_of_rel; auto|].
      intros t1 t2 a b J1 J2 _ _ S' _ _ X. rewrite (zero_rel a b X). destruct (contains_zero R2 b); [apply related_lift; auto; reflexivity|].
      apply (ext_via_rel mx (EDiv e1 e2)); auto.
    - destruct W as [_ [W1 W2]]. destruct W' as [_ [V1 V2]]. destruct (minmax_operator min_max); [|apply related_lift; auto; reflexivity].
      eapply related_bind; [apply ext_of_kept; auto | apply ext_of_kept; auto | apply IHe1; auto|]. intros t1 t2 a b J1 J2 _ _ S' _ _ <-.
      eapply related_bind; [apply ext_of_kept; auto | apply ext_of_kept; auto | apply IHe2; auto|]. intros u1 u2 x y _ _ _ _ S'' _ _ <-. now apply related_ret.
    - destruct W as [Nc W]. destruct W' as [Nc' W']. eapply related_bind; [apply ext_of_kept; auto | apply ext_of_kept; auto | apply IHe; auto|]. intros t1 t2 a b J1 J2 _ _ S' _ _ <-.
      eapply (related_bind _ _ _ _ (fun _ _ => True) (fun _ _ => True)); [apply kept_set_const; auto | apply kept_set_const; auto | apply set_const_m_rel; auto|].
      intros u1 u2 _ _ K1 K2 _ _ S'' _ _ _.
      eapply related_bind; [apply dist_of_kept; auto | apply dist_of_kept; auto | apply dist_of_rel; auto|]. intros v1 v2 x y L1 L2 _ _ S3 V1 V2 X.
      eapply (related_bind _ _ _ _ (fun _ _ => True) (fun _ _ => True)); [apply kept_set_var; auto | apply kept_set_var; auto | apply set_var_rel; auto|].
      intros w1 w2 _ _ _ _ _ _ S4 _ _ _. now apply related_ret.
    - now apply get_constant_rel.
  Qed.

  Lemma cost_of_rel : forall e s1 s2, sinv R1 s1 -> sinv R2 s2 -> srel s1 s2 -> related eq (cost_of R1 e s1) (cost_of R2 (rename rho e) s2).
  Proof.
    assert (SUM : forall e1 e2, (forall s1 s2, sinv R1 s1 -> sinv R2 s2 -> srel s1 s2 -> related eq (cost_of R1 e1 s1) (cost_of R2 (rename rho e1) s2)) ->
      (forall s1 s2, sinv R1 s1 -> sinv R2 s2 -> srel s1 s2 -> related eq (cost_of R1 e2 s1) (cost_of R2 (rename rho e2) s2)) ->
      forall s1 s2, sinv R1 s1 -> sinv R2 s2 -> srel s1 s2 ->
      related eq (cost_sum R1 (cost_of R1 e1) (cost_of R1 e2) s1) (cost_sum R2 (cost_of R2 (rename rho e1)) (cost_of R2 (rename rho e2)) s2)).
    { intros e1 e2 H1 H2 s1 s2 I1 I2 S. unfold cost_sum. eapply related_bind; [apply cost_of_kept; auto | apply cost_of_kept; auto | apply H1; auto|].
      intros t1 t2 a b J1 J2 _ _ S' _ _ <-. eapply related_bind; [apply cost_of_kept; auto | apply cost_of_kept; auto | apply H2; auto|].
      intros u1 u2 x y _ _ _ _ S'' _ _ <-. now apply related_ret. }
    induction e; intros s1 s2 I1 I2 S; cbn [cost_of rename]; auto; try (now apply related_ret).
    - eapply related_bind; [apply cost_of_kept; auto | apply cost_of_kept; auto | apply IHe; auto|]. intros t1 t2 a b _ _ _ _ S' _ _ <-.
      apply related_lift; auto. apply rrel_eq.
    - destruct (dk_simple d) as [[d0|t]|]; now apply related_ret.
    - eapply related_bind; [apply cost_of_kept; auto | apply cost_of_kept; auto | apply IHe; auto|]. intros t1 t2 a b J1 J2 _ _ S' _ _ <-.
      eapply (related_bind _ _ _ _ (fun _ _ => True) (fun _ _ => True)); [apply kept_set_const; auto | apply kept_set_const; auto | apply set_const_m_rel; auto|].
      intros u1 u2 _ _ _ _ _ _ S'' _ _ _. now apply related_ret.
    - now apply get_constant_rel.
  Qed.

  (** ** The calls *)
  Lemma stdout_const_rel : forall x s1 s2, srel s1 s2 -> srel (set_stdout_const R1 x s1) (set_stdout_const R2 x s2).
  Proof.
    intros x s1 s2 [S1 [S2 S3]]. split; [exact S1|]. unfold set_stdout_const. cbn [st_const st_times]. pose proof (dset_named Z (st_const s1) stdout x) as H.
    rewrite rho_stdout in H. now rewrite S2, H.
  Qed.
  Lemma stdout_var_rel : forall a b s1 s2, srel s1 s2 -> drel a b -> srel (set_stdout_var R1 a s1) (set_stdout_var R2 b s2).
  Proof. intros a b s1 s2 [S1 [S2 S3]] D. split; [|auto]. unfold set_stdout_var. cbn [st_var]. pose proof (dset_rel _ _ stdout a b S1 D) as H. now rewrite rho_stdout in H. Qed.

  (** the lines have the same tree up to the names, or none of them has *)
  Definition lrel (l l' : text) : Prop := rrel (fun e e' => e' = rename rho e) (parse l) (parse l').

  Lemma parse_rel : forall l l' s1 s2, lrel l l' -> srel s1 s2 -> related (fun e e' => e' = rename rho e) (lift R1 (parse l) s1) (lift R2 (parse l') s2).
  Proof. intros. now apply related_lift. Qed.

  Lemma ext_line_kept : forall R mx l (s : state R), sinv R s -> kept R (fun _ _ => True) s (ext_line R mx l s).
  Proof.
    intros R mx l s I. unfold ext_line. eapply kept_bind; [now apply parse_kept|]. intros s1 e I1 _ W.
    eapply kept_bind; [now apply ext_of_kept|]. intros s2 v I2 _ _. destruct (sinv_stdout_const R v s2 I2). split; [|split]; auto; exact Logic.I.
  Qed.

  Lemma ext_from_rel : forall mx lines lines', Forall2 lrel lines lines' -> forall rd s1 s2, sinv R1 s1 -> sinv R2 s2 -> srel s1 s2 ->
    related eq (ext_from R1 mx rd lines s1) (ext_from R2 mx rd lines' s2).
  Proof.
    intros mx lines lines' H. induction H as [|l l' lines lines' L H IH]; intros rd s1 s2 I1 I2 S; cbn [ext_from]; [now apply related_ret|].
    eapply related_bind; [apply ext_line_kept; auto | apply ext_line_kept; auto | | intros t1 t2 a b J1 J2 _ _ S' _ _ <-; auto].
    unfold ext_line. eapply related_bind; [apply parse_kept; auto | apply parse_kept; auto | apply parse_rel; auto|].
    intros t1 t2 e e' J1 J2 _ _ S' W W' ->. eapply related_bind; [apply ext_of_kept; auto | apply ext_of_kept; auto | apply ext_of_rel; auto|].
    intros u1 u2 x y _ _ _ _ S'' _ _ <-. split; cbn; [now apply stdout_const_rel | auto].
  Qed.


  Lemma dist_line_kept : forall R l (s : state R), sinv R s -> kept R (fun _ _ => True) s (dist_line R l s).
  Proof.
    intros R l s I. unfold dist_line. eapply kept_bind; [now apply parse_kept|]. intros s1 e I1 _ W.
    eapply kept_bind; [now apply dist_of_kept|]. intros s2 d I2 _ W2. destruct (sinv_stdout_var R d s2 I2 W2). split; [|split]; auto; exact Logic.I.
  Qed.

  Lemma dist_lines_rel : forall lines lines', Forall2 lrel lines lines' -> forall ran s1 s2, sinv R1 s1 -> sinv R2 s2 -> srel s1 s2 ->
    related (Forall2 nrel) (dist_lines R1 ran lines s1) (dist_lines R2 ran lines' s2).
  Proof.
    intros lines lines' H. induction H as [|l l' lines lines' L H IH]; intros ran s1 s2 I1 I2 S; cbn [dist_lines].
    - split; cbn; [exact S|]. destruct ran; [apply S | constructor].
    - eapply (related_bind _ _ _ _ (fun _ _ => True) (fun _ _ => True) (fun _ _ => True));
        [apply dist_line_kept; auto | apply dist_line_kept; auto | | intros t1 t2 a b J1 J2 _ _ S' _ _ _; auto].
      unfold dist_line. eapply related_bind; [apply parse_kept; auto | apply parse_kept; auto | apply parse_rel; auto|].
      intros t1 t2 e e' J1 J2 _ _ S' W W' ->. eapply related_bind; [apply dist_of_kept; auto | apply dist_of_kept; auto | apply dist_of_rel; auto|].
      intros u1 u2 x y _ _ _ _ S'' _ _ X. split; cbn; [now apply stdout_var_rel | auto].
  Qed.

  Lemma last_dist_rel : forall lines lines', Forall2 lrel lines lines' -> forall a b s1 s2, sinv R1 s1 -> sinv R2 s2 -> srel s1 s2 -> drel a b ->
    related drel (last_dist R1 a lines s1) (last_dist R2 b lines' s2).
  Proof.
    intros lines lines' H. induction H as [|l l' lines lines' L H IH]; intros a b s1 s2 I1 I2 S D; cbn [last_dist]; [now apply related_ret|].
    eapply related_bind; [apply parse_kept; auto | apply parse_kept; auto | apply parse_rel; auto|].
    intros t1 t2 e e' J1 J2 _ _ S' W W' ->. eapply related_bind; [apply dist_of_kept; auto | apply dist_of_kept; auto | apply dist_of_rel; auto|].
    intros u1 u2 x y K1 K2 _ _ S'' _ _ X. auto.
  Qed.

  Lemma cost_from_rel : forall lines lines', Forall2 lrel lines lines' -> forall t s1 s2, sinv R1 s1 -> sinv R2 s2 -> srel s1 s2 -> related eq (cost_from R1 t lines s1) (cost_from R2 t lines' s2).
  Proof.
    intros lines lines' H. induction H as [|l l' lines lines' L H IH]; intros t s1 s2 I1 I2 S; cbn [cost_from]; [now apply related_ret|].
    eapply related_bind; [apply parse_kept; auto | apply parse_kept; auto | apply parse_rel; auto|].
    intros t1 t2 e e' J1 J2 _ _ S' W W' ->. eapply related_bind; [apply cost_of_kept; auto | apply cost_of_kept; auto | apply cost_of_rel; auto|].
    intros u1 u2 x y K1 K2 _ _ S'' _ _ <-. auto.
  Qed.

  Lemma map_res_rel : forall A (f1 : dist R1 -> res A) (f2 : dist R2 -> res A) l1 l2, (forall a b, drel a b -> f1 a = f2 b) ->
    Forall2 nrel l1 l2 -> map_res f2 l2 = rmap (map (on_name rho)) (map_res f1 l1).
  Proof.
    intros A f1 f2 l1 l2 E H. induction H as [|[k a] [k' b] l1 l2 [F D] H IH]; cbn; [auto|]. cbn in F, D. subst k'. rewrite (E a b D), IH.
    destruct (f2 b); cbn; [|auto]. destruct (map_res f1 l1); reflexivity.
  Qed.

  Lemma then_lift_rel : forall A B C (Q1 : state R1 -> A -> Prop) (Q2 : state R2 -> B -> Prop) (P : A -> B -> Prop) (m1 : M R1 A) (m2 : M R2 B)
    (f1 : A -> res C) (f2 : B -> res C) (g : C -> C) s1 s2,
    kept R1 Q1 s1 (m1 s1) -> kept R2 Q2 s2 (m2 s2) -> related P (m1 s1) (m2 s2) -> (forall a b, P a b -> f2 b = rmap g (f1 a)) ->
    related (fun x y => y = g x) (bind R1 m1 (fun a => lift R1 (f1 a)) s1) (bind R2 m2 (fun b => lift R2 (f2 b)) s2).
  Proof.
    intros A B C Q1 Q2 P m1 m2 f1 f2 g s1 s2 K1 K2 H E. eapply related_bind; [exact K1 | exact K2 | exact H|].
    intros t1 t2 a b _ _ _ _ S _ _ X. apply related_lift; auto. rewrite (E a b X). destruct (f1 a); cbn; auto.
  Qed.

  (** ** roll *)
  Definition related_runs {A} (l1 : list (Z * (state R1 * res A))) (l2 : list (Z * (state R2 * res A))) : Prop :=
    Forall2 (fun x y => fst x = fst y /\ related eq (snd x) (snd y)) l1 l2.

  Lemma runs_one : forall A w (r : res A) s1 s2, srel s1 s2 -> related_runs [(w, (s1, r))] [(w, (s2, r))].
  Proof. intros. constructor; [|constructor]. split; [auto|]. split; [auto | apply rrel_eq]. Qed.

  Lemma runs_bind : forall A B (m1 : W R1 A) (m2 : W R2 A) (f1 : A -> W R1 B) (f2 : A -> W R2 B) s1 s2, related_runs (m1 s1) (m2 s2) ->
    (forall a t1 t2, srel t1 t2 -> related_runs (f1 a t1) (f2 a t2)) -> related_runs (wbind R1 m1 f1 s1) (wbind R2 m2 f2 s2).
  Proof.
    intros A B m1 m2 f1 f2 s1 s2 H F. unfold wbind. eapply Forall2_flat_map; [exact H|].
    intros [w [t1 [a|x]]] [w' [t2 [b|y]]] _ _ [E [S K]]; cbn [fst snd rrel] in *; try contradiction; subst.
    - eapply Forall2_map_both; [apply (F b t1 t2 S)|]. intros [u r] [u' r'] _ _ [E K]. cbn in *. subst. split; auto.
    - constructor; [|constructor]. split; [auto|]. split; cbn; auto.
  Qed.

  Lemma runs_parse : forall A l l' (f1 : expr -> W R1 A) (f2 : expr -> W R2 A) s1 s2, lrel l l' -> srel s1 s2 ->
    (forall e, related_runs (f1 e s1) (f2 (rename rho e) s2)) ->
    related_runs (wbind R1 (wlift R1 (parse l)) f1 s1) (wbind R2 (wlift R2 (parse l')) f2 s2).
  Proof.
    intros A l l' f1 f2 s1 s2 L S F. unfold wbind, wlift. unfold lrel in L.
    destruct (parse l) as [e|x], (parse l') as [e'|x']; cbn [rrel flat_map] in *; try contradiction; subst.
    - rewrite !app_nil_r. eapply Forall2_map_both; [apply (F e)|]. intros [u r] [u' r'] _ _ [E K]. cbn in *. subst. split; auto.
    - constructor; [|constructor]. split; [auto|]. split; cbn; auto.
  Qed.

  Lemma runs_rolls : forall A (l : rolls A) s1 s2, srel s1 s2 -> related_runs (wrolls R1 l s1) (wrolls R2 l s2).
  Proof.
    intros A l s1 s2 S. unfold wrolls. induction l as [|[w r] l IH]; cbn; constructor; auto. split; [auto|]. split; [auto | apply rrel_eq].
  Qed.

  Lemma runs_binop : forall f (a1 b1 : W R1 Z) (a2 b2 : W R2 Z) s1 s2, related_runs (a1 s1) (a2 s2) ->
    (forall t1 t2, srel t1 t2 -> related_runs (b1 t1) (b2 t2)) -> related_runs (wbinop R1 f a1 b1 s1) (wbinop R2 f a2 b2 s2).
  Proof.
    intros f a1 b1 a2 b2 s1 s2 Ha Hb. unfold wbinop. apply runs_bind; auto. intros x t1 t2 S. apply runs_bind; auto. intros y u1 u2 S'. now apply runs_one.
  Qed.

  Lemma roll_of_rel : forall e s1 s2, srel s1 s2 -> related_runs (roll_of R1 e s1) (roll_of R2 (rename rho e) s2).
  Proof.
    induction e; intros s1 s2 S; cbn [roll_of rename]; auto; try (apply runs_binop; auto; fail); try (now apply runs_rolls); try (now apply runs_one).
    - apply runs_bind; auto. intros x t1 t2 S'. now apply runs_one.
    - destruct (dk_simple d) as [[d0|t]|]; try (now apply runs_rolls). now apply runs_one.
    - apply runs_bind; auto. intros x t1 t2 S'. destruct (x =? 0); [now apply runs_one|]. apply runs_bind; auto. intros y u1 u2 S''. now apply runs_one.
    - destruct (int_operator operator); [apply runs_binop; auto | now apply runs_one].
    - destruct (minmax_operator min_max); [apply runs_binop; auto | now apply runs_one].
    - apply runs_bind; auto. intros x t1 t2 S'. now apply runs_one.
    - apply runs_bind; auto. intros x t1 t2 S'. apply runs_one. now apply set_constant_rel.
    - unfold get_constant. rewrite (proj1 (proj2 S)), dget_named. now apply runs_one.
  Qed.

  Lemma roll_from_rel : forall lines lines', Forall2 lrel lines lines' -> forall rd s1 s2, srel s1 s2 ->
    related_runs (roll_from R1 rd lines s1) (roll_from R2 rd lines' s2).
  Proof.
    intros lines lines' H. induction H as [|l l' lines lines' L H IH]; intros rd s1 s2 S; cbn [roll_from]; [now apply runs_one|].
    apply runs_bind; [|intros; auto]. unfold roll_line. apply runs_parse; auto. intros e.
    apply runs_bind; [now apply roll_of_rel|]. intros v u1 u2 S''. apply runs_one. now apply stdout_const_rel.
  Qed.

  (** *** with the numbers of a generator *)
  Context (G : Generator).
  Definition related_draw {A} (x : (state R1 * res A) * gen G) (y : (state R2 * res A) * gen G) : Prop := related eq (fst x) (fst y) /\ snd x = snd y.

  Lemma draw_one : forall A (r : res A) g s1 s2, srel s1 s2 -> related_draw ((s1, r), g) ((s2, r), g).
  Proof. intros. split; [split; [auto | apply rrel_eq] | auto]. Qed.

  Lemma draw_bind : forall A B (m1 : D R1 G A) (m2 : D R2 G A) (f1 : A -> D R1 G B) (f2 : A -> D R2 G B) s1 s2 g, related_draw (m1 s1 g) (m2 s2 g) ->
    (forall a t1 t2 g', srel t1 t2 -> related_draw (f1 a t1 g') (f2 a t2 g')) -> related_draw (gbind R1 G m1 f1 s1 g) (gbind R2 G m2 f2 s2 g).
  Proof.
    intros A B m1 m2 f1 f2 s1 s2 g H F. unfold gbind. destruct (m1 s1 g) as [[t1 [a|x]] g1]; destruct (m2 s2 g) as [[t2 [b|y]] g2]; destruct H as [[S K] E];
      cbn [fst snd rrel] in *; try contradiction; subst; [auto | now apply draw_one].
  Qed.

  Lemma draw_parse : forall A l l' (f1 : expr -> D R1 G A) (f2 : expr -> D R2 G A) s1 s2 g, lrel l l' -> srel s1 s2 ->
    (forall e, related_draw (f1 e s1 g) (f2 (rename rho e) s2 g)) ->
    related_draw (gbind R1 G (glift R1 G (parse l)) f1 s1 g) (gbind R2 G (glift R2 G (parse l')) f2 s2 g).
  Proof.
    intros A l l' f1 f2 s1 s2 g L S F. unfold gbind, glift. unfold lrel in L.
    destruct (parse l) as [e|x], (parse l') as [e'|x']; cbn [rrel] in *; try contradiction; subst; [auto | now apply draw_one].
  Qed.

  Lemma draw_choices : forall m k f s1 s2 g, srel s1 s2 -> related_draw (gchoices R1 G m k f s1 g) (gchoices R2 G m k f s2 g).
  Proof.
    intros m k f s1 s2 g S. unfold gchoices. destruct (choices_drawn m []); [|now apply draw_one]. destruct (draw G (Z.to_nat k) g). now apply draw_one.
  Qed.

  Lemma draw_binop : forall f (a1 b1 : D R1 G Z) (a2 b2 : D R2 G Z) s1 s2 g, related_draw (a1 s1 g) (a2 s2 g) ->
    (forall t1 t2 g', srel t1 t2 -> related_draw (b1 t1 g') (b2 t2 g')) -> related_draw (gbinop R1 G f a1 b1 s1 g) (gbinop R2 G f a2 b2 s2 g).
  Proof.
    intros f a1 b1 a2 b2 s1 s2 g Ha Hb. unfold gbinop. apply draw_bind; auto. intros x t1 t2 g1 S. apply draw_bind; auto. intros y u1 u2 g2 S'. now apply draw_one.
  Qed.

  Lemma drawn_of_rel : forall e s1 s2 g, srel s1 s2 -> related_draw (drawn_of R1 G e s1 g) (drawn_of R2 G (rename rho e) s2 g).
  Proof.
    induction e; intros s1 s2 g S; cbn [drawn_of rename]; auto; try (apply draw_binop; auto; fail); try (now apply draw_choices); try (now apply draw_one).
    - apply draw_bind; auto. intros x t1 t2 g1 S'. now apply draw_one.
    - destruct (dk_simple d) as [[d0|t]|]; try (now apply draw_choices). now apply draw_one.
    - apply draw_bind; auto. intros x t1 t2 g1 S'. destruct (x =? 0); [now apply draw_one|]. apply draw_bind; auto. intros y u1 u2 g2 S''. now apply draw_one.
    - destruct (int_operator operator); [apply draw_binop; auto | now apply draw_one].
    - destruct (minmax_operator min_max); [apply draw_binop; auto | now apply draw_one].
    - apply draw_bind; auto. intros x t1 t2 g1 S'. now apply draw_one.
    - apply draw_bind; auto. intros x t1 t2 g1 S'. apply draw_one. now apply set_constant_rel.
    - unfold get_constant. rewrite (proj1 (proj2 S)), dget_named. now apply draw_one.
  Qed.

  Lemma drawn_from_rel : forall lines lines', Forall2 lrel lines lines' -> forall rd s1 s2 g, srel s1 s2 ->
    related_draw (drawn_from R1 G rd lines s1 g) (drawn_from R2 G rd lines' s2 g).
  Proof.
    intros lines lines' H. induction H as [|l l' lines lines' L H IH]; intros rd s1 s2 g S; cbn [drawn_from]; [now apply draw_one|].
    apply draw_bind; [|intros; auto]. unfold drawn_line. apply draw_parse; auto. intros e.
    apply draw_bind; [now apply drawn_of_rel|]. intros v u1 u2 g2 S''. apply draw_one. now apply stdout_const_rel.
  Qed.
End Two.
