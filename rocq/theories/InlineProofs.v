(** * InlineProofs: a variable read once can be replaced by its definition *)
From Coq Require Import Permutation.
From Verif Require Import Py PyFacts PyFloat Constraint Distribution DistFacts DiceModel Expr Parser Interp SpecDice DiceFacts DiceProofs SpecProgram SpecRoll
  SpecInterp SpecAlgebra SpecInline ExprFacts ProgramFacts JointFacts RollFacts InlineFacts ProgramProofs RollProofs
  ExtFacts ExtProofs SpecExtreme ExtremeFacts.

(** ** How often variables are used *)
Definition line_uses (n : option text) (rest : program) : Z :=
  match rest with [] => 1 | _ => match n with Some m => uses m rest | None => 0 end end.
Definition later_uses (m : text) (n : option text) (rest : program) : Z :=
  match rest with [] => 0 | _ => match n with Some k => if text_eqb m k then 0 else uses m rest | None => uses m rest end end.

Lemma uses_line : forall m n f rest, uses m ((n, f) :: rest) = count m (reads f) * line_uses n rest + later_uses m n rest.
Proof.
  intros m n f [|l rest].
  - destruct n as [k|]; cbn [uses line_uses later_uses]; change (times_read m f) with (count m (reads f)); lia.
  - destruct n as [k|]; [reflexivity|]. cbn [line_uses later_uses]. rewrite Z.mul_0_r. reflexivity.
Qed.

Lemma not_read_uses : forall x p, not_read x p -> uses x p = 0.
Proof.
  intros x. induction p as [|[n f] p IH]; intros H; [reflexivity|]. destruct H as [H1 H2]. rewrite uses_line.
  apply count_zero in H1. rewrite H1. cbn [Z.mul]. rewrite Z.add_0_l. destruct p as [|l p]; [reflexivity|]. cbn [later_uses].
  destruct H2 as [->|H2]; [now rewrite text_eqb_refl|]. rewrite (IH H2). destruct n as [k|]; [destruct (text_eqb x k)|]; reflexivity.
Qed.

Lemma later_dead : forall x n rest, n = Some x \/ not_read x rest -> later_uses x n rest = 0.
Proof.
  intros x n rest H. unfold later_uses. destruct rest as [|l rest]; [reflexivity|]. destruct H as [->|H]; [now rewrite text_eqb_refl|].
  rewrite (not_read_uses _ _ H). destruct n as [k|]; [destruct (text_eqb x k)|]; reflexivity.
Qed.

Section Put.
  Context (x : text) (e : expr) (n : option text) (f : expr) (rest : program).
  Context (Once : times_read x f = 1) (Dead : n = Some x \/ not_read x rest).
  Notation long := ((Some x, e) :: (n, f) :: rest).
  Notation short := ((n, put x e f) :: rest).

  Lemma uses_defined : uses x ((n, f) :: rest) = line_uses n rest.
  Proof. rewrite uses_line, (later_dead _ _ _ Dead). change (count x (reads f)) with (times_read x f). rewrite Once. lia. Qed.

  Lemma uses_put : forall m, uses m long = uses m short.
  Proof.
    intros m. change (uses m long) with (times_read m e * uses x ((n, f) :: rest) + (if text_eqb m x then 0 else uses m ((n, f) :: rest))).
    rewrite uses_defined. rewrite !uses_line, count_put. change (count x (reads f)) with (times_read x f). rewrite Once.
    change (times_read m e) with (count m (reads e)). destruct (text_eqb m x) eqn:E; [|lia].
    apply text_eqb_eq in E. subst m. rewrite (later_dead _ _ _ Dead). lia.
  Qed.

  Lemma uses_put_after : forall before m, uses m (before ++ long) = uses m (before ++ short).
  Proof.
    induction before as [|[n' f'] before IH]; intros m; [apply uses_put|]. cbn [app]. rewrite !uses_line.
    assert (E : forall k, line_uses k (before ++ long) = line_uses k (before ++ short)).
    { intros k. unfold line_uses. destruct (long_nonempty x e n f rest before) as [N1 N2].
      destruct (before ++ long) eqn:E1; [congruence|]. destruct (before ++ short) eqn:E2; [congruence|]. destruct k; [apply IH | reflexivity]. }
    rewrite E. f_equal. unfold later_uses. destruct (long_nonempty x e n f rest before) as [N1 N2].
    destruct (before ++ long) eqn:E1; [congruence|]. destruct (before ++ short) eqn:E2; [congruence|].
    destruct n' as [k|]; [destruct (text_eqb m k); [reflexivity | apply IH] | apply IH].
  Qed.

  (** ** The weighted counts *)
  Context (sides : list (Z * Z) -> list Z) (v : Z).
  Definition value_weight (env : text -> option Z) (z : Z) : Z :=
    match rest with [] => if z =? v then 1 else 0 | _ => weighted sides (bind_value env n z) rest v end.

  Lemma weighted_once : forall env g, line_uses n rest = 1 -> weighted sides env ((n, g) :: rest) v = lsum (fo (value_weight env)) (joint sides env g).
  Proof.
    intros env g L. unfold line_uses in L. unfold value_weight. destruct rest as [|l rest'].
    - destruct n; cbn [weighted]; unfold occurrences; rewrite <- lsum_count; apply lsum_ext; intros [z|] _; reflexivity.
    - destruct n as [m|]; [|discriminate]. rewrite weighted_some, L. change (1 =? 0) with false. cbv iota.
      rewrite (lsum_grouped _ (joint sides env g) (nodup oz_dec (joint sides env g))).
      + apply lsum_ext. intros [z|] _; cbn [fo]; [rewrite howmany_some, Z.pow_1_r; reflexivity | lia].
      + apply NoDup_nodup.
      + intros z Hz. now apply nodup_In.
  Qed.

  Lemma value_weight_dead : forall env y z, value_weight (upd env x y) z = value_weight env z.
  Proof.
    intros env y z. unfold value_weight. destruct rest as [|l rest']; [reflexivity|]. apply weighted_agree. intros m Hm.
    destruct (text_eqb m x) eqn:E.
    - apply text_eqb_eq in E. subst m. destruct Dead as [->|D]; [cbn [bind_value]; now rewrite text_eqb_refl|].
      apply not_read_uses in D. rewrite uses_ulist in D. apply count_zero in D. contradiction.
    - destruct n as [k|]; cbn [bind_value]; unfold upd; rewrite E; reflexivity.
  Qed.

  Lemma weighted_put : line_uses n rest = 0 \/ line_uses n rest = 1 -> forall env, weighted sides env long v = weighted sides env short v.
  Proof.
    intros [L|L] env; rewrite weighted_some, uses_defined, L.
    - change (0 =? 0) with true. cbv iota. unfold line_uses in L. destruct rest as [|l rest']; [discriminate|].
      destruct n as [m|]; [|reflexivity]. rewrite !weighted_some, L. reflexivity.
    - change (1 =? 0) with false. cbv iota. rewrite (weighted_once env (put x e f) L), (lsum_perm _ _ _ _ (put_joint sides env x e f Once)), lsum_flat_map.
      rewrite (lsum_grouped _ (joint sides env e) (nodup oz_dec (joint sides env e))).
      + apply lsum_ext. intros [y|] _; cbn [fo].
        * rewrite howmany_some, Z.pow_1_r, (weighted_once _ f L). f_equal. apply lsum_ext. intros [z|] _; [|reflexivity]. cbn [fo].
          exact (value_weight_dead env (Some y) z).
        * rewrite (lsum_ext _ (fo (value_weight env)) (fun _ => 0)), lsum_zero; [lia|]. intros z Hz.
          assert (E : z = None) by (apply (joint_none sides (upd env x None) x f); [exact (count_in _ _ Once) | unfold upd; now rewrite text_eqb_refl | exact Hz]).
          now rewrite E.
      + apply NoDup_nodup.
      + intros z Hz. now apply nodup_In.
  Qed.

  Lemma weighted_put_after : line_uses n rest = 0 \/ line_uses n rest = 1 -> forall before env, weighted sides env (before ++ long) v = weighted sides env (before ++ short) v.
  Proof.
    intros L. induction before as [|[n' f'] before IH]; intros env; [now apply weighted_put|]. cbn [app].
    assert (U := uses_put_after before). destruct (long_nonempty x e n f rest before) as [N1 N2].
    destruct (before ++ long) as [|l1 q1] eqn:E1; [congruence|]. destruct (before ++ short) as [|l2 q2] eqn:E2; [congruence|].
    destruct n' as [k|]; [|exact (IH env)]. rewrite !weighted_some, U. destruct (uses k (l2 :: q2) =? 0); [apply IH|].
    apply lsum_ext. intros [z|] _; [|reflexivity]. cbn [fo]. now rewrite IH.
  Qed.
End Put.

(** ** The inlined program is a program of the same kind *)
Lemma reads_put : forall x e f m, In m (reads (put x e f)) -> In m (reads e) \/ (m <> x /\ In m (reads f)).
Proof.
  intros x e f m. induction f; cbn [put reads]; auto; try contradiction;
    try (intros H; apply in_app_or in H; destruct H as [H|H]; [destruct (IHf1 H) | destruct (IHf2 H)]; auto; right; split; try tauto; apply in_or_app; tauto).
  destruct (text_eqb name x) eqn:E; cbn [reads]; [auto|]. intros [->|[]]. right. apply text_eqb_neq in E. split; [exact E | now left].
Qed.
Lemma dice_put : forall x e f m, In m (dice_of (put x e f)) -> In m (dice_of e) \/ In m (dice_of f).
Proof.
  intros x e f m. induction f; cbn [put dice_of]; auto;
    try (rewrite !in_app_iff; tauto).
  destruct (text_eqb name x); cbn [dice_of]; auto.
Qed.
Lemma simple_put : forall x e f, simple e -> simple f -> simple (put x e f).
Proof. intros x e f He. induction f; cbn [put simple]; try tauto. destruct (text_eqb name x); auto. Qed.
Lemma well_formed_put : forall x e f, well_formed e -> well_formed f -> well_formed (put x e f).
Proof. intros x e f He. induction f; cbn [put well_formed]; try tauto. destruct (text_eqb name x); auto. Qed.
Lemma no_assignment_put : forall x e f, no_assignment e -> no_assignment f -> no_assignment (put x e f).
Proof. intros x e f He. induction f; cbn [put no_assignment]; try tauto. destruct (text_eqb name x); auto. Qed.

Lemma closed_more : forall p known known', closed known p -> (forall m, In m known -> In m known') -> closed known' p.
Proof.
  induction p as [|[n f] p IH]; intros known known' H I'; [exact Logic.I|]. destruct H as [H1 H2]. split; [auto|].
  eapply IH; [exact H2|]. destruct n as [k|]; auto. intros m [->|Hm]; [now left | right; auto].
Qed.
Lemma closed_without : forall x p known known', not_read x p -> closed known p -> (forall m, In m known -> m = x \/ In m known') -> closed known' p.
Proof.
  intros x. induction p as [|[n f] p IH]; intros known known' N H K; [exact Logic.I|]. destruct N as [N1 N2]. destruct H as [H1 H2].
  split; [intros m Hm; destruct (K m (H1 m Hm)) as [->|]; [contradiction | auto]|]. destruct N2 as [->|N2].
  - eapply closed_more; [exact H2|]. intros m [<-|Hm]; [now left|]. destruct (K m Hm) as [->|]; [now left | now right].
  - eapply IH; [exact N2 | exact H2|]. destruct n as [k|]; auto. intros m [<-|Hm]; [right; now left|]. destruct (K m Hm); [auto | right; now right].
Qed.

Lemma closed_put : forall x e n f rest, n = Some x \/ not_read x rest -> forall before known,
  closed known (before ++ (Some x, e) :: (n, f) :: rest) -> closed known (before ++ (n, put x e f) :: rest).
Proof.
  intros x e n f rest Dead. induction before as [|[n' f'] before IH]; intros known.
  - cbn [app closed]. intros [H1 [H2 H3]]. split.
    + intros m Hm. apply reads_put in Hm. destruct Hm as [Hm|[Ne Hm]]; [auto|]. destruct (H2 m Hm) as [<-|]; [congruence | auto].
    + destruct Dead as [->|D].
      * eapply closed_more; [exact H3|]. intros m [<-|[<-|Hm]]; [now left | now left | now right].
      * eapply closed_without; [exact D | exact H3|]. destruct n as [k|]; intros m Hm; cbn [In] in *; intuition auto.
  - cbn [app closed]. intros [H1 H2]. split; [exact H1 | now apply IH].
Qed.

Lemma good_put : forall x e n f rest before, n = Some x \/ not_read x rest ->
  good_program (before ++ (Some x, e) :: (n, f) :: rest) -> good_program (before ++ (n, put x e f) :: rest).
Proof.
  intros x e n f rest before Dead [_ [C G]]. split; [destruct before; discriminate|]. split; [now apply (closed_put x e n f rest Dead)|].
  intros m g H. apply in_app_or in H. destruct H as [H|[H|H]].
  - apply G, in_or_app. now left.
  - injection H as <- <-. assert (A := G (Some x) e). assert (B := G n f).
    destruct A as [A _]; [apply in_or_app; right; now left|]. destruct B as [B B']; [apply in_or_app; right; right; now left|].
    split; [now apply simple_put | exact B'].
  - apply G, in_or_app. right. right. now right.
Qed.
Lemma runnable_put : forall x e n f rest before, n = Some x \/ not_read x rest ->
  runnable (before ++ (Some x, e) :: (n, f) :: rest) -> runnable (before ++ (n, put x e f) :: rest).
Proof.
  intros x e n f rest before Dead [_ [C G]]. split; [destruct before; discriminate|]. split; [now apply (closed_put x e n f rest Dead)|].
  intros m g H. apply in_app_or in H. destruct H as [H|[H|H]].
  - apply G, in_or_app. now left.
  - injection H as <- <-. assert (A := G (Some x) e). assert (B := G n f).
    destruct A as [A [A' _]]; [apply in_or_app; right; now left|]. destruct B as [B [B' B'']]; [apply in_or_app; right; right; now left|].
    split; [now apply well_formed_put | split; [now apply no_assignment_put | exact B'']].
  - apply G, in_or_app. right. right. now right.
Qed.
Lemma program_dice_put : forall x e n f rest before m, In m (program_dice (before ++ (n, put x e f) :: rest)) ->
  In m (program_dice (before ++ (Some x, e) :: (n, f) :: rest)).
Proof.
  intros x e n f rest before m. unfold program_dice. rewrite !flat_map_app, !in_app_iff. cbn [flat_map snd]. rewrite !in_app_iff.
  intros [H|[H|H]]; auto. apply dice_put in H. tauto.
Qed.

Lemma rolled_program_cons : forall env n e l p, rolled_program env ((n, e) :: l :: p) =
  flat_map (fun x => match x with Some x => rolled_program (bind_value env n x) (l :: p) | None => [None] end) (rolled env e).
Proof. intros. destruct n; reflexivity. Qed.
Lemma rolled_program_one : forall env n e, rolled_program env [(n, e)] = rolled env e.
Proof. intros. destruct n; reflexivity. Qed.
Lemma results_one : forall sides env n e, results sides env [(n, e)] = joint sides env e.
Proof. intros. destruct n; reflexivity. Qed.
Lemma rolled_length : forall env e, length (rolled env e) = length (joint faces env e).
Proof.
  intros env e. induction e; cbn [rolled joint]; auto; try (rewrite !map_length; auto); try (rewrite !both_length; congruence).
Qed.
Lemma rolled_nonempty : forall env f, sides_ok faces f -> rolled env f <> [].
Proof.
  intros env f H E. apply (joint_nonempty faces env f H). apply length_zero_iff_nil. rewrite <- rolled_length, E. reflexivity.
Qed.

(** ** Extremes *)
Section Extreme.
  Context (mx : bool) (x : text) (e : expr).
  Context (E : values -> Prop) (stored : text -> Z -> Prop) (w : Z) (W : worked_out mx E stored e w).
  (** the definition has a value *)
  Context (V : forall env, E env -> exists y, In (Some y) (joint (map fst) env e)).
  Notation E2 := (values_after E (Some x) e).
  Notation stored2 := (stored_after stored (Some x) w).

  Lemma without_x : agree_off (fun m => m = x) E2 E.
  Proof.
    split.
    - intros env2 [env [y [H1 [H2 H3]]]]. exists env. split; auto. intros m Hm. rewrite H3. cbn [bind_value]. apply text_eqb_neq in Hm. now rewrite Hm.
    - intros env H. destruct (V env H) as [y Hy]. exists (bind_value env (Some x) y). split; [exists env, y; auto|].
      intros m Hm. cbn [bind_value]. apply text_eqb_neq in Hm. now rewrite Hm.
  Qed.
  Lemma stored_without_x : forall m v, m <> x -> stored2 m v -> stored m v.
  Proof. intros m v Hm. cbn [stored_after]. apply text_eqb_neq in Hm. now rewrite Hm. Qed.

  (** the values of an expression and those of the expression with the definition in it *)
  Lemma put_values : forall f, count x (reads f) = 1 -> forall env v, In (Some v) (joint (map fst) env (put x e f)) <->
    exists y, In (Some y) (joint (map fst) env e) /\ In (Some v) (joint (map fst) (bind_value env (Some x) y) f).
  Proof.
    intros f H env v. rewrite (Permutation_in' (eq_refl (Some v)) (put_joint (map fst) env x e f H)). rewrite in_flat_map. split.
    - intros [[y|] [Hy Hv]]; [exists y; split; auto|]. exfalso.
      assert (K : Some v = None) by (apply (joint_none (map fst) (upd env x None) x f); auto; [now apply count_in | unfold upd; now rewrite text_eqb_refl]). discriminate.
    - intros [y [Hy Hv]]. exists (Some y). split; auto.
  Qed.

  Lemma put_largest : forall f v, count x (reads f) = 1 -> largest mx E2 f v -> largest mx E (put x e f) v.
  Proof.
    intros f v H [[env2 [[env [y [H1 [H2 H3]]]] H4]] H5]. split.
    - exists env. split; auto. apply put_values; auto. exists y. split; auto. now rewrite <- (joint_agree (map fst) f env2).
    - intros env' z P Hz. apply put_values in Hz; auto. destruct Hz as [y' [Hy' Hz]]. apply (H5 (bind_value env' (Some x) y')); auto. exists env', y'. auto.
  Qed.

  Lemma put_worked : forall f v, count x (reads f) = 1 -> worked_out mx E2 stored2 f v -> worked_out mx E stored (put x e f) v.
  Proof.
    induction f; intros v H; cbn [worked_out put]; cbn [reads] in H; try discriminate H; try (now apply IHf);
      try (match goal with |- largest _ _ ?a _ -> _ => apply (put_largest a v H) end).
    - intros [g [a [b [F [H1 [H2 ->]]]]]]. exists g, a, b. split; auto. apply count_app' in H. destruct H as [[A B]|[A B]].
      + split; [now apply IHf1|]. split; [|reflexivity]. rewrite (put_unread _ _ _ B).
        apply (worked_out_off mx (fun m => m = x) E2 E stored2); auto using without_x, stored_without_x. intros m Hm ->. contradiction.
      + split; [|split; [now apply IHf2 | reflexivity]]. rewrite (put_unread _ _ _ A).
        apply (worked_out_off mx (fun m => m = x) E2 E stored2); auto using without_x, stored_without_x. intros m Hm ->. contradiction.
    - rewrite count_cons, count_nil in H. destruct (text_eqb x name) eqn:N; [|lia]. rewrite text_eqb_sym in N. rewrite N. cbn [stored_after]. rewrite N.
      intros ->. exact W.
  Qed.
End Extreme.

Lemma not_read_avoids : forall x p (X : text -> Prop), (forall m, X m -> m = x) -> not_read x p -> avoids X p.
Proof.
  intros x. induction p as [|[n f] p IH]; intros X H N; [exact Logic.I|]. destruct N as [N1 N2]. split.
  - intros m Hm C. apply H in C. subst. contradiction.
  - destruct N2 as [->|N2]; [apply avoids_nothing; intros m [C D]; apply H in C; congruence|]. apply IH; auto. intros m [C _]. auto.
Qed.

Lemma put_extreme : forall mx x e n f rest (E : values -> Prop) stored v, times_read x f = 1 -> n = Some x \/ not_read x rest ->
  (forall env, E env -> exists y, In (Some y) (joint (map fst) env e)) ->
  line_extreme mx E stored ((Some x, e) :: (n, f) :: rest) v -> line_extreme mx E stored ((n, put x e f) :: rest) v.
Proof.
  intros mx x e n f rest E stored v Once Dead V. rewrite line_extreme_cons. intros [w [W H]]. destruct rest as [|l rest].
  - rewrite line_extreme_one in *. now apply (put_worked mx x e E stored w W V).
  - rewrite line_extreme_cons in *. destruct H as [u [H1 H2]]. exists u. split; [now apply (put_worked mx x e E stored w W V)|].
    revert H2. apply (line_extreme_off mx (l :: rest) (fun m => m = x /\ n <> Some m)).
    + split.
      * intros env3 [env2 [z [[env [y [A [B C]]]] [D F]]]]. exists (bind_value env n z). split.
        -- exists env, z. split; auto. split; auto. apply put_values; auto. exists y. split; auto. now rewrite <- (joint_agree (map fst) f env2).
        -- intros m Hm. rewrite F. destruct n as [k|]; cbn [bind_value]; rewrite ?C; cbn [bind_value].
           ++ destruct (text_eqb m k) eqn:K; auto. destruct (text_eqb m x) eqn:X; auto. apply text_eqb_eq in X. subst m. exfalso. apply Hm.
              split; auto. intros J. injection J as ->. rewrite text_eqb_refl in K. discriminate.
           ++ destruct (text_eqb m x) eqn:X; auto. apply text_eqb_eq in X. subst m. exfalso. apply Hm. split; [auto | discriminate].
      * intros env3 [env [z [A [B C]]]]. apply put_values in B; auto. destruct B as [y [B D]]. exists (bind_value (bind_value env (Some x) y) n z). split.
        -- exists (bind_value env (Some x) y), z. split; [exists env, y; auto|]. auto.
        -- intros m Hm. rewrite C. destruct n as [k|]; cbn [bind_value].
           ++ destruct (text_eqb m k) eqn:K; auto. destruct (text_eqb m x) eqn:X; auto. apply text_eqb_eq in X. subst m. exfalso. apply Hm.
              split; auto. intros J. injection J as ->. rewrite text_eqb_refl in K. discriminate.
           ++ destruct (text_eqb m x) eqn:X; auto. apply text_eqb_eq in X. subst m. exfalso. apply Hm. split; [auto | discriminate].
    + intros m v0 Hm. destruct n as [k|]; cbn [stored_after].
      * destruct (text_eqb m k) eqn:K; auto. destruct (text_eqb m x) eqn:X; auto. apply text_eqb_eq in X. subst m. exfalso. apply Hm.
        split; auto. intros J. injection J as ->. rewrite text_eqb_refl in K. discriminate.
      * destruct (text_eqb m x) eqn:X; auto. apply text_eqb_eq in X. subst m. exfalso. apply Hm. split; [auto | discriminate].
    + destruct Dead as [->|D]; [apply avoids_nothing; intros m [-> C]; congruence|]. apply (not_read_avoids x); auto. intros m [C _]. auto.
Qed.

Lemma put_extreme_after : forall mx x e n f rest, times_read x f = 1 -> n = Some x \/ not_read x rest ->
  forall before (E : values -> Prop) stored v, (forall m, In m (program_dice (before ++ (Some x, e) :: (n, f) :: rest)) -> map fst m <> []) ->
  (forall env, E env -> ~ In None (results (map fst) env (before ++ (Some x, e) :: (n, f) :: rest))) ->
  line_extreme mx E stored (before ++ (Some x, e) :: (n, f) :: rest) v -> line_extreme mx E stored (before ++ (n, put x e f) :: rest) v.
Proof.
  intros mx x e n f rest Once Dead. induction before as [|[n' f'] before IH]; intros E stored v Sd N.
  - apply put_extreme; auto. intros env P. specialize (N env P). cbn [app] in N. rewrite results_cons in N.
    assert (J : joint (map fst) env e <> []).
    { apply joint_nonempty. intros m Hm. apply Sd. cbn [app program_dice flat_map snd]. apply in_or_app. auto. }
    destruct (joint (map fst) env e) as [|[y|] js]; [congruence | exists y; now left|]. exfalso. apply N. now left.
  - destruct (long_nonempty x e n f rest before) as [N1 N2]. cbn [app] in *.
    destruct (before ++ (Some x, e) :: (n, f) :: rest) as [|l1 q1] eqn:E1; [congruence|]. destruct (before ++ (n, put x e f) :: rest) as [|l2 q2] eqn:E2; [congruence|].
    rewrite !line_extreme_cons. intros [w [H1 H2]]. exists w. split; [exact H1|]. revert H2. apply IH.
    + intros m Hm. apply Sd. cbn [program_dice flat_map snd]. apply in_or_app. right. exact Hm.
    + intros env2 [env [y [P [Hy C]]]] K. apply (N env P). rewrite results_cons. apply in_flat_map. exists (Some y). split; auto.
      now rewrite <- (results_ext (map fst) (l1 :: q1) env2).
Qed.

Section Inline.
  Context (R : Runtime) (x : text) (before rest : program) (e : expr) (n : option text) (f : expr) (lines lines' : list text).
  Notation p := (before ++ (Some x, e) :: (n, f) :: rest).
  Notation q := (before ++ (n, put x e f) :: rest).

  Lemma line_dice : forall m, In m (dice_of f) -> In m (program_dice p).
  Proof. intros m H. unfold program_dice. rewrite flat_map_app, in_app_iff. cbn [flat_map snd]. rewrite !in_app_iff. tauto. Qed.

  Lemma inline_counts : forall s s' d d', program_text lines p -> program_text lines' q -> good_program p -> times_read x f = 1 -> n = Some x \/ not_read x rest ->
    match n with Some m => uses m rest <= 1 | None => True end ->
    reachable R s -> reachable R s' -> reports R s lines d -> reports R s' lines' d' -> forall v, reported R d v = reported R d' v.
  Proof.
    intros s s' d d' T T' G Once Dead U Hs Hs' Hd Hd' v.
    rewrite (weighted_counts R s lines p d Hs T G Hd v), (weighted_counts R s' lines' q d' Hs' T' (good_put _ _ _ _ _ _ Dead G) Hd' v).
    apply weighted_put_after; auto. unfold line_uses. destruct rest as [|l r]; [now right|]. destruct n as [m|]; [|now left].
    assert (0 <= uses m (l :: r)) by (rewrite uses_ulist; apply count_nonneg). lia.
  Qed.

  Lemma inline_none : sided p -> times_read x f = 1 -> n = Some x \/ not_read x rest ->
    (In None (results (map fst) no_values p) <-> In None (results (map fst) no_values q)).
  Proof.
    intros S Once Dead.
    apply (put_none_after (joint (map fst)) (results (map fst)) (sides_ok (map fst))); auto using joint_agree, put_joint.
    - intros. apply (joint_none (map fst) env x0 f0); auto.
    - intros. apply joint_nonempty; auto.
    - intros m Hm K. apply (S m (line_dice m Hm)). now destruct m.
  Qed.

  Lemma inline_raises : forall s s' err, program_text lines p -> program_text lines' q -> good_program p -> sided p -> times_read x f = 1 -> n = Some x \/ not_read x rest ->
    reachable R s -> reachable R s' -> (distribution_raises R s lines err <-> distribution_raises R s' lines' err).
  Proof.
    intros s s' err T T' G S Once Dead Hs Hs'.
    rewrite (raises_exactly R s lines p err Hs T G S), (raises_exactly R s' lines' q err Hs' T' (good_put _ _ _ _ _ _ Dead G)).
    - assert (E := inline_none S Once Dead). tauto.
    - intros m Hm. apply S. now apply (program_dice_put x e n f rest before).
  Qed.

  Lemma inline_roll : forall s s', program_text lines p -> program_text lines' q -> runnable p -> drawable p -> times_read x f = 1 -> n = Some x \/ not_read x rest ->
    (forall v, roll_weight R s lines v = roll_weight R s' lines' v) /\ (forall err, can_raise R s lines err <-> can_raise R s' lines' err) /\
    ((forall err, ~ can_raise R s lines err) -> roll_total R s lines = roll_total R s' lines').
  Proof.
    intros s s' T T' G D Once Dead. assert (G' := runnable_put _ _ _ _ _ _ Dead G).
    assert (D' : drawable q) by (intros m Hm; apply D; now apply (program_dice_put x e n f rest before)).
    assert (F : sides_ok faces f) by (intros m Hm; apply (D m (line_dice m Hm))).
    assert (N : In None (rolled_program no_values p) <-> In None (rolled_program no_values q)).
    { apply (put_none_after rolled rolled_program (sides_ok faces)); auto using rolled_agree, put_rolled, rolled_nonempty, rolled_program_one, rolled_program_cons.
      intros. apply (rolled_none env x0 f0); auto. }
    destruct (roll_semantics R s lines p T G D) as [_ [W1 L1]]. destruct (roll_semantics R s' lines' q T' G' D') as [_ [W2 L2]].
    split; [|split].
    - intros v. rewrite W1, W2.
      apply (put_occurrences_after rolled rolled_program); auto using rolled_agree, put_rolled, rolled_program_one, rolled_program_cons.
      intros. apply (rolled_none env x0 f0); auto.
    - intros err. rewrite (roll_raises R s lines p err T G D), (roll_raises R s' lines' q err T' G' D'). tauto.
    - intros NR. assert (N1 : ~ In None (rolled_program no_values p)).
      { intros K. apply (NR ZeroDivisionError). apply (roll_raises R s lines p _ T G D). auto. }
      rewrite L1, L2 by tauto. f_equal. apply Permutation_length.
      apply (put_perm_after rolled rolled_program (sides_ok faces)); auto using rolled_agree, put_rolled, rolled_nonempty, rolled_program_one, rolled_program_cons.
  Qed.
  Lemma inline_extreme : forall mx s s' v, program_text lines p -> program_text lines' q -> good_program p -> sided p -> times_read x f = 1 -> n = Some x \/ not_read x rest ->
    reachable R s -> reachable R s' ->
    (extreme_is R mx s lines v <-> extreme_is R mx s' lines' v) /\ (forall err, extreme_raises R mx s lines err <-> extreme_raises R mx s' lines' err).
  Proof.
    intros mx s s' v T T' G S Once Dead Hs Hs'. assert (G' := good_put _ _ _ _ _ _ Dead G).
    assert (S' : sided q) by (intros m Hm; apply S; now apply (program_dice_put x e n f rest before)).
    assert (N : In None (results (map fst) no_values p) <-> In None (results (map fst) no_values q)) by now apply inline_none.
    split; [|intros err; rewrite (extreme_raises_exactly R mx s lines p err Hs T G S), (extreme_raises_exactly R mx s' lines' q err Hs' T' G' S'); tauto].
    destruct (extreme_cases R mx p lines s Hs T G S) as [[a [A1 [_ [A2 _]]]]|[_ [A1 A2]]];
      destruct (extreme_cases R mx q lines' s' Hs' T' G' S') as [[b [B1 [_ [B2 _]]]]|[_ [B1 B2]]]; try tauto.
    - destruct (extreme_worked_out R mx s lines p a Hs T G S) as [HA _]; [now apply A1|].
      destruct (extreme_worked_out R mx s' lines' q b Hs' T' G' S') as [_ HB]; [now apply B1|].
      assert (a = b).
      { apply HB. unfold program_extreme in *. apply (put_extreme_after mx x e n f rest Once Dead); auto.
        - intros m Hm. apply map_nonempty. now apply S.
        - intros env He. now rewrite (results_ext (map fst) p env no_values He). }
      subst b. rewrite A1, B1. reflexivity.
    - split; intros H; [now apply A1 in H | now apply B1 in H].
  Qed.
End Inline.
