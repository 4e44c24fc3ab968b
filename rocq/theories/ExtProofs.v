(** * ExtProofs: the properties of max() and min() *)
From Verif Require Import Py PyFacts PyFloat Constraint ConstraintFacts Distribution DistFacts SpecDice DiceFacts DiceModel
  DropKeepFacts NotationFacts DiceProofs Expr Lexer Parser Interp TagFacts SpecProgram ExprFacts StateFacts ProgramFacts JointFacts RaiseFacts
  SpecInterp InterpRun ProgramProofs SpecRoll RollFacts RollProofs ExtFacts.

Section Facts.
  Context (R : Runtime).

  Lemma listed_results : forall s lines p d, reachable R s -> program_text lines p -> good_program p -> sided p -> reports R s lines d ->
    ~ In None (results (map fst) no_values p) /\ forall v, listed R d v <-> In (Some v) (results (map fst) no_values p).
  Proof.
    intros s lines p d Hs T G Sd H. destruct (program_run R s lines p d Hs T G H) as [s' [E I]]. assert (N := run_none R true p s s' d I G E). split; auto.
    intros v. rewrite (run_listed R true p s s' d I G E v). apply used_all; auto. intros m Hm. apply map_nonempty. now apply Sd.
  Qed.

  (** ** C15 *)
  Lemma extreme_bounds : forall mx s s1 lines p d, reachable R s -> reachable R s1 -> program_text lines p -> good_program p -> sided p ->
    reports R s lines d -> exists v, (forall w, extreme_is R mx s1 lines w <-> w = v) /\ forall x, listed R d x -> within mx x v.
  Proof.
    intros mx s s1 lines p d Hs Hs1 T G Sd H. destruct (listed_results s lines p d Hs T G Sd H) as [N L].
    destruct (extreme_cases R mx p lines s1 Hs1 T G Sd) as [[v [E1 [_ [_ [E2 _]]]]]|[_ [_ C]]]; [|contradiction].
    exists v. split; auto. intros x Hx. apply E2. now apply L.
  Qed.

  Lemma extreme_exactly : forall mx s s1 lines p d, reachable R s -> reachable R s1 -> program_text lines p -> good_program p -> sided p ->
    program_extreme_exact mx p -> reports R s lines d ->
    forall v, extreme_is R mx s1 lines v <-> listed R d v /\ forall x, listed R d x -> within mx x v.
  Proof.
    intros mx s s1 lines p d Hs Hs1 T G Sd Hx H v. destruct (listed_results s lines p d Hs T G Sd H) as [N L].
    destruct (extreme_cases R mx p lines s1 Hs1 T G Sd) as [[w [E1 [_ [_ [E2 E3]]]]]|[_ [_ C]]]; [|contradiction].
    rewrite E1. assert (Lw : listed R d w) by (apply L; auto). assert (Bw : forall x, listed R d x -> within mx x w) by (intros x Hl; apply E2; now apply L). split.
    - intros ->. auto.
    - intros [Lv Bv]. specialize (Bw v Lv). specialize (Bv w Lw). destruct mx; unfold within in *; lia.
  Qed.

  (** ** C17 *)
  Lemma extreme_raises_exactly : forall mx s lines p x, reachable R s -> program_text lines p -> good_program p -> sided p ->
    (extreme_raises R mx s lines x <-> x = ZeroDivisionError /\ In None (results (map fst) no_values p)).
  Proof.
    intros mx s lines p x Hs T G Sd. destruct (extreme_cases R mx p lines s Hs T G Sd) as [[v [_ [E1 [E2 _]]]]|[E1 [_ E2]]].
    - split; [intros H; now apply E1 in H | intros [_ H]; contradiction].
    - rewrite E1. tauto.
  Qed.

  (** ** C16 *)
  Lemma extreme_bounds_rolls : forall mx s s1 lines p v x, reachable R s -> program_text lines p -> good_program p -> drawable p ->
    program_logic_agrees no_values p -> extreme_is R mx s lines v -> can_roll R s1 lines x -> within mx x v.
  Proof.
    intros mx s s1 lines p v x Hs T G D L E Hr. rewrite (can_roll_iff R p lines s1 x T (good_runnable p G) D), (rolled_results p no_values L) in Hr.
    destruct (extreme_cases R mx p lines s Hs T G (rollable_sided p (drawable_rollable p D))) as [[w [E1 [_ [_ [E2 _]]]]]|[_ [C _]]]; [|now apply C in E].
    apply E1 in E. subst w. apply E2. revert Hr. apply results_incl. intros m _ y. apply faces_sides.
  Qed.

  Lemma extreme_rolled : forall mx s s1 lines p v, reachable R s -> program_text lines p -> good_program p -> drawable p -> positive p ->
    program_logic_agrees no_values p -> program_extreme_exact mx p -> extreme_is R mx s lines v -> can_roll R s1 lines v.
  Proof.
    intros mx s s1 lines p v Hs T G D HP L X E. assert (Sd : sided p) by now apply rollable_sided, drawable_rollable.
    rewrite (can_roll_iff R p lines s1 v T (good_runnable p G) D), (rolled_results p no_values L).
    destruct (extreme_cases R mx p lines s Hs T G Sd) as [[w [E1 [_ [_ [_ E3]]]]]|[_ [C _]]]; [|now apply C in E].
    apply E1 in E. subst w. specialize (E3 X). revert E3. apply results_incl. intros m Hm y. apply sides_faces. intros a b. now apply HP.
  Qed.
End Facts.
