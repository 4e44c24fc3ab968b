(** * RollProofs: lemmas behind the properties of roll() *)
From Verif Require Import Py PyFacts PyFloat Constraint ConstraintFacts Distribution DistFacts SpecDice DiceFacts DiceModel
  DropKeepFacts NotationFacts DiceProofs Expr Lexer Parser Interp TagFacts SpecProgram ExprFacts StateFacts ProgramFacts JointFacts RaiseFacts
  WfFacts SpecInterp InterpRun SpecAlgebra AlgebraFacts ProgramProofs SpecRoll RollFacts.

(** ** The README's truth values and those of roll() *)
Lemma rolled_joint : forall env e, logic_agrees env e -> rolled env e = joint faces env e.
Proof.
  intros env. induction e; intros H; cbn [logic_agrees rolled joint] in *; auto;
    try (destruct H as [H1 H2]; rewrite ?IHe1, ?IHe2 by auto; reflexivity).
  - destruct H as [H1 H2]. rewrite IHe by auto. apply map_ext_in. intros [x|] Hx; [|reflexivity]. cbn [option_map]. f_equal. specialize (H2 x Hx).
    unfold not_agrees, is_true in *. destruct (x =? 0) eqn:E1, (0 <? x) eqn:E2; auto; rewrite ?Z.eqb_eq, ?Z.eqb_neq, ?Z.ltb_lt, ?Z.ltb_ge in *; exfalso; lia.
  - destruct H as [H1 [H2 H3]]. rewrite IHe1, IHe2 by auto. apply both_ext. intros x y Hx Hy. destruct (H3 x y Hx Hy) as [A O]. unfold roll_operator.
    destruct (text_eqb operator $"AND") eqn:E1; [|destruct (text_eqb operator $"OR") eqn:E2; [|reflexivity]].
    + apply text_eqb_eq in E1. specialize (A E1). subst operator. cbn [operator_meaning meaning]. change (operator_meaning $"AND") with (Some (fun x y => truth (is_true x && is_true y))).
      cbn [meaning]. do 2 f_equal. unfold and_agrees, is_true in *. destruct (Z.land x y =? 0) eqn:E, (0 <? x) eqn:X, (0 <? y) eqn:Y; auto;
      rewrite ?Z.eqb_eq, ?Z.eqb_neq, ?Z.ltb_lt, ?Z.ltb_ge in *; exfalso; lia.
    + apply text_eqb_eq in E2. specialize (O E2). subst operator. change (operator_meaning $"OR") with (Some (fun x y => truth (is_true x || is_true y))).
      cbn [meaning]. do 2 f_equal. unfold or_agrees, is_true in *. destruct (Z.lor x y =? 0) eqn:E, (0 <? x) eqn:X, (0 <? y) eqn:Y; auto;
      rewrite ?Z.eqb_eq, ?Z.eqb_neq, ?Z.ltb_lt, ?Z.ltb_ge in *; exfalso; lia.
  - now rewrite IHe.
Qed.

Lemma rolled_results : forall p env, program_logic_agrees env p -> rolled_program env p = results faces env p.
Proof.
  induction p as [|[n e] p IH]; intros env H; [reflexivity|]. cbn [program_logic_agrees] in H. destruct H as [H1 H2]. destruct p as [|l p].
  - cbn [rolled_program results]. now apply rolled_joint.
  - change (rolled_program env ((n, e) :: l :: p)) with
      (flat_map (fun x => match x with Some x => rolled_program (bind_value env n x) (l :: p) | None => [None] end) (rolled env e)).
    rewrite results_cons, (rolled_joint env e H1), !flat_map_concat_map. f_equal. apply map_ext_in. intros [x|] Hx; [|reflexivity]. now apply IH, H2.
Qed.

Lemma truth_valued_01 : forall sides env e x, truth_valued e -> In (Some x) (joint sides env e) -> x = 0 \/ x = 1.
Proof.
  intros sides env. assert (T : forall b, truth b = 0 \/ truth b = 1) by (intros [|]; cbn; auto).
  induction e; intros x V H; cbn [truth_valued joint] in *; try contradiction; auto.
  - apply in_option_map in H. destruct H as [y [_ ->]]. apply T.
  - destruct H as [H|[]]. injection H as <-. apply T.
  - apply in_both in H. destruct H as [a [b [Ha [Hb E]]]]. destruct V as [V1 V2]. injection E as <-. destruct (IHe1 a V1 Ha) as [->| ->], (IHe2 b V2 Hb) as [->| ->]; cbn; auto.
  - apply in_both in H. destruct H as [a [b [Ha [Hb E]]]]. unfold operator_meaning in E.
    repeat match type of E with context [if ?c then _ else _] => destruct c; [cbn [meaning] in E; injection E as <-; apply T|] end. discriminate.
  - apply in_both in H. destruct H as [a [b [Ha [Hb E]]]]. destruct V as [V1 V2]. unfold minmax_meaning in E.
    destruct (IHe1 a V1 Ha) as [->| ->], (IHe2 b V2 Hb) as [->| ->]; repeat match type of E with context [if ?c then _ else _] => destruct c end; cbn [meaning] in E; try discriminate;
      injection E as <-; cbn; auto.
  - apply in_option_map in H. destruct H as [y [Hy ->]]. destruct (IHe y V Hy) as [->| ->]; cbn; auto.
Qed.

Lemma logical_agrees : forall env e, logical e -> logic_agrees env e.
Proof.
  intros env. induction e; intros L; cbn [logical logic_agrees] in *; auto; try tauto.
  - destruct L as [L1 L2]. split; auto. intros x Hx. destruct (truth_valued_01 _ _ _ _ L2 Hx) as [->| ->]; unfold not_agrees; lia.
  - destruct L as [L1 [L2 L3]]. split; auto. split; auto. intros x y Hx Hy. split; intros ->.
    + destruct (L3 (or_introl eq_refl)) as [V1 V2]. destruct (truth_valued_01 _ _ _ _ V1 Hx) as [->| ->], (truth_valued_01 _ _ _ _ V2 Hy) as [->| ->]; unfold and_agrees; cbn; lia.
    + destruct (L3 (or_intror eq_refl)) as [V1 V2]. destruct (truth_valued_01 _ _ _ _ V1 Hx) as [->| ->], (truth_valued_01 _ _ _ _ V2 Hy) as [->| ->]; unfold or_agrees; cbn; lia.
Qed.

Lemma logical_program : forall p env, (forall n e, In (n, e) p -> logical e) -> program_logic_agrees env p.
Proof.
  induction p as [|[n e] p IH]; intros env H; [exact I|]. split; [apply logical_agrees; apply (H n); now left|]. intros x _. apply IH. intros m e' H'. apply (H m). now right.
Qed.

Lemma simple_unassigned : forall e, simple e -> no_assignment e.
Proof. induction e; cbn; tauto. Qed.

Lemma good_runnable : forall p, good_program p -> runnable p.
Proof.
  intros p [H1 [H2 H3]]. split; auto. split; auto. intros n e H. destruct (H3 n e H) as [S V]. split; [now apply simple_well_formed|]. split; auto. now apply simple_unassigned.
Qed.

Lemma results_nonempty : forall p env, p <> [] -> rollable p -> results faces env p <> [].
Proof.
  induction p as [|[n e] p IH]; intros env Hp D; [congruence|].
  assert (J : joint faces env e <> []) by (apply joint_nonempty; intros m Hm; apply D; cbn [program_dice flat_map snd]; apply in_or_app; auto).
  destruct p as [|l p]; [exact J|]. rewrite results_cons. destruct (joint faces env e) as [|[x|] j]; [congruence| |discriminate].
  cbn [flat_map]. intros E. apply app_eq_nil in E. destruct E as [E _]. revert E. apply IH; [discriminate|].
  intros m Hm. apply D. cbn [program_dice flat_map snd]. apply in_or_app. now right.
Qed.

Section Proofs.
  Context (R : Runtime).

  (** ** What roll() gives *)
  Lemma roll_semantics : forall s lines p, program_text lines p -> runnable p -> drawable p ->
    (forall v, can_roll R s lines v <-> In (Some v) (rolled_program no_values p)) /\
    (forall v, roll_weight R s lines v = occurrences v (rolled_program no_values p)) /\
    (~ In None (rolled_program no_values p) -> roll_total R s lines = Z.of_nat (length (rolled_program no_values p))).
  Proof.
    intros s lines p T P D. split; [|split].
    - intros v. now apply can_roll_iff.
    - intros v. now apply roll_weight_is.
    - intros N. now apply roll_total_is.
  Qed.

  Lemma roll_raises : forall s lines p x, program_text lines p -> runnable p -> drawable p ->
    (can_raise R s lines x <-> x = ZeroDivisionError /\ In None (rolled_program no_values p)).
  Proof. intros. now apply can_raise_iff. Qed.

  Lemma roll_raises_division : forall s lines p x, program_text lines p -> runnable p -> drawable p -> program_logic_agrees no_values p ->
    (can_raise R s lines x <-> x = ZeroDivisionError /\ In None (results faces no_values p)).
  Proof. intros s lines p x T P D L. rewrite (roll_raises s lines p x T P D). now rewrite (rolled_results p no_values L). Qed.

  Lemma rolls_reported : forall s s1 lines p d, reachable R s -> program_text lines p -> good_program p -> drawable p ->
    program_logic_agrees no_values p -> reports R s lines d ->
    forall v, can_roll R s1 lines v <-> reported R d v <> 0.
  Proof.
    intros s s1 lines p d Hs T G D L H v. rewrite (can_roll_iff R p lines s1 v T (good_runnable p G) D), (rolled_results p no_values L).
    symmetry. now apply (results_possible R s lines p d Hs T G (drawable_rollable p D) H v).
  Qed.

  Lemma program_none : forall s lines p d, reachable R s -> program_text lines p -> good_program p -> reports R s lines d -> ~ In None (results faces no_values p).
  Proof.
    intros s lines p d Hs T G H. destruct (program_run R s lines p d Hs T G H) as [s' [E I]]. apply faces_none. now apply (run_none R true p s s' d I G E).
  Qed.

  Lemma probabilities_agree : forall s s1 lines p d, reachable R s -> program_text lines p -> good_program p -> drawable p ->
    program_logic_agrees no_values p -> used_once_or_uniform p -> reports R s lines d ->
    0 < roll_total R s1 lines /\ forall v, reported R d v * roll_total R s1 lines = roll_weight R s1 lines v * d_count d.
  Proof.
    intros s s1 lines p d Hs T G D L U H. assert (N := program_none s lines p d Hs T G H). assert (E := rolled_results p no_values L).
    rewrite (roll_total_is R p lines s1 T (good_runnable p G) D) by now rewrite E. rewrite E. split.
    - assert (NE : results faces no_values p <> []).
      { apply results_nonempty; [apply G | now apply drawable_rollable]. }
      destruct (results faces no_values p); [congruence | cbn [length]; lia].
    - intros v. rewrite (roll_weight_is R p lines s1 v T (good_runnable p G) D), E. apply (exact_when_uniform R s lines p d); auto. now apply drawable_rollable.
  Qed.

  Lemma roll_logical : forall s lines p v, program_text lines p -> runnable p -> drawable p -> (forall n e, In (n, e) p -> logical e) ->
    roll_weight R s lines v = occurrences v (results faces no_values p).
  Proof. intros s lines p v T P D L. rewrite (roll_weight_is R p lines s v T P D). now rewrite (rolled_results p no_values (logical_program p no_values L)). Qed.

  (** ** AND, OR and NOT *)
  Lemma one_expression : forall t e, parse t = Ok e -> no_assignment e -> program_text [t] [(None, e)].
  Proof. intros t e H _. constructor; [exact H | constructor]. Qed.

  Lemma occurrences_both : forall (b : Z -> Z -> bool) la lb,
    occurrences 1 (both (fun x y => Some (truth (b x y))) la lb) =
    Z.of_nat (length (filter (fun xy => match xy with (Some x, Some y) => b x y | _ => false end) (list_prod la lb))).
  Proof.
    intros b la lb. rewrite occurrences_lsum, lsum_both. induction la as [|[x|] la IH]; [reflexivity| |]; rewrite lsum_cons; cbn [list_prod fo].
    - rewrite filter_app, app_length, Nat2Z.inj_add, <- IH. f_equal. clear. induction lb as [|[y|] lb IH]; [reflexivity| |]; rewrite lsum_cons; cbn [map filter fo].
      + destruct (b x y); cbn [truth Z.eqb Pos.eqb length]; rewrite IH; lia.
      + rewrite IH. lia.
    - rewrite filter_app, app_length, Nat2Z.inj_add, <- IH. replace (filter _ (map _ lb)) with (@nil (option Z * option Z)); [reflexivity|].
      clear. induction lb as [|y lb IH]; [reflexivity|]. exact IH.
  Qed.

  Lemma logic_counts : forall s t a b d (op : text) (f : bool -> bool -> bool), (op = $"AND" /\ f = andb) \/ (op = $"OR" /\ f = orb) ->
    reachable R s -> parse t = Ok (EBin op a b) -> simple (EBin op a b) -> reads (EBin op a b) = [] -> reports R s [t] d ->
    (forall v, reported R d v <> 0 -> v = 0 \/ v = 1) /\
    reported R d 1 = Z.of_nat (length (filter (fun xy => match xy with (Some x, Some y) => f (0 <? x) (0 <? y) | _ => false end)
                                         (list_prod (joint faces no_values a) (joint faces no_values b)))).
  Proof.
    intros s t a b d op f Hop Hs T S Re H. destruct (expression_counts R s t _ d Hs T S Re H) as [C _].
    assert (E : joint faces no_values (EBin op a b) = both (fun x y => Some (truth (f (0 <? x) (0 <? y)))) (joint faces no_values a) (joint faces no_values b)).
    { destruct Hop as [[-> ->]|[-> ->]]; reflexivity. }
    split.
    - intros v Hv. rewrite C in Hv. destruct (Z.eq_dec (occurrences v (joint faces no_values (EBin op a b))) 0) as [|N]; [congruence|].
      assert (P : 0 < occurrences v (joint faces no_values (EBin op a b))) by (unfold occurrences in *; lia). apply occurrences_pos in P. rewrite E in P.
      apply in_both in P. destruct P as [x [y [_ [_ P]]]]. injection P as <-. destruct (f (0 <? x) (0 <? y)); cbn; auto.
    - rewrite C, E. apply (occurrences_both (fun x y => f (0 <? x) (0 <? y))).
  Qed.

  Lemma not_counts : forall s t a d, reachable R s -> parse t = Ok (ENot a) -> simple a -> reads a = [] -> reports R s [t] d ->
    (forall v, reported R d v <> 0 -> v = 0 \/ v = 1) /\
    reported R d 1 = Z.of_nat (length (filter (fun x => match x with Some x => x <=? 0 | None => false end) (joint faces no_values a))).
  Proof.
    intros s t a d Hs T S Re H. destruct (expression_counts R s t _ d Hs T S Re H) as [C _]. cbn [joint] in C. split.
    - intros v Hv. rewrite C in Hv. match type of Hv with ?o <> 0 => assert (P : 0 < o) by (unfold occurrences in *; lia) end. apply occurrences_pos in P.
      apply in_option_map in P. destruct P as [x [_ ->]]. destruct (negb (is_true x)); cbn; auto.
    - rewrite C. unfold occurrences. clear. induction (joint faces no_values a) as [|[x|] l IH]; cbn [map option_map filter]; auto.
      unfold is_true at 1. rewrite Z.leb_antisym. destruct (0 <? x); cbn [negb truth Z.eqb Pos.eqb length]; [exact IH|]. rewrite !Nat2Z.inj_succ. now rewrite IH.
  Qed.

  Lemma or_not_agree : (forall x y, or_agrees x y <-> (0 < x \/ 0 < y) \/ (x = 0 /\ y = 0)) /\ (forall x, not_agrees x <-> 0 <= x) /\
    (forall x y, x <= 0 \/ y <= 0 -> 0 <= x \/ 0 <= y -> (and_agrees x y <-> Z.land x y = 0)).
  Proof.
    split; [|split].
    - intros x y. unfold or_agrees. pose proof (Z.lor_eq_0_iff x y). lia.
    - intros x. unfold not_agrees. lia.
    - intros x y. unfold and_agrees. lia.
  Qed.

  Lemma roll_weight_can : forall s lines v, roll_weight R s lines v <> 0 -> can_roll R s lines v.
  Proof.
    intros s lines v. unfold roll_weight, can_roll. induction (roll R lines s) as [|[w run] l IH]; [cbn; congruence|]. cbn [filter snd].
    destruct (stdout_of R run) as [x|] eqn:E; [destruct (x =? v) eqn:X|].
    - cbn [map fst]. rewrite zsum_cons. apply Z.eqb_eq in X. subst x. intros H. destruct (Z.eq_dec w 0) as [->|W].
      + destruct IH as [w' [run' [H1 H2]]]; [lia|]. exists w', run'. split; [now right | auto].
      + exists w, run. split; [now left | auto].
    - intros H. destruct (IH H) as [w' [run' [H1 H2]]]. exists w', run'. split; [now right | auto].
    - intros H. destruct (IH H) as [w' [run' [H1 H2]]]. exists w', run'. split; [now right | auto].
  Qed.
End Proofs.
