(** * PartProofs: C74 *)
From Coq Require Import QArith Qabs Permutation Lqa.
From Verif Require Import Py PyFacts PyFloat Constraint Distribution DistFacts DiceModel Expr Parser Interp Instances SpecDice DiceFacts DiceProofs SpecProgram SpecRoll
  SpecInterp SpecAlgebra SpecInline AlgebraFacts ExprFacts ProgramFacts JointFacts RaiseFacts WfFacts InterpRun RollFacts InlineFacts InlineProofs ProgramProofs RollProofs
  Checks SpecProb ProbProofs CostProofs SpecExchange ExchangeProofs SpecBetter BetterProofs SpecFormula FormulaProofs SpecCases CaseProofs SpecAlgebra.
Local Open Scope Z_scope.

(** ** A part in a line with one letter *)
Lemma fill_closed : forall put f, reads f = [] -> fill put f = f.
Proof.
  intros put f. induction f; cbn [reads fill]; intros E; try discriminate; auto; try (now rewrite IHf);
    apply app_nil_both in E; destruct E; now rewrite IHf1, IHf2.
Qed.
Lemma one_letter : forall (a b : list text) n, a ++ b = [n] -> (a = [n] /\ b = []) \/ (a = [] /\ b = [n]).
Proof. intros [|x [|y a]] b n E; cbn [app] in E; [right; auto | | discriminate]. injection E as -> E. left. subst. auto. Qed.
Lemma fill_one_reads : forall e f n, reads f = [n] -> reads (fill (fun _ => e) f) = reads e.
Proof.
  intros e f. induction f; intros k E; cbn [reads fill] in *; try discriminate; eauto;
    (apply one_letter in E; destruct E as [[A B]|[A B]]; [rewrite (IHf1 _ A), (fill_closed _ _ B), B; apply app_nil_r | rewrite (IHf2 _ B), (fill_closed _ _ A), A; reflexivity]).
Qed.
Lemma fill_one_dice : forall e f n, reads f = [n] -> forall m, In m (dice_of (fill (fun _ => e) f)) <-> In m (dice_of e) \/ In m (dice_of f).
Proof.
  intros e f. induction f; intros k E m; cbn [reads fill dice_of] in *; try discriminate; eauto; try (cbn [In]; tauto);
    (apply one_letter in E; destruct E as [[A B]|[A B]]; rewrite !in_app_iff; [rewrite (IHf1 _ A), (fill_closed _ _ B); tauto | rewrite (IHf2 _ B), (fill_closed _ _ A); tauto]).
Qed.
Lemma fill_one_wf : forall e f n, reads f = [n] -> well_formed f -> well_formed e -> well_formed (fill (fun _ => e) f).
Proof. intros e f n _. induction f; intros W We; cbn [fill well_formed] in *; auto; try tauto. Qed.
Lemma fill_one_assign : forall e f, no_assignment f -> no_assignment e -> no_assignment (fill (fun _ => e) f).
Proof. intros e f. induction f; intros W We; cbn [fill no_assignment] in *; auto; try tauto. Qed.

(** [J]: the results of an expression, for [joint] and [rolled] *)
Record compositional (J : (text -> option Z) -> expr -> list (option Z)) : Prop := {
  co_paren : forall env e, J env (EParen e) = J env e;
  co_not : exists g, forall env e, J env (ENot e) = map (option_map g) (J env e);
  co_abs : forall env e, J env (EAbs e) = map (option_map Z.abs) (J env e);
  co_add : exists g, forall env a b, J env (EAdd a b) = both g (J env a) (J env b);
  co_sub : exists g, forall env a b, J env (ESub a b) = both g (J env a) (J env b);
  co_mul : exists g, forall env a b, J env (EMul a b) = both g (J env a) (J env b);
  co_div : exists g, forall env a b, J env (EDiv a b) = both g (J env a) (J env b);
  co_bin : forall op, exists g, forall env a b, J env (EBin op a b) = both g (J env a) (J env b);
  co_mm : forall mm, exists g, forall env a b, J env (EMinMax mm a b) = both g (J env a) (J env b);
  co_var : forall env n, J env (EVar n) = [env n];
  co_agree : forall e env env', (forall n, In n (reads e) -> env n = env' n) -> J env e = J env' e }.
Lemma joint_compositional : forall sides, compositional (joint sides).
Proof.
  intros sides. constructor; try reflexivity; try (eexists; reflexivity); try (intros; eexists; reflexivity). intros e env env'. apply joint_agree.
Qed.
Lemma rolled_compositional : compositional rolled.
Proof.
  constructor; try reflexivity; try (eexists; reflexivity); try (intros; eexists; reflexivity). intros e env env'. apply rolled_agree.
Qed.

Section Part.
  Context (J : (text -> option Z) -> expr -> list (option Z)) (C : compositional J).
  Local Notation at_value o := (fun _ : text => o : option Z).

  Lemma part_two : forall g a b a' b' e env H, (forall H, lsum H (J env (fill (fun _ => e) a)) = lsum (fun o => lsum H (a' o)) (J env e)) -> J env b = b' ->
    lsum H (both g (J env (fill (fun _ => e) a)) (J env b)) = lsum (fun o => lsum H (both g (a' o) b')) (J env e).
  Proof. intros g a b a' b' e env H A <-. rewrite lsum_both2, A. apply lsum_ext. intros o _. now rewrite lsum_both2. Qed.
  Lemma part_two' : forall g a b a' b' e env H, J env a = a' -> (forall H, lsum H (J env (fill (fun _ => e) b)) = lsum (fun o => lsum H (b' o)) (J env e)) ->
    lsum H (both g (J env a) (J env (fill (fun _ => e) b))) = lsum (fun o => lsum H (both g a' (b' o))) (J env e).
  Proof. intros g a b a' b' e env H <- B. rewrite lsum_both2, lsum_swap, B. apply lsum_ext. intros o _. now rewrite lsum_both2, lsum_swap. Qed.

  Lemma part_both : forall g a b e n env H, reads a ++ reads b = [n] ->
    (forall n, reads a = [n] -> no_assignment a -> forall H, lsum H (J env (fill (fun _ => e) a)) = lsum (fun o => lsum H (J (at_value o) a)) (J env e)) ->
    (forall n, reads b = [n] -> no_assignment b -> forall H, lsum H (J env (fill (fun _ => e) b)) = lsum (fun o => lsum H (J (at_value o) b)) (J env e)) ->
    no_assignment a -> no_assignment b ->
    lsum H (both g (J env (fill (fun _ => e) a)) (J env (fill (fun _ => e) b))) = lsum (fun o => lsum H (both g (J (at_value o) a) (J (at_value o) b))) (J env e).
  Proof.
    intros g a b e n env H E A B Na Nb. assert (Ag : forall x, reads x = [] -> forall env', J env x = J env' x) by (intros x X env'; apply (co_agree J C); rewrite X; intros k []).
    apply one_letter in E. destruct E as [[X Y]|[X Y]].
    - rewrite (fill_closed _ b Y). rewrite (part_two g a b (fun o => J (at_value o) a) (J env b) e env H (A n X Na) eq_refl). apply lsum_ext. intros o _. now rewrite (Ag b Y (at_value o)).
    - rewrite (fill_closed _ a X). rewrite (part_two' g a b (J env a) (fun o => J (at_value o) b) e env H eq_refl (B n Y Nb)). apply lsum_ext. intros o _. now rewrite (Ag a X (at_value o)).
  Qed.

  Lemma part_sum : forall e f env n, reads f = [n] -> no_assignment f -> forall H, lsum H (J env (fill (fun _ => e) f)) = lsum (fun o => lsum H (J (at_value o) f)) (J env e).
  Proof.
    intros e f env. destruct C as [Cp [gn Cn] Ca [ga Cadd] [gs Csub] [gm Cmul] [gd Cdiv] Cb Cm Cv Cag].
    induction f; intros k E Na H; cbn [reads fill no_assignment] in *; try discriminate; try contradiction.
    - rewrite Cp, (IHf k E Na H). apply lsum_ext. intros o _. now rewrite Cp.
    - rewrite Cn, lsum_map, (IHf k E Na). apply lsum_ext. intros o _. now rewrite Cn, lsum_map.
    - rewrite Cadd, (part_both ga f1 f2 e k env H E IHf1 IHf2) by tauto. apply lsum_ext. intros o _. now rewrite Cadd.
    - rewrite Csub, (part_both gs f1 f2 e k env H E IHf1 IHf2) by tauto. apply lsum_ext. intros o _. now rewrite Csub.
    - rewrite Cmul, (part_both gm f1 f2 e k env H E IHf1 IHf2) by tauto. apply lsum_ext. intros o _. now rewrite Cmul.
    - rewrite Cdiv, (part_both gd f1 f2 e k env H E IHf1 IHf2) by tauto. apply lsum_ext. intros o _. now rewrite Cdiv.
    - destruct (Cb operator) as [g Cg]. rewrite Cg, (part_both g f1 f2 e k env H E IHf1 IHf2) by tauto. apply lsum_ext. intros o _. now rewrite Cg.
    - destruct (Cm min_max) as [g Cg]. rewrite Cg, (part_both g f1 f2 e k env H E IHf1 IHf2) by tauto. apply lsum_ext. intros o _. now rewrite Cg.
    - rewrite Ca, lsum_map, (IHf k E Na). apply lsum_ext. intros o _. now rewrite Ca, lsum_map.
    - apply lsum_ext. intros o _. rewrite Cv, lsum_cons, lsum_nil. lia.
  Qed.
  Lemma part_perm : forall e f env n, reads f = [n] -> no_assignment f -> Permutation (J env (fill (fun _ => e) f)) (flat_map (fun o => J (at_value o) f) (J env e)).
  Proof. intros e f env n E Na. apply sums_perm. intros H. rewrite (part_sum e f env n E Na H). now rewrite lsum_flat_map. Qed.
  Lemma part_in : forall e f env n y, reads f = [n] -> no_assignment f -> In y (J env (fill (fun _ => e) f)) <-> exists o, In o (J env e) /\ In y (J (at_value o) f).
  Proof.
    intros e f env n y E Na. pose proof (part_perm e f env n E Na) as P. rewrite <- in_flat_map. split; apply Permutation_in; [exact P | now apply Permutation_sym].
  Qed.

  (** without a value for the letter there is no result *)
  Lemma both_none_l : forall g l l', (forall y, In y l -> y = None) -> forall y, In y (both g l l') -> y = None.
  Proof. intros g l l' A y I. unfold both in I. apply in_flat_map in I. destruct I as [x [I1 I2]]. apply in_map_iff in I2. destruct I2 as [z [<- _]]. now rewrite (A x I1). Qed.
  Lemma both_none_r : forall g l l', (forall y, In y l' -> y = None) -> forall y, In y (both g l l') -> y = None.
  Proof. intros g l l' A y I. unfold both in I. apply in_flat_map in I. destruct I as [x [I1 I2]]. apply in_map_iff in I2. destruct I2 as [z [<- I2]]. rewrite (A z I2). now destruct x. Qed.
  Lemma none_letter : forall f n, reads f = [n] -> no_assignment f -> forall y, In y (J (at_value None) f) -> y = None.
  Proof.
    destruct C as [Cp [gn Cn] Ca [ga Cadd] [gs Csub] [gm Cmul] [gd Cdiv] Cb Cm Cv Cag].
    assert (Two : forall g a b n, reads a ++ reads b = [n] -> (forall n, reads a = [n] -> no_assignment a -> forall y, In y (J (at_value None) a) -> y = None) ->
      (forall n, reads b = [n] -> no_assignment b -> forall y, In y (J (at_value None) b) -> y = None) -> no_assignment a /\ no_assignment b ->
      forall y, In y (both g (J (at_value None) a) (J (at_value None) b)) -> y = None).
    { intros g a b n E A B [Na Nb]. apply one_letter in E. destruct E as [[X Y]|[X Y]]; [apply both_none_l; eauto | apply both_none_r; eauto]. }
    induction f; intros k E Na y I; cbn [reads no_assignment] in *; try discriminate; try contradiction.
    - rewrite Cp in I. eauto.
    - rewrite Cn in I. apply in_map_iff in I. destruct I as [x [<- I]]. now rewrite (IHf k E Na x I).
    - rewrite Cadd in I. eapply Two; eauto.
    - rewrite Csub in I. eapply Two; eauto.
    - rewrite Cmul in I. eapply Two; eauto.
    - rewrite Cdiv in I. eapply Two; eauto.
    - destruct (Cb operator) as [g Cg]. rewrite Cg in I. eapply Two; eauto.
    - destruct (Cm min_max) as [g Cg]. rewrite Cg in I. eapply Two; eauto.
    - rewrite Ca in I. apply in_map_iff in I. destruct I as [x [<- I]]. now rewrite (IHf k E Na x I).
    - rewrite Cv in I. destruct I as [<-|[]]. reflexivity.
  Qed.

  (** programs *)
  Context (P : (text -> option Z) -> program -> list (option Z)).
  Context (P1 : forall env n e, P env [(n, e)] = J env e)
    (P2 : forall env n e l p, P env ((n, e) :: l :: p) = flat_map (fun x => match x with Some x => P (bind_value env n x) (l :: p) | None => [None] end) (J env e)).
  Context (e f : expr) (n : text) (Rf : reads f = [n]) (Nf : no_assignment f).
  Local Notation whole before := (before ++ [(None, fill (fun _ => e) f)]).
  Local Notation part before := (before ++ [(None, e)]).

  Lemma part_member : forall v before env, In (Some v) (P env (whole before)) <-> exists x, In (Some x) (P env (part before)) /\ In (Some v) (J (at_value (Some x)) f).
  Proof.
    intros v. induction before as [|[m g] before IH]; intros env; cbn [app].
    - rewrite !P1, (part_in e f env n) by assumption. split; [|intros [x X]; eauto]. intros [[x|] [I1 I2]]; [eauto|]. pose proof (none_letter f n Rf Nf _ I2). discriminate.
    - rewrite !(P_cons J P P2) by apply after_nonempty. rewrite in_flat_map. split.
      + intros [[y|] [I1 I2]]; [|destruct I2 as [I2|[]]; discriminate]. apply IH in I2. destruct I2 as [x [X1 X2]]. exists x. split; auto. apply in_flat_map. exists (Some y). auto.
      + intros [x [X1 X2]]. apply in_flat_map in X1. destruct X1 as [[y|] [I1 I2]]; [|destruct I2 as [I2|[]]; discriminate]. exists (Some y). split; auto. apply IH. eauto.
  Qed.
  Lemma part_none : J (at_value None) f <> [] -> forall before env,
    (In None (P env (whole before)) <-> In None (P env (part before)) \/ exists x, In (Some x) (P env (part before)) /\ In None (J (at_value (Some x)) f)).
  Proof.
    intros Ne. assert (Nn : In None (J (at_value None) f)).
    { pose proof (none_letter f n Rf Nf) as A. destruct (J (at_value None) f) as [|y l]; [contradiction|]. left. apply A. now left. }
    induction before as [|[m g] before IH]; intros env; cbn [app].
    - rewrite !P1, (part_in e f env n) by assumption. split; [intros [[x|] [I1 I2]]; eauto|]. intros [I|[x X]]; eauto.
    - rewrite !(P_cons J P P2) by apply after_nonempty. rewrite !in_flat_map. split.
      + intros [[y|] [I1 I2]]; [|left; exists None; auto]. apply IH in I2. destruct I2 as [I2|[x [X1 X2]]]; [left; exists (Some y); auto|]. right. exists x. split; auto. apply in_flat_map. exists (Some y). auto.
      + intros [[[y|] [I1 I2]]|[x [X1 X2]]]; [exists (Some y); split; auto; apply IH; auto | exists None; auto|].
        apply in_flat_map in X1. destruct X1 as [[y|] [I1 I2]]; [|destruct I2 as [I2|[]]; discriminate]. exists (Some y). split; auto. apply IH. eauto.
  Qed.
  Lemma part_occurrences : forall v before env, occurrences v (P env (whole before)) = lsum (fo (fun x => occurrences v (J (at_value (Some x)) f))) (P env (part before)).
  Proof.
    assert (N0 : forall v, occurrences v (J (at_value None) f) = 0).
    { intros v. rewrite <- lsum_occurrences, (lsum_ext _ _ (fun _ => 0)); [apply lsum_zero|]. intros y I. now rewrite (none_letter f n Rf Nf y I). }
    intros v. induction before as [|[m g] before IH]; intros env; cbn [app].
    - rewrite !P1, <- lsum_occurrences, (part_sum e f env n) by assumption. apply lsum_ext. intros [x|] _; cbn [fo]; rewrite lsum_occurrences; [reflexivity | apply N0].
    - rewrite !(P_cons J P P2) by apply after_nonempty. rewrite <- lsum_occurrences, !lsum_flat_map. apply lsum_ext. intros [y|] _.
      + rewrite lsum_occurrences. apply IH.
      + reflexivity.
  Qed.
End Part.

(** ** Programs *)
Lemma closed_last : forall e e', incl (reads e') (reads e) -> forall before m known, closed known (before ++ [(m, e)]) -> closed known (before ++ [(m, e')]).
Proof.
  intros e e' Hr. induction before as [|[k g] before IH]; intros m known; cbn [app closed]; [|intros [A B]; split; auto].
  intros [A B]. split; auto.
Qed.
Lemma good_whole : forall before e f n, good_program (before ++ [(None, e)]) -> simple f -> reads f = [n] -> good_program (before ++ [(None, fill (fun _ => e) f)]).
Proof.
  intros before e f n [_ [Cl G]] Sf Rf. split; [apply after_nonempty|]. split.
  - revert Cl. apply closed_last. rewrite (fill_one_reads e f n Rf). intros k I. exact I.
  - intros m g I. apply in_app_or in I. destruct I as [I|[I|[]]]; [apply G; apply in_or_app; now left|]. injection I as <- <-. split; [|exact Logic.I].
    apply fill_simple; auto. intros k _. apply (G None e). apply in_or_app. right. now left.
Qed.
Lemma runnable_whole : forall before e f n, runnable (before ++ [(None, e)]) -> well_formed f -> no_assignment f -> reads f = [n] -> runnable (before ++ [(None, fill (fun _ => e) f)]).
Proof.
  intros before e f n [_ [Cl G]] Wf Nf Rf. split; [apply after_nonempty|]. split.
  - revert Cl. apply closed_last. rewrite (fill_one_reads e f n Rf). intros k I. exact I.
  - intros m g I. apply in_app_or in I. destruct I as [I|[I|[]]]; [apply G; apply in_or_app; now left|]. injection I as <- <-.
    destruct (G None e) as [We [Ne _]]; [apply in_or_app; right; now left|]. split; [now apply (fill_one_wf e f n)|]. split; [now apply fill_one_assign | exact Logic.I].
Qed.
Lemma whole_dice : forall before e f n, reads f = [n] -> forall m, In m (program_dice (before ++ [(None, fill (fun _ => e) f)])) -> In m (program_dice (before ++ [(None, e)])) \/ In m (dice_of f).
Proof.
  intros before e f n Rf m. unfold program_dice. rewrite !flat_map_app, !in_app_iff. cbn [flat_map snd]. rewrite !app_nil_r, (fill_one_dice e f n Rf). tauto.
Qed.
Lemma good_number : forall n t x f, var_name n -> int_of_text t = Ok x -> simple f -> reads f = [n] -> good_program [(Some n, EInt t); (None, f)].
Proof.
  intros n t x f Vn Ht Sf Rf. split; [discriminate|]. split.
  - cbn [closed reads]. split; [intros k []|]. rewrite Rf. split; [intros k I; exact I | exact Logic.I].
  - intros m g [I|[I|[]]]; injection I as <- <-; split; auto. now exists x.
Qed.
Lemma runnable_number : forall n t x f, var_name n -> int_of_text t = Ok x -> well_formed f -> no_assignment f -> reads f = [n] -> runnable [(Some n, EInt t); (None, f)].
Proof.
  intros n t x f Vn Ht Wf Nf Rf. split; [discriminate|]. split.
  - cbn [closed reads]. split; [intros k []|]. rewrite Rf. split; [intros k I; exact I | exact Logic.I].
  - intros m g [I|[I|[]]]; injection I as <- <-.
    + split; [now exists x|]. split; [exact Logic.I | exact Vn].
    + split; [exact Wf|]. split; [exact Nf | exact Logic.I].
Qed.

Section Reported.
  Context (R : Runtime).
  Notation dist := (dist R).
  Notation keys d := (map fst (get_result_map R d)).
  Local Notation at_value o := (fun _ : text => o : option Z).

  Lemma case_ways : forall n f x (dx : dist), var_name n -> simple f -> reads f = [n] -> case R [] n [(None, f)] x dx ->
    dinv R dx /\ (forall w, reported R dx w = occurrences w (joint faces (at_value (Some x)) f)) /\
    (forall w, listed R dx w <-> In (Some w) (joint (map fst) (at_value (Some x)) f)) /\ (sided [(None, f)] -> ~ In None (joint (map fst) (at_value (Some x)) f)).
  Proof.
    intros n f x dx Vn Sf Rf [lx [sx [[t [Ht T]] [Hs H]]]]. cbn [app] in T. assert (G := good_number n t x f Vn Ht Sf Rf).
    destruct (program_run R sx lx _ dx Hs T G H) as [s' [E I]].
    assert (U : uses n [(None, f)] = 1). { cbn [uses]. unfold times_read. rewrite Rf. cbn [filter]. now rewrite (proj2 (text_eqb_eq n n) eq_refl). }
    assert (Jx : forall sides, joint sides (bind_value no_values (Some n) x) f = joint sides (at_value (Some x)) f).
    { intros sides. apply joint_agree. rewrite Rf. intros k [<-|[]]. cbn [bind_value]. now rewrite (proj2 (text_eqb_eq n n) eq_refl). }
    split; [exact (run_dinv R true _ sx s' dx I G E)|]. split; [|split].
    - intros w. rewrite (run_reported R true _ sx s' dx I G E w), weighted_some, U, (number_joint faces x t no_values Ht). cbn [Z.eqb].
      rewrite nodup_fixed_point by (constructor; [intros [] | constructor]). rewrite lsum_cons, lsum_nil. cbn [fo weighted]. rewrite occurrences_one, Jx. lia.
    - intros w. rewrite (run_listed R true _ sx s' dx I G E w), used_results_some, U, (number_joint (map fst) x t no_values Ht). cbn [Z.eqb flat_map used_results]. now rewrite app_nil_r, Jx.
    - intros Sd C. apply (run_none R true _ sx s' dx I G E). rewrite results_cons, (number_joint (map fst) x t no_values Ht). cbn [flat_map results]. now rewrite app_nil_r, Jx.
  Qed.

  Lemma part_ways : forall before e n f s s' lines lines' d d' (dx : Z -> dist), good_program (before ++ [(None, e)]) -> simple f -> reads f = [n] -> var_name n ->
    program_text lines (before ++ [(None, e)]) -> program_text lines' (before ++ [(None, fill (fun _ => e) f)]) -> reachable R s -> reachable R s' -> reports R s lines d -> reports R s' lines' d' ->
    (forall x, listed R d x -> case R [] n [(None, f)] x (dx x)) ->
    forall w, reported R d' w = zsum (map (fun xc => snd xc * reported R (dx (fst xc)) w) (get_result_map R d)).
  Proof.
    intros before e n f s s' lines lines' d d' dx G Sf Rf Vn T T' Hs Hs' H H' C w. assert (G' := good_whole before e f n G Sf Rf). assert (Nf := simple_unassigned f Sf).
    destruct (last_sum R before None e s lines d Hs T G H) as [D [A _]].
    set (g x := occurrences w (joint faces (at_value (Some x)) f)). transitivity (lsum (fun v => g v * reported R d v) (keys d)).
    - rewrite (weighted_counts R s' lines' _ d' Hs' T' G' H' w), weighted_envs, A, <- (envs_last e (fill (fun _ => e) f) None (eq_sym (fill_one_reads e f n Rf))). apply lsum_ext. intros [c en] _. cbn [fst snd]. f_equal.
      apply (part_occurrences (joint faces) (joint_compositional faces) (results faces) ltac:(reflexivity) (results_cons faces) e f n Rf Nf w [] en).
    - rewrite <- weighted_ways. f_equal. apply map_ext_in. intros [x c] I. cbn [fst snd]. unfold g. destruct (case_ways n f x (dx x) Vn Sf Rf) as [_ [W _]]; [|rewrite W; ring].
      apply C. unfold listed. now apply (in_map fst) in I.
  Qed.

  (** sums over the results *)
  Lemma case_sums : forall n f x (dx : dist) g, var_name n -> simple f -> reads f = [n] -> case R [] n [(None, f)] x dx ->
    lsum (fun v => g v * reported R dx v) (keys dx) = lsum (fo g) (joint faces (at_value (Some x)) f).
  Proof.
    intros n f x dx g Vn Sf Rf C. destruct (case_ways n f x dx Vn Sf Rf C) as [D [W [L _]]].
    rewrite (lsum_ext _ _ (fun v => g v * occurrences v (joint faces (at_value (Some x)) f))) by (intros v _; now rewrite W).
    apply keys_sum; [apply result_map_nodup|]. intros y I. apply L. revert I. apply joint_incl. intros m _ z. apply faces_sides.
  Qed.
  Lemma total_sums : forall d : dist, dinv R d -> total_ways R d = lsum (fun v => 1 * reported R d v) (keys d).
  Proof. intros d D. rewrite (total_count R d D), <- (reported_sum R d D). apply lsum_ext. intros; ring. Qed.
  Lemma faces_none : forall env e, ~ In None (joint (map fst) env e) -> ~ In None (joint faces env e).
  Proof. intros env e N I. apply N. revert I. apply joint_incl. intros m _ z. apply faces_sides. Qed.
  Lemma sum_ones : forall l : list (option Z), ~ In None l -> lsum (fo (fun _ => 1)) l = len l.
  Proof. intros l N. rewrite (lsum_ext _ _ (fun _ => 1)); [rewrite lsum_const; lia|]. intros [y|] I; [reflexivity | contradiction]. Qed.

  Lemma part_expected : forall before e n f s s' lines lines' d d' (dx : Z -> dist), good_program (before ++ [(None, e)]) -> simple f -> reads f = [n] -> var_name n ->
    sided (before ++ [(None, e)]) -> sided [(None, f)] ->
    program_text lines (before ++ [(None, e)]) -> program_text lines' (before ++ [(None, fill (fun _ => e) f)]) -> reachable R s -> reachable R s' -> reports R s lines d -> reports R s' lines' d' ->
    (forall x, listed R d x -> case R [] n [(None, f)] x (dx x)) ->
    forall g, (expected R d' g == qtotal (map (fun x => probability R d x * expected R (dx x) g) (keys d)))%Q.
  Proof.
    intros before e n f s s' lines lines' d d' dx G Sf Rf Vn Sd Sdf T T' Hs Hs' H H' C g. assert (G' := good_whole before e f n G Sf Rf). assert (Nf := simple_unassigned f Sf).
    assert (Sd' : sided (before ++ [(None, fill (fun _ => e) f)])).
    { intros m I. apply (whole_dice before e f n Rf) in I. destruct I as [I|I]; [now apply Sd|]. apply Sdf. unfold program_dice. cbn [flat_map snd]. now rewrite app_nil_r. }
    destruct (last_sum R before None e s lines d Hs T G H) as [D [A N]]. destruct (last_sum R before None _ s' lines' d' Hs' T' G' H') as [D' [A' N']]. specialize (N Sd). specialize (N' Sd').
    rewrite <- (envs_last e (fill (fun _ => e) f) None (eq_sym (fill_one_reads e f n Rf))) in A', N'. set (E := envs e None no_values before) in *.
    set (L := len (joint faces no_values f)). set (S x := lsum (fo g) (joint faces (at_value (Some x)) f)).
    assert (Lx : forall x, len (joint faces (at_value (Some x)) f) = L) by (intros x; unfold L; f_equal; apply joint_length).
    assert (Sum : forall h, lsum (fun v => h v * reported R d' v) (keys d') = lsum (fun x => lsum (fo h) (joint faces (at_value (Some x)) f) * reported R d x) (keys d)).
    { intros h. rewrite A', A. apply lsum_ext. intros [c en] Iw. cbn [fst snd]. f_equal. rewrite (part_sum (joint faces) (joint_compositional faces) e f en n Rf Nf). apply lsum_ext.
      intros [x|] I; [reflexivity|]. destruct (N c en Iw I). }
    assert (Tx : forall x, listed R d x -> total_ways R (dx x) = L).
    { intros x I. destruct (case_ways n f x (dx x) Vn Sf Rf (C x I)) as [Dx [_ [_ Nx]]]. rewrite (total_sums (dx x) Dx), (case_sums n f x (dx x) (fun _ => 1) Vn Sf Rf (C x I)).
      rewrite sum_ones, Lx; [reflexivity|]. apply faces_none, Nx, Sdf. }
    assert (Td : total_ways R d' = total_ways R d * L).
    { rewrite (total_sums d' D'), (Sum (fun _ => 1)), (total_sums d D), Z.mul_comm, <- lsum_scale. apply lsum_ext. intros x I.
      destruct (case_ways n f x (dx x) Vn Sf Rf (C x I)) as [_ [_ [_ Nx]]]. rewrite sum_ones, Lx; [ring|]. apply faces_none, Nx, Sdf. }
    rewrite (qtotal_scaled _ _ (fun x => S x * reported R d x) (/ inject_Z (total_ways R d) * / inject_Z L)).
    - unfold expected. rewrite (Sum g), Td, inject_Z_mult. unfold Qdiv. rewrite Qinv_mult_distr. reflexivity.
    - intros x I. unfold probability, expected. rewrite (Tx x I), (case_sums n f x (dx x) g Vn Sf Rf (C x I)). fold (S x). rewrite inject_Z_mult. unfold Qdiv. ring.
  Qed.

  Lemma part_probability : forall before e n f s s' lines lines' d d' (dx : Z -> dist), good_program (before ++ [(None, e)]) -> simple f -> reads f = [n] -> var_name n ->
    sided (before ++ [(None, e)]) -> sided [(None, f)] ->
    program_text lines (before ++ [(None, e)]) -> program_text lines' (before ++ [(None, fill (fun _ => e) f)]) -> reachable R s -> reachable R s' -> reports R s lines d -> reports R s' lines' d' ->
    (forall x, listed R d x -> case R [] n [(None, f)] x (dx x)) ->
    let average h := qtotal (map (fun x => probability R d x * h (dx x))%Q (keys d)) in
    (forall v, (probability R d' v == average (fun d => probability R d v))%Q) /\ (forall v, (probability_at_least R d' v == average (fun d => probability_at_least R d v))%Q) /\
    (mean R d' == average (mean R))%Q.
  Proof.
    intros before e n f s s' lines lines' d d' dx G Sf Rf Vn Sd Sdf T T' Hs Hs' H H' C average.
    assert (X := part_expected before e n f s s' lines lines' d d' dx G Sf Rf Vn Sd Sdf T T' Hs Hs' H H' C).
    assert (D' : dinv R d') by (apply (last_sum R before None _ s' lines' d' Hs' T' (good_whole before e f n G Sf Rf) H')).
    split; [|split].
    - intros v. rewrite <- expected_probability, X. apply qtotal_ext. intros x _. now rewrite expected_probability.
    - intros v. rewrite <- expected_at_least, X. apply qtotal_ext. intros x _. now rewrite expected_at_least.
    - rewrite <- (expected_mean R d' D'), X. apply qtotal_ext. intros x I. destruct (case_ways n f x (dx x) Vn Sf Rf (C x I)) as [Dx _]. now rewrite (expected_mean R _ Dx).
  Qed.

  (** what is possible *)
  Lemma all_listed : forall s lines p d, reachable R s -> program_text lines p -> good_program p -> sided p -> reports R s lines d ->
    ~ In None (results (map fst) no_values p) /\ forall v, listed R d v <-> In (Some v) (results (map fst) no_values p).
  Proof.
    intros s lines p d Hs T G Sd H. destruct (program_run R s lines p d Hs T G H) as [s' [E I]]. assert (N := run_none R true p s s' d I G E). split; [exact N|].
    intros v. rewrite (run_listed R true p s s' d I G E v). apply used_all; auto. intros m J. apply map_nonempty, Sd, J.
  Qed.
  Lemma part_values : forall before e n f s s' lines lines' d d' (dx : Z -> dist), good_program (before ++ [(None, e)]) -> simple f -> reads f = [n] -> var_name n ->
    sided (before ++ [(None, e)]) -> sided [(None, f)] ->
    program_text lines (before ++ [(None, e)]) -> program_text lines' (before ++ [(None, fill (fun _ => e) f)]) -> reachable R s -> reachable R s' -> reports R s lines d -> reports R s' lines' d' ->
    (forall x, listed R d x -> case R [] n [(None, f)] x (dx x)) ->
    forall v, listed R d' v <-> exists x, listed R d x /\ listed R (dx x) v.
  Proof.
    intros before e n f s s' lines lines' d d' dx G Sf Rf Vn Sd Sdf T T' Hs Hs' H H' C v. assert (G' := good_whole before e f n G Sf Rf). assert (Nf := simple_unassigned f Sf).
    assert (Sd' : sided (before ++ [(None, fill (fun _ => e) f)])).
    { intros m I. apply (whole_dice before e f n Rf) in I. destruct I as [I|I]; [now apply Sd|]. apply Sdf. unfold program_dice. cbn [flat_map snd]. now rewrite app_nil_r. }
    destruct (all_listed s lines _ d Hs T G Sd H) as [_ A]. destruct (all_listed s' lines' _ d' Hs' T' G' Sd' H') as [_ A']. rewrite A'.
    rewrite (part_member (joint (map fst)) (joint_compositional (map fst)) (results (map fst)) ltac:(reflexivity) (results_cons (map fst)) e f n Rf Nf v before no_values).
    split; intros [x [X1 X2]]; exists x.
    - apply A in X1. split; auto. destruct (case_ways n f x (dx x) Vn Sf Rf (C x X1)) as [_ [_ [L _]]]. now apply L.
    - split; [now apply A|]. destruct (case_ways n f x (dx x) Vn Sf Rf (C x X1)) as [_ [_ [L _]]]. now apply L.
  Qed.
  Lemma part_raises : forall before e n f s s' sx lines lines' (lx : Z -> list text) y, good_program (before ++ [(None, e)]) -> simple f -> reads f = [n] -> var_name n ->
    sided (before ++ [(None, e)]) -> sided [(None, f)] ->
    program_text lines (before ++ [(None, e)]) -> program_text lines' (before ++ [(None, fill (fun _ => e) f)]) -> reachable R s -> reachable R s' -> reachable R sx ->
    (distribution_raises R s lines y -> distribution_raises R s' lines' y) /\
    (forall d, reports R s lines d -> (forall x, listed R d x -> case_lines [] n [(None, f)] x (lx x)) ->
      (distribution_raises R s' lines' y <-> exists x, listed R d x /\ distribution_raises R sx (lx x) y)).
  Proof.
    intros before e n f s s' sx lines lines' lx y G Sf Rf Vn Sd Sdf T T' Hs Hs' Hx. assert (G' := good_whole before e f n G Sf Rf). assert (Nf := simple_unassigned f Sf).
    assert (Sd' : sided (before ++ [(None, fill (fun _ => e) f)])).
    { intros m I. apply (whole_dice before e f n Rf) in I. destruct I as [I|I]; [now apply Sd|]. apply Sdf. unfold program_dice. cbn [flat_map snd]. now rewrite app_nil_r. }
    assert (Ne : joint (map fst) (at_value None) f <> []).
    { apply joint_nonempty. intros m I. apply map_nonempty, Sdf. unfold program_dice. cbn [flat_map snd]. now rewrite app_nil_r. }
    assert (P := part_none (joint (map fst)) (joint_compositional (map fst)) (results (map fst)) ltac:(reflexivity) (results_cons (map fst)) e f n Rf Nf Ne before no_values).
    rewrite (raises_exactly R s' lines' _ y Hs' T' G' Sd'), (raises_exactly R s lines _ y Hs T G Sd), P. split; [tauto|]. intros d H C.
    destruct (all_listed s lines _ d Hs T G Sd H) as [N A].
    assert (Q : forall x, listed R d x -> (distribution_raises R sx (lx x) y <-> y = ZeroDivisionError /\ In None (joint (map fst) (at_value (Some x)) f))).
    { intros x I. destruct (C x I) as [t [Ht Tx]]. cbn [app] in Tx. rewrite (raises_exactly R sx (lx x) _ y Hx Tx (good_number n t x f Vn Ht Sf Rf)).
      - rewrite results_cons, (number_joint (map fst) x t no_values Ht). cbn [flat_map results]. rewrite app_nil_r.
        rewrite (joint_agree (map fst) f (bind_value no_values (Some n) x) (at_value (Some x))); [reflexivity|]. rewrite Rf. intros k [<-|[]]. cbn [bind_value]. now rewrite (proj2 (text_eqb_eq n n) eq_refl).
      - intros m J. apply Sdf. exact J. }
    rewrite (raises_exactly R s' lines' _ y Hs' T' G' Sd'), P. split.
    - intros [E [I|[x [X1 X2]]]]; [contradiction|]. apply A in X1. exists x. split; auto. apply Q; auto.
    - intros [x [X1 X2]]. apply Q in X2; auto. destruct X2 as [E X2]. split; auto. right. exists x. split; auto. now apply A.
  Qed.

  (** rolls *)
  Lemma part_rolls : forall before e n f s s' sx lines lines' (lx : Z -> list text), runnable (before ++ [(None, e)]) -> well_formed f -> no_assignment f -> reads f = [n] -> var_name n ->
    drawable (before ++ [(None, e)]) -> drawable [(None, f)] ->
    program_text lines (before ++ [(None, e)]) -> program_text lines' (before ++ [(None, fill (fun _ => e) f)]) -> (forall x, can_roll R s lines x -> case_lines [] n [(None, f)] x (lx x)) ->
    (forall v, can_roll R s' lines' v <-> exists x, can_roll R s lines x /\ can_roll R sx (lx x) v) /\
    (forall y, can_raise R s' lines' y <-> can_raise R s lines y \/ exists x, can_roll R s lines x /\ can_raise R sx (lx x) y) /\
    (forall xs, NoDup xs -> (forall x, In x xs <-> can_roll R s lines x) -> forall v, roll_weight R s' lines' v = zsum (map (fun x => roll_weight R s lines x * roll_weight R sx (lx x) v) xs)).
  Proof.
    intros before e n f s s' sx lines lines' lx Ru Wf Nf Rf Vn Dr Drf T T' C. assert (Ru' := runnable_whole before e f n Ru Wf Nf Rf).
    assert (Dr' : drawable (before ++ [(None, fill (fun _ => e) f)])).
    { intros m I. apply (whole_dice before e f n Rf) in I. destruct I as [I|I]; [now apply Dr|]. apply Drf. unfold program_dice. cbn [flat_map snd]. now rewrite app_nil_r. }
    assert (Ne : rolled (at_value None) f <> []).
    { apply RollFacts.rolled_nonempty. intros m I. apply Drf. unfold program_dice. cbn [flat_map snd]. now rewrite app_nil_r. }
    destruct (roll_semantics R s lines _ T Ru Dr) as [A1 [A2 _]]. destruct (roll_semantics R s' lines' _ T' Ru' Dr') as [B1 [B2 _]].
    assert (Q : forall x, can_roll R s lines x -> (forall v, can_roll R sx (lx x) v <-> In (Some v) (rolled (at_value (Some x)) f)) /\
      (forall v, roll_weight R sx (lx x) v = occurrences v (rolled (at_value (Some x)) f)) /\ forall y, can_raise R sx (lx x) y <-> y = ZeroDivisionError /\ In None (rolled (at_value (Some x)) f)).
    { intros x I. destruct (C x I) as [t [Ht Tx]]. cbn [app] in Tx. assert (Rx := runnable_number n t x f Vn Ht Wf Nf Rf). assert (Dx : drawable [(Some n, EInt t); (None, f)]) by exact Drf.
      destruct (roll_semantics R sx (lx x) _ Tx Rx Dx) as [E1 [E2 _]]. assert (E3 := fun y => roll_raises R sx (lx x) _ y Tx Rx Dx).
      assert (J : rolled_program no_values [(Some n, EInt t); (None, f)] = rolled (at_value (Some x)) f).
      { cbn [rolled_program rolled flat_map]. rewrite Ht, app_nil_r. apply rolled_agree. rewrite Rf. intros k [<-|[]]. cbn [bind_value]. now rewrite (proj2 (text_eqb_eq n n) eq_refl). }
      rewrite J in *. auto. }
    split; [|split].
    - intros v. rewrite B1, (part_member rolled rolled_compositional rolled_program ltac:(reflexivity) rolled_cons e f n Rf Nf v before no_values).
      split; intros [x [X1 X2]]; exists x.
      + apply A1 in X1. split; auto. now apply (Q x X1).
      + split; [now apply A1 | now apply (Q x X1)].
    - intros y. rewrite (roll_raises R s' lines' _ y T' Ru' Dr'), (roll_raises R s lines _ y T Ru Dr),
        (part_none rolled rolled_compositional rolled_program ltac:(reflexivity) rolled_cons e f n Rf Nf Ne before no_values). split.
      + intros [E [I|[x [X1 X2]]]]; [auto|]. apply A1 in X1. right. exists x. split; auto. apply (Q x X1). auto.
      + intros [[E I]|[x [X1 X2]]]; [auto|]. apply (Q x X1) in X2. destruct X2 as [E X2]. split; auto. right. exists x. split; auto. now apply A1.
    - intros xs Nd Hx v. rewrite B2, (part_occurrences rolled rolled_compositional rolled_program ltac:(reflexivity) rolled_cons e f n Rf Nf v before no_values).
      rewrite <- (keys_sum xs _ _ Nd) by (intros x I; apply Hx, A1, I). unfold lsum. f_equal. apply map_ext_in. intros x I. apply Hx in I. rewrite A2. destruct (Q x I) as [_ [-> _]]. ring.
  Qed.
End Reported.
