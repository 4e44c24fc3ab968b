(** * RollCountProofs: C80 for roll() *)
From Coq Require Import Permutation.
From Verif Require Import Py PyFacts PyFloat Constraint Distribution DistFacts DiceModel Expr Parser Interp Instances SpecDice DiceFacts DiceProofs SpecProgram SpecRoll
  SpecInterp InterpRun ExprFacts ProgramFacts JointFacts RaiseFacts WfFacts ProgramProofs RollFacts RollProofs SpecAlgebra SpecCases SpecSame SameProofs SpecPool PoolProofs SpecCount CountProofs SpecRollCount.
Local Open Scope Z_scope.

(** A line with dice or a pool reports a distribution, and roll() follows it *)
Lemma roll_as_reported : forall (R : Runtime) s t e m, parse t = Ok e -> simple e -> can_choose m -> dice_of e = [m] -> reads e = [] -> no_assignment e -> logical e ->
  (forall sides env, ~ In None (joint sides env e)) ->
  exists d, alone R e d /\ forall v, roll_weight R s [t] v = reported R d v.
Proof.
  intros R s t e m P S C D Rd Na Lg N. assert (G := single_program e S Rd). assert (W := parse_wf t e P).
  assert (T : program_text [t] [(None, e)]) by (constructor; [exact P | constructor]).
  assert (Dr : drawable [(None, e)]). { intros m' I. cbn in I. rewrite D in I. cbn in I. destruct I as [<-|[]]. exact C. }
  assert (Sd : sided [(None, e)]). { intros m' I E. subst m'. apply Dr in I. destruct I as [F _]. now apply F. }
  assert (Rn : runnable [(None, e)]). { split; [discriminate|]. split; [apply G|]. intros k e' [X|[]]. injection X as <- <-. auto. }
  destruct (run R true [(None, e)] (empty_state R)) as [s' [d|x]] eqn:E.
  - assert (Rp : reports R (empty_state R) [t] d) by (apply (reports_run R [(None, e)] [t] (empty_state R) d (proj1 G) T); eauto).
    exists d. split; [exists t, (empty_state R); split; [exact P|]; split; [constructor | exact Rp]|]. intros v.
    destruct (expression_counts R (empty_state R) t e d (af_now R _) P S Rd Rp) as [Cn _]. rewrite Cn.
    rewrite (roll_logical R s [t] [(None, e)] v T Rn Dr); [reflexivity|]. intros k e' [X|[]]. injection X as <- <-. exact Lg.
  - destruct (run_raises R true _ _ s' x (reachable_sinv R _ (af_now R _)) G Sd E) as [_ I]. exfalso. exact (N _ _ I).
Qed.
Lemma dice_line_rolls : forall (R : Runtime) s m n t, dice_line m n t -> exists d, dice_report R m n d /\ forall v, roll_weight R s [t] v = reported R d v.
Proof.
  intros R s m n t [e [P [[x [-> [E1 E2]]] [S C]]]].
  destruct (roll_as_reported R s t (EDice x) m P S C) as [d [A H]]; [cbn [dice_of]; now rewrite E1 | reflexivity | exact I | exact I | |].
  - intros sides env H. cbn [joint] in H. apply in_map_iff in H. destruct H as [r [H _]]. discriminate.
  - exists d. split; [|exact H]. exists (EDice x). split; [exists x; auto|]. split; [exact S | exact A].
Qed.
Lemma pool_line_rolls : forall (R : Runtime) s keep m n k t, pool_line keep m n k t ->
  exists d, (if keep then keep_report R m n k d else drop_report R m n k d) /\ forall v, roll_weight R s [t] v = reported R d v.
Proof.
  intros R s keep m n k t [e [P [[x [-> [E1 [E2 [E3 E4]]]]] [S C]]]].
  destruct (roll_as_reported R s t (EDropKeep x) m P S C) as [d [A H]]; [cbn [dice_of]; now rewrite E1 | reflexivity | exact I | exact I | |].
  - intros sides env H. cbn [joint] in H. apply in_map_iff in H. destruct H as [r [H _]]. discriminate.
  - exists d. split; [|exact H]. destruct keep; exists (EDropKeep x); (split; [exists x; auto|]); (split; [exact S | exact A]).
Qed.

Lemma roll_dice_ways : forall (R : Runtime) s m n sides t, Permutation (faces m) (consecutive 1 sides) -> dice_line m n t -> forall v, roll_weight R s [t] v = ways_to_roll sides (Z.to_nat n) v.
Proof. intros R s m n sides t P H v. destruct (dice_line_rolls R s m n t H) as [d [D E]]. rewrite E. now apply (count_roll R m). Qed.
Lemma roll_success_ways : forall (R : Runtime) s m n no yes t, Permutation (faces m) (repeat 0 no ++ repeat 1 yes) -> dice_line m n t ->
  forall v, roll_weight R s [t] v = ways_to_succeed no yes (Z.to_nat n) v.
Proof. intros R s m n no yes t P H v. destruct (dice_line_rolls R s m n t H) as [d [D E]]. rewrite E. now apply (count_succeed R m). Qed.
Lemma roll_highest_ways : forall (R : Runtime) s m n sides t, Permutation (faces m) (consecutive 1 sides) -> pool_line true m n 1 t -> forall v, roll_weight R s [t] v = ways_highest sides n v.
Proof. intros R s m n sides t P H v. destruct (pool_line_rolls R s true m n 1 t H) as [d [D E]]. rewrite E. now apply (count_highest R m). Qed.
Lemma roll_lowest_ways : forall (R : Runtime) s m n sides t, Permutation (faces m) (consecutive 1 sides) -> pool_line false m n (n - 1) t -> forall v, roll_weight R s [t] v = ways_lowest sides n v.
Proof. intros R s m n sides t P H v. destruct (pool_line_rolls R s false m n (n - 1) t H) as [d [D E]]. rewrite E. now apply (count_lowest R m). Qed.

(** ** For the examples *)
Ltac show_dice_line t :=
  let r := eval vm_compute in (parse t) in match r with Ok (EDice ?x) =>
    exists (EDice x); split; [vm_compute; reflexivity|]; split; [exists x; split; [reflexivity|]; split; reflexivity|];
    split; [split; [exists t; vm_compute; reflexivity | vm_compute; discriminate]|]; split; [vm_compute; discriminate | vm_compute; reflexivity] end.
Ltac show_pool_line t :=
  let r := eval vm_compute in (parse t) in match r with Ok (EDropKeep ?x) =>
    exists (EDropKeep x); split; [vm_compute; reflexivity|]; split; [exists x; split; [reflexivity|]; split; [reflexivity|]; split; [reflexivity|]; split; reflexivity|];
    split; [split; [exists t; vm_compute; reflexivity | split; vm_compute; discriminate]|]; split; [vm_compute; discriminate | vm_compute; reflexivity] end.
