(** * CallProofs: what the interpreter keeps between calls *)
From Verif Require Import Py PyFacts PyFloat Constraint Distribution DiceModel Expr Parser Interp SpecDice SpecProgram SpecInterp ConstraintFacts
  DistFacts DiceFacts SpecNotation TagFacts ExprFacts StateFacts WfFacts InterpRun SpecRoll SpecCalls CallFacts.

Section Proofs.
  Context (R : Runtime).
  Notation state := (state R).

  Lemma const_other : forall n v s m, m <> n -> constant R (set_constant R n v s) m = constant R s m.
  Proof. intros. unfold constant, set_constant. cbn [st_const]. apply dget_dset_other; auto using text_eqb_iff. Qed.
  Lemma const_same : forall n v s, constant R (set_constant R n v s) n = Some v.
  Proof. intros. unfold constant, set_constant. cbn [st_const]. apply dget_dset_same. apply text_eqb_iff. Qed.
  Lemma stdout_const_other : forall v s m, m <> stdout -> constant R (set_stdout_const R v s) m = constant R s m.
  Proof. intros. unfold constant, set_stdout_const. cbn [st_const]. apply dget_dset_other; auto using text_eqb_iff. Qed.
  Lemma stdout_const_same : forall v s, constant R (set_stdout_const R v s) stdout = Some v.
  Proof. intros. unfold constant, set_stdout_const. cbn [st_const]. apply dget_dset_same. apply text_eqb_iff. Qed.
  Lemma stdout_var_other : forall d s m, m <> stdout -> variable R (set_stdout_var R d s) m = variable R s m.
  Proof. intros. unfold variable, set_stdout_var. cbn [st_var]. apply dget_dset_other; auto using text_eqb_iff. Qed.

  (** ** C34 *)
  Lemma others_kept : forall c s s' n, does R c s s' -> n <> stdout -> ~ assigns (call_lines c) n ->
    constant R s' n = constant R s n /\ variable R s' n = variable R s n.
  Proof.
    intros c s s' n D N A.
    apply (does_rel R (fun s s' => constant R s' n = constant R s n /\ variable R s' n = variable R s n)
             (fun s => conj eq_refl eq_refl) ltac:(intros ? ? ? [] []; split; congruence) (fun m => m <> n) (fun m => m <> n)
             ltac:(intros; split; [apply const_other; congruence|reflexivity])
             ltac:(intros; split; [unfold constant; now rewrite set_var_const|apply set_var_other; congruence])
             True ltac:(intros; split; [now apply stdout_const_other|reflexivity])
             True ltac:(intros; split; [reflexivity|now apply stdout_var_other]) c s s' D); auto.
    intros m Hm. split; intros _ ->; tauto.
  Qed.

  (** ** C33, C35: calls that work out distributions do not touch the constants, rolls and costs do not touch the variables *)
  Lemma distributions_keep_constants : forall c s s', does R c s s' -> asks_distribution c -> st_const s' = st_const s.
  Proof.
    intros c s s' D A.
    apply (does_rel R (fun s s' => st_const s' = st_const s) ltac:(reflexivity) ltac:(congruence) (fun _ => False) (fun _ => True)
             ltac:(intros; contradiction) ltac:(intros; apply set_var_const) False ltac:(intros; contradiction)
             True ltac:(reflexivity) c s s' D); auto; destruct c; cbn in *; intuition.
  Qed.
  Lemma rolls_keep_variables : forall c s s', does R c s s' -> (exists lines, c = CRoll lines \/ c = CCost lines) -> st_var s' = st_var s.
  Proof.
    intros c s s' D A.
    apply (does_rel R (fun s s' => st_var s' = st_var s) ltac:(reflexivity) ltac:(congruence) (fun _ => True) (fun _ => False)
             ltac:(reflexivity) ltac:(intros; contradiction) True ltac:(reflexivity)
             False ltac:(intros; contradiction) c s s' D); destruct A as [lines [-> | ->]]; cbn in *; intuition.
  Qed.
  Lemma cost_keeps : forall lines s s', does R (CCost lines) s s' -> (forall n, ~ assigns lines n) -> s' = s.
  Proof.
    intros lines s s' D A.
    apply (does_rel R (fun s s' => s' = s) ltac:(reflexivity) ltac:(congruence) (fun _ => False) (fun _ => False)
             ltac:(intros; contradiction) ltac:(intros; contradiction) False ltac:(intros; contradiction)
             False ltac:(intros; contradiction) _ s s' D); cbn; intuition; eapply A; eauto.
  Qed.

  (** Rolls only depend on the constants *)
  Definition near (s s' : state) : Prop := st_const s = st_const s'.
  (** ** Agreement on some names *)
  Definition agree (N : text -> Prop) (s s' : state) : Prop := forall n, N n -> constant R s n = constant R s' n.
  Definition wagree {A} (P : state -> state -> Prop) (l l' : list (Z * (state * res A))) : Prop :=
    Forall2 (fun a b => fst a = fst b /\ P (fst (snd a)) (fst (snd b)) /\ snd (snd a) = snd (snd b)) l l'.

  Lemma wagree_one : forall A (P : state -> state -> Prop) w s s' (r : res A), P s s' -> wagree P [(w, (s, r))] [(w, (s', r))].
  Proof. intros. constructor; [cbn; auto|constructor]. Qed.
  Lemma wagree_bind : forall A B (P Q : state -> state -> Prop) (m : W R A) (f : A -> W R B) s s', wagree P (m s) (m s') ->
    (forall s s', P s s' -> Q s s') -> (forall a s s', P s s' -> wagree Q (f a s) (f a s')) -> wagree Q (wbind R m f s) (wbind R m f s').
  Proof.
    intros A B P Q m f s s' H W F. unfold wbind. induction H as [|[w1 [s1 r1]] [w2 [s2 r2]] l l' [E1 [E2 E3]] H IH]; [constructor|].
    cbn [fst snd] in *. subst w2 r2. cbn [flat_map]. apply Forall2_app; auto. destruct r1 as [a|x].
    - specialize (F a s1 s2 E2). clear IH H. induction F as [|[w3 [s3 r3]] [w4 [s4 r4]] k k' [G1 [G2 G3]] F IH]; [constructor|].
      cbn [map fst snd] in *. subst. constructor; auto.
    - now apply wagree_one, W.
  Qed.
  Lemma wagree_rolls : forall A (P : state -> state -> Prop) (l : rolls A) s s', P s s' -> wagree P (wrolls R l s) (wrolls R l s').
  Proof. intros. unfold wrolls. induction l; constructor; cbn; auto. Qed.
  Lemma wagree_binop : forall (P : state -> state -> Prop) f a b s s', (forall s s', P s s' -> wagree P (a s) (a s')) ->
    (forall s s', P s s' -> wagree P (b s) (b s')) -> P s s' -> wagree P (wbinop R f a b s) (wbinop R f a b s').
  Proof.
    intros P f a b s s' Ha Hb H. apply wagree_bind with (P := P); auto. intros x s1 s2 H1. apply wagree_bind with (P := P); auto.
    intros. now apply wagree_one.
  Qed.

  Ltac sub H := let n := fresh in let h := fresh in intros n h; apply H; cbn [reads]; try apply in_or_app; cbn [In]; auto.

  (** [P] is preserved by assignments and determines the values of the names in [N] *)
  Section Agree.
    Context (P : state -> state -> Prop) (N : text -> Prop).
    Context (Pget : forall s s', P s s' -> agree N s s').
    Context (Pset : forall n v s s', P s s' -> P (set_constant R n v s) (set_constant R n v s')).

    Lemma roll_of_agree : forall e, (forall n, In n (reads e) -> N n) -> forall s s', P s s' -> wagree P (roll_of R e s) (roll_of R e s').
    Proof.
      induction e; intros I s s' H; cbn [roll_of];
        try (apply wagree_binop; [apply IHe1; sub I|apply IHe2; sub I|exact H]);
        try (apply wagree_bind with (P := P); [apply IHe; [sub I|exact H]|auto|intros; now apply wagree_one]);
        try (now apply wagree_rolls); try (now apply wagree_one).
      - apply IHe; [sub I|exact H].
      - destruct (dk_simple d) as [[]|]; [now apply wagree_rolls|now apply wagree_one|now apply wagree_rolls].
      - apply wagree_bind with (P := P); [apply IHe2; [sub I|exact H]|auto|]. intros a s1 s2 H1. destruct (a =? 0); [now apply wagree_one|].
        apply wagree_bind with (P := P); [apply IHe1; [sub I|exact H1]|auto|]. intros. now apply wagree_one.
      - destruct (int_operator operator); [|now apply wagree_one]. apply wagree_binop; [apply IHe1; sub I|apply IHe2; sub I|exact H].
      - destruct (minmax_operator min_max); [|now apply wagree_one]. apply wagree_binop; [apply IHe1; sub I|apply IHe2; sub I|exact H].
      - apply wagree_bind with (P := P); [apply IHe; [sub I|exact H]|auto|]. intros. apply wagree_one. auto.
      - constructor; [|constructor]. cbn [fst snd]. repeat split; auto. unfold get_constant. fold (constant R s name). fold (constant R s' name).
        rewrite (Pget s s' H name); auto. apply I. now left.
    Qed.

    Definition magree {A} (Q : state -> state -> Prop) (r r' : state * res A) : Prop := Q (fst r) (fst r') /\ snd r = snd r'.
    Lemma magree_bind : forall A B (m : M R A) (f : A -> M R B) s s', magree P (m s) (m s') ->
      (forall a s s', P s s' -> magree P (f a s) (f a s')) -> magree P (bind R m f s) (bind R m f s').
    Proof.
      intros A B m f s s' [H E] F. unfold bind. destruct (m s) as [s1 r1], (m s') as [s2 r2]. cbn [fst snd] in *. subst r2.
      destruct r1; [now apply F|split; auto].
    Qed.
    Lemma magree_lift : forall A (r : res A) s s', P s s' -> magree P (lift R r s) (lift R r s').
    Proof. intros. split; auto. Qed.
    Lemma magree_ret : forall A (a : A) s s', P s s' -> magree P (ret R a s) (ret R a s').
    Proof. intros. split; auto. Qed.

    Lemma cost_of_agree : forall e, (forall n, In n (reads e) -> N n) -> forall s s', P s s' -> magree P (cost_of R e s) (cost_of R e s').
    Proof.
      induction e; intros I s s' H; cbn [cost_of]; try (now apply magree_ret);
        try (apply magree_bind; [apply IHe1; [sub I|exact H]|]; intros; apply magree_bind; [apply IHe2; [sub I|assumption]|]; intros; now apply magree_ret);
        try (apply IHe; [sub I|exact H]).
      - apply magree_bind; [apply IHe; [sub I|exact H]|]. intros. now apply magree_lift.
      - destruct (dk_simple d) as [[]|]; now apply magree_ret.
      - apply magree_bind; [apply IHe; [sub I|exact H]|]. intros c s1 s2 H1. apply magree_bind; [split; cbn; auto|]. intros. now apply magree_ret.
      - split; auto. cbn [snd]. unfold get_constant. fold (constant R s name). fold (constant R s' name).
        rewrite (Pget s s' H name); auto. apply I. now left.
    Qed.
  End Agree.

  Lemma agree_set : forall N n v s s', agree N s s' -> agree N (set_constant R n v s) (set_constant R n v s').
  Proof.
    intros N n v s s' H m Hm. destruct (text_eqb m n) eqn:E.
    - apply text_eqb_iff in E. subst. now rewrite !const_same.
    - rewrite !const_other; [now apply H| |]; intros ->; rewrite (proj2 (text_eqb_iff n n) eq_refl) in E; discriminate.
  Qed.
  Lemma agree_stdout : forall N v s s', agree N s s' -> agree (fun n => N n \/ n = stdout) (set_stdout_const R v s) (set_stdout_const R v s').
  Proof.
    intros N v s s' H m Hm. destruct (text_eqb m stdout) eqn:E.
    - apply text_eqb_iff in E. subst. now rewrite !stdout_const_same.
    - assert (m <> stdout) by (intros ->; rewrite (proj2 (text_eqb_iff stdout stdout) eq_refl) in E; discriminate).
      rewrite !stdout_const_other; auto. destruct Hm; [now apply H|congruence].
  Qed.
  Lemma agree_less : forall (N N' : text -> Prop) s s', agree N s s' -> (forall n, N' n -> N n) -> agree N' s s'.
  Proof. intros N N' s s' H I n Hn. apply H. auto. Qed.

  Lemma wmul_one : forall A (l : list (Z * A)), map (fun wr => (1 * fst wr, snd wr)) l = l.
  Proof. intros. rewrite <- (map_id l) at 2. apply map_ext. intros [w r]. cbn [fst snd]. f_equal. destruct w; reflexivity. Qed.
  Lemma roll_line_parse : forall l s, roll_line R l s = match parse l with
    | Ok e => wbind R (roll_of R e) (fun v s => [(1, (set_stdout_const R v s, Ok LiveConstants))]) s
    | Raise x => [(1, (s, Raise x))]
    end.
  Proof.
    intros. unfold roll_line. unfold wbind at 1, wlift. destruct (parse l) as [e|x]; [|reflexivity]. cbn [flat_map].
    now rewrite app_nil_r, wmul_one.
  Qed.

  Lemma roll_line_agree : forall (P Q : state -> state -> Prop) N l, (forall s s', P s s' -> agree N s s') ->
    (forall n v s s', P s s' -> P (set_constant R n v s) (set_constant R n v s')) ->
    (forall v s s', P s s' -> Q (set_stdout_const R v s) (set_stdout_const R v s')) ->
    (forall e n, parse l = Ok e -> In n (reads e) -> N n) -> forall s s', P s s' ->
    Forall2 (fun a b => fst a = fst b /\ snd (snd a) = snd (snd b) /\
                        match snd (snd a) with Ok _ => Q | Raise _ => P end (fst (snd a)) (fst (snd b))) (roll_line R l s) (roll_line R l s').
  Proof.
    intros P Q N l G S T I s s' H. rewrite !roll_line_parse. destruct (parse l) as [e|x].
    - pose proof (roll_of_agree P N G S e (fun n => I e n eq_refl) s s' H) as A. unfold wbind.
      induction A as [|[w1 [s1 r1]] [w2 [s2 r2]] k k' [E1 [E2 E3]] A IH]; [constructor|]. cbn [fst snd] in *. subst. cbn [flat_map].
      apply Forall2_app; auto. destruct r2 as [v|x]; repeat constructor; cbn [fst snd]; auto.
    - constructor; [|constructor]. cbn. auto.
  Qed.

  Lemma roll_from_agree : forall (P : state -> state -> Prop) N lines, (forall s s', P s s' -> agree N s s') ->
    (forall n v s s', P s s' -> P (set_constant R n v s) (set_constant R n v s')) ->
    (forall v s s', P s s' -> P (set_stdout_const R v s) (set_stdout_const R v s')) ->
    (forall n, mentions_name lines n -> N n) -> forall d s s', P s s' -> wagree P (roll_from R d lines s) (roll_from R d lines s').
  Proof.
    intros P N lines G S T. induction lines as [|l lines IH]; intros I d s s' H.
    - constructor; [|constructor]. cbn. auto.
    - cbn [roll_from]. assert (L : forall e n, parse l = Ok e -> In n (reads e) -> N n) by (intros e n E J; apply I; exists l, e; cbn; auto).
      pose proof (roll_line_agree P P N l G S T L s s' H) as A.
      apply wagree_bind with (P := P); auto.
      + clear - A. induction A as [|a b k k' [E1 [E2 E3]] A IHA]; constructor; auto. repeat split; auto. now destruct (snd (snd a)).
      + intros. apply IH; auto. intros n [t [e [J1 J2]]]. apply I. exists t, e. cbn; auto.
  Qed.

  Lemma roll_near : forall lines s s', st_const s = st_const s' -> map (seen_run R) (roll R lines s) = map (seen_run R) (roll R lines s').
  Proof.
    intros lines s s' H.
    assert (A : wagree near (roll R lines s) (roll R lines s')).
    { apply roll_from_agree with (N := fun _ => True); auto.
      - intros a b E n _. unfold constant. now rewrite E.
      - intros n v a b E. unfold near. cbn. now rewrite E.
      - intros v a b E. unfold near. cbn. now rewrite E. }
    induction A as [|[w1 [s1 r1]] [w2 [s2 r2]] k k' [E1 [E2 E3]] A IH]; [reflexivity|]. cbn [map fst snd] in *. subst.
    f_equal; auto. unfold seen_run. cbn [fst snd]. now rewrite E2.
  Qed.

  Lemma roll_agree : forall lines s s', (forall n, mentions_name lines n -> constant R s n = constant R s' n) ->
    map (fun run => (fst run, snd (snd run), stdout_of R (snd run))) (roll R lines s) =
    map (fun run => (fst run, snd (snd run), stdout_of R (snd run))) (roll R lines s').
  Proof.
    intros lines s s' H. destruct lines as [|l lines]; [reflexivity|].
    assert (F : forall (l l' : list (Z * (state * res const_dict))), Forall2 (fun a b => fst a = fst b /\ snd (snd a) = snd (snd b) /\
              match snd (snd a) with Ok _ => constant R (fst (snd a)) stdout = constant R (fst (snd b)) stdout | _ => True end) l l' ->
              map (fun run => (fst run, snd (snd run), stdout_of R (snd run))) l = map (fun run => (fst run, snd (snd run), stdout_of R (snd run))) l').
    { clear. induction 1 as [|[w1 [s1 r1]] [w2 [s2 r2]] k k' [E1 [E2 E3]] A IH]; [reflexivity|]. cbn [map fst snd] in *. subst.
      f_equal; auto. f_equal. unfold stdout_of. destruct r2 as [[]|]; auto. }
    apply F. unfold roll. cbn [roll_from]. set (N := mentions_name (l :: lines)).
    assert (L : forall e n, parse l = Ok e -> In n (reads e) -> N n) by (intros e n E J; exists l, e; cbn; auto).
    assert (J : forall n, mentions_name lines n -> N n \/ n = stdout) by (intros n [t [e [J1 J2]]]; left; exists t, e; cbn; auto).
    pose proof (roll_line_agree (agree N) (agree (fun n => N n \/ n = stdout)) N l (fun _ _ H => H) (agree_set N) (agree_stdout N) L s s' H) as A.
    unfold wbind.
    induction A as [|[w1 [s1 r1]] [w2 [s2 r2]] k k' [E1 [E2 E3]] A IH2]; [constructor|]. cbn [fst snd] in *. subst. cbn [flat_map].
    apply Forall2_app; auto. destruct r2 as [v|x].
    - assert (A2 : forall v s s', agree (fun n => N n \/ n = stdout) s s' -> agree (fun n => N n \/ n = stdout) (set_stdout_const R v s) (set_stdout_const R v s')).
      { intros. eapply agree_less; [apply agree_stdout; eassumption|]. cbn. tauto. }
      pose proof (roll_from_agree (agree (fun n => N n \/ n = stdout)) (fun n => N n \/ n = stdout) lines (fun _ _ H => H) (agree_set _) A2
                    J v s1 s2 E3) as IH.
      clear - IH. induction IH as [|[w3 [s3 r3]] [w4 [s4 r4]] k k' [G1 [G2 G3]] F IH]; [constructor|].
      cbn [map fst snd] in *. subst. constructor; cbn; auto. repeat split; auto. destruct r4; auto.
    - constructor; [|constructor]. cbn. auto.
  Qed.
End Proofs.
