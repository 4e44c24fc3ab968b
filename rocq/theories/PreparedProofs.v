(** * PreparedProofs: C64 *)
From Verif Require Import Py PyFacts PyFloat Constraint ConstraintFacts Distribution DistFacts DiceModel Expr Parser Interp TagFacts SpecDice SpecProgram SpecInterp
  SpecCalls SpecAlgebra ExprFacts StateFacts AlgebraFacts InterpRun CallFacts ProgramProofs FrameProofs Instances Checks.

Section Proofs.
  Context (R : Runtime).
  Notation state := (state R).

  Lemma constant_read : forall s n v t, parse t = Ok (EVar n) ->
    (exists s' dict, roll R [t] (set_constant R n v s) = [(1, (s', Ok dict))] /\ stdout_of R (s', Ok dict) = Some v) /\
    (forall mx, extreme_is R mx (set_constant R n v s) [t] v).
  Proof.
    intros s n v t P.
    assert (G : get_constant R n (set_constant R n v s) = Ok v).
    { unfold get_constant, set_constant. cbn [st_const]. now rewrite (dget_dset_same text_eqb text_eqb_iff). }
    split.
    - unfold roll. eexists. eexists. split.
      + cbn. unfold wbind, wlift. cbn. rewrite P. cbn. rewrite G. cbn. reflexivity.
      + cbn. now rewrite (dget_dset_same text_eqb text_eqb_iff).
    - intros mx. unfold extreme_is, extreme. destruct mx.
      + eexists. eexists. split.
        * unfold max_call. cbn. unfold bind, lift. cbn. rewrite P. cbn. rewrite G. cbn. reflexivity.
        * cbn. now rewrite (dget_dset_same text_eqb text_eqb_iff).
      + eexists. eexists. split.
        * unfold min_call. cbn. unfold bind, lift. cbn. rewrite P. cbn. rewrite G. cbn. reflexivity.
        * cbn. now rewrite (dget_dset_same text_eqb text_eqb_iff).
  Qed.

  Lemma var_line : forall s t n d, parse t = Ok (EVar n) -> dget text_eqb (st_var s) n = Some d -> reports R s [t] d.
  Proof.
    intros s t n d P G. unfold reports. rewrite (one_line R s t _ P). cbn [dist_of]. unfold get_var. rewrite G. eexists. eexists. split; [reflexivity|].
    cbn [set_stdout_var st_var]. now rewrite (dget_dset_same text_eqb text_eqb_iff).
  Qed.

  Lemma variable_read : forall s n d, reachable R s -> own R s d -> ~ In ","%char n ->
    exists s' d', set_var R n d s = (s', Ok tt) /\ reachable R s' /\ variable R s' n = Some d' /\
      get_result_map R d' = get_result_map R d /\ d_count d' = d_count d /\
      (exists inst, tied_to R inst d' /\ ~ mentions R d inst /\ forall m x, variable R s m = Some x -> ~ mentions R x inst) /\
      (forall t, parse t = Ok (EVar n) -> reports R s' [t] d') /\
      (forall t zero, parse t = Ok (EAdd (EVar n) (EInt zero)) -> int_of_text zero = Ok 0 -> exists d0, reports R s' [t] d0 /\ same_results R d0 d).
  Proof.
    intros s n d Hs O N. assert (I := reachable_sinv R s Hs). assert (W := own_dwf R s d O).
    destruct (set_var_spec R s n d I W N) as [d' [E [M [C W']]]]. eexists. exists d'. split; [exact E|].
    match type of E with _ = (?x, _) => set (s' := x) in * end.
    assert (Hs' : reachable R s') by (replace s' with (fst (set_var R n d s)) by (rewrite E; reflexivity); now apply af_set_var).
    assert (V : variable R s' n = Some d') by (unfold variable; cbn [s' st_var]; apply (dget_dset_same text_eqb text_eqb_iff)).
    assert (F : ~ dnames R d (next_instance R s n)) by (intros X; apply (next_not_issued R s n); now apply (proj2 W)).
    assert (Rm := tag_result_map R _ d d' M).
    split; [exact Hs'|]. split; [exact V|]. split; [exact Rm|]. split; [exact C|]. split; [|split].
    - exists (next_instance R s n). split; [|split].
      + apply (tagged_tied R _ d); auto; [now apply instance_name_ok | apply W].
      + intros X. apply mentions_dnames in X. contradiction.
      + intros m x X Y. apply mentions_dnames in Y. apply (next_not_issued R s n).
        apply (proj2 (si_var R s I m x (dget_some_in text_eqb text_eqb_iff _ m x X))). exact Y.
    - intros t P. now apply (var_line s' t n).
    - intros t zero P Z. destruct (neutral R VAdd d' 0 (proj1 W') ltac:(intros x; cbn; f_equal; lia)) as [z [d0 [Ez [E0 S]]]]. exists d0. split.
      + unfold reports. rewrite (one_line R s' t _ P). cbn [dist_of]. unfold binop_m, bind, get_var. fold (variable R s' n). rewrite V. unfold lift, ret. rewrite Z.
        cbn [rmap rbind]. rewrite ?Ez, ?E0. eexists. eexists. split; [reflexivity|]. cbn [set_stdout_var st_var]. now rewrite (dget_dset_same text_eqb text_eqb_iff).
      + intros v. destruct (S v) as [S1 S2]. unfold listed, reported in *. rewrite <- Rm. auto.
  Qed.

  Lemma by_hand_others : forall s n v d m, m <> n ->
    constant R (set_constant R n v s) m = constant R s m /\ variable R (fst (set_var R n d s)) m = variable R s m.
  Proof.
    intros s n v d m H. split; [|now apply set_var_other]. unfold constant, set_constant. cbn [st_const]. now apply (dget_dset_other text_eqb text_eqb_iff).
  Qed.
  Lemma by_hand_kinds : forall s n v d m,
    variable R (set_constant R n v s) m = variable R s m /\ constant R (fst (set_var R n d s)) m = constant R s m.
  Proof. intros s n v d m. split; [reflexivity|]. unfold constant. now rewrite set_var_const. Qed.

  (** ** Two interpreters *)
  Lemma does_times : forall c s s' n, does R c s s' -> ~ assigns (call_lines c) n -> times_of R s' n = times_of R s n.
  Proof.
    intros c s s' n D N. refine (does_rel R (fun a b => times_of R b n = times_of R a n) _ _ (fun m => m <> n) (fun m => m <> n) _ _ True _ True _ c s s' D _ _ _); auto.
    - intros a b d E1 E2. congruence.
    - intros m v a M. exact (times_bumped_other R a m n (not_eq_sym M)).
    - intros m d a M. unfold set_var. destruct (tag_dist _ _ _); exact (times_bumped_other R a m n (not_eq_sym M)).
    - intros m A. assert (m <> n) by (intros ->; now apply N). auto.
  Qed.

  Lemma history_assigned : forall s cs s', history R s cs s' -> forall n, times_of R s n < times_of R s' n -> exists c, In c cs /\ assigns (call_lines c) n.
  Proof.
    induction 1 as [s|s c s1 cs s2 D H IH]; intros n L; [lia|]. destruct (assigns_dec (call_lines c) n) as [A|A]; [exists c; split; [now left|exact A]|].
    rewrite <- (does_times _ _ _ _ D A) in L. destruct (IH n L) as [c' [I A']]. exists c'. split; [now right|exact A'].
  Qed.

  Lemma different_histories : forall cs1 s1 d1 cs2 s2 d2, history R (empty_state R) cs1 s1 -> history R (empty_state R) cs2 s2 -> own R s1 d1 -> own R s2 d2 ->
    (forall n c1 c2, In c1 cs1 -> In c2 cs2 -> assigns (call_lines c1) n -> ~ assigns (call_lines c2) n) ->
    no_shared_variable R d1 d2 /\ forall op d, d_binop R op d1 d2 = Ok d -> combined_independently R op d1 d2 d.
  Proof.
    intros cs1 s1 d1 cs2 s2 d2 H1 H2 O1 O2 N. assert (X : no_shared_variable R d1 d2).
    { intros inst M1 M2. destruct (mentions_issued R s1 d1 inst (own_dwf R _ _ O1) M1) as [n [k [E [_ K1]]]].
      destruct (mentions_issued R s2 d2 inst (own_dwf R _ _ O2) M2) as [n2 [k2 [E2 [_ K2]]]]. rewrite E in E2. apply instance_name_inj in E2. destruct E2 as [<- <-].
      assert (Z : times_of R (empty_state R) n = 0) by reflexivity.
      destruct (history_assigned _ _ _ H1 n ltac:(lia)) as [c1 [I1 A1]]. destruct (history_assigned _ _ _ H2 n ltac:(lia)) as [c2 [I2 A2]].
      exact (N n c1 c2 I1 I2 A1 A2). }
    split; [exact X|]. intros op d E. apply independent; auto; eapply ob_held; eassumption.
  Qed.
End Proofs.

(** ** Examples *)
Definition stored_then (R : Runtime) (first : list text) (n : text) (then_ : list text) : option (list (Z * Z) * list (Z * Z)) :=
  match dist_at R (empty_state R) first stdout with
  | Some d => match shown R (fst (set_var R n d (empty_state R))) then_ with Some m => Some (get_result_map R d, m) | None => None end
  | None => None
  end.

Lemma stored_then_seen : forall R first n then_ m1 m2, stored_then R first n then_ = Some (m1, m2) ->
  exists d d0, reports R (empty_state R) first d /\ reports R (fst (set_var R n d (empty_state R))) then_ d0 /\ get_result_map R d = m1 /\ get_result_map R d0 = m2.
Proof.
  intros R first n then_ m1 m2 H. unfold stored_then in H. destruct (dist_at R (empty_state R) first stdout) as [d|] eqn:E; [|discriminate].
  destruct (shown R (fst (set_var R n d (empty_state R))) then_) as [m|] eqn:E2; [|discriminate]. injection H as <- <-.
  destruct (shown_reports _ _ _ _ E2) as [d0 [H1 H2]]. exists d, d0. split; [now apply dist_at_reports|]. auto.
Qed.

Lemma foreign_lost : exists d d0, obtainable rt_fwd d /\ get_result_map rt_fwd d = [(2, 1); (4, 1)] /\ parse $"a + 0" = Ok (EAdd (EVar $"a") (EInt $"0")) /\
  reports rt_fwd (fst (set_var rt_fwd $"a" d (empty_state rt_fwd))) [$"a + 0"] d0 /\ get_result_map rt_fwd d0 = [].
Proof.
  destruct (stored_then_seen rt_fwd [$"VAR a = d2"; $"a * 2"] $"a" [$"a + 0"] [(2, 1); (4, 1)] []) as [d [d0 [H1 [H2 [M1 M2]]]]]; [vm_compute; reflexivity|].
  exists d, d0. split; [exact (reports_obtainable _ _ _ _ (af_now rt_fwd _) H1)|]. split; [exact M1|]. split; [vm_compute; reflexivity|]. auto.
Qed.

Definition kept_then (R : Runtime) (lines : list text) (n : text) (then_ : list text) : option (list (Z * Z)) :=
  let s := state_after R lines (empty_state R) in
  match variable R s $"a" with
  | Some d => match d_binop R VAdd d d with Ok d2 => shown R (fst (set_var R n d2 s)) then_ | Raise _ => None end
  | None => None
  end.
Lemma kept_then_seen : forall R lines n then_ m, kept_then R lines n then_ = Some m ->
  exists s d d0, reachable R s /\ own R s d /\ reports R (fst (set_var R n d s)) then_ d0 /\ get_result_map R d0 = m.
Proof.
  intros R lines n then_ m H. unfold kept_then in H. cbn zeta in H. destruct (variable R _ $"a") as [d|] eqn:E; [|discriminate].
  destruct (d_binop R VAdd d d) as [d2|] eqn:E2; [|discriminate]. destruct (shown_reports _ _ _ _ H) as [d0 [H1 H2]].
  exists (state_after R lines (empty_state R)), d2, d0. split; [apply after_lines, af_now|]. split; [|auto].
  apply (own_binary R _ VAdd d d d2); auto; apply (own_variable R _ $"a"); try (now apply (dget_some_in text_eqb text_eqb_iff)); apply after_lines, af_now.
Qed.

Lemma own_first : forall R t n d, variable R (state_after R [t] (empty_state R)) n = Some d ->
  history R (empty_state R) [CDistributions [t]] (state_after R [t] (empty_state R)) /\ own R (state_after R [t] (empty_state R)) d.
Proof.
  intros R t n d H. split; [eapply hi_call; [apply do_distributions | apply hi_start]|].
  apply (own_variable R _ n); [apply after_lines, af_now | now apply (dget_some_in text_eqb text_eqb_iff)].
Qed.
Lemma assigns_apart : forall l1 l2, forallb (fun n => negb (existsb (text_eqb n) (line_assigns l2))) (line_assigns l1) = true ->
  forall n c1 c2, In c1 [CDistributions l1] -> In c2 [CDistributions l2] -> assigns (call_lines c1) n -> ~ assigns (call_lines c2) n.
Proof.
  intros l1 l2 H n c1 c2 [<-|[]] [<-|[]] A B. cbn [call_lines] in *. apply assigns_iff in A, B. rewrite forallb_forall in H. apply H in A.
  apply Bool.negb_true_iff in A. rewrite <- Bool.not_true_iff_false in A. apply A. apply existsb_exists. exists n. split; [exact B|]. now apply text_eqb_eq.
Qed.
