(** * SeedProofs: sessions in two runtimes (C59) and with other names (C61) *)
From Verif Require Import Py PyFacts PyFloat Constraint ConstraintFacts Distribution DistFacts DiceModel Expr Lexer Parser Interp Random Show TagFacts SpecProgram
  ExprFacts StateFacts WfFacts InterpRun SpecCalls SpecRandom RandomProofs SpecSeed SpecRename SeedFacts Instances.

Section Two.
  Context (R1 R2 : Runtime) (G : Generator) (rho : text -> text) (rho_inj : forall a b, rho a = rho b -> a = b) (rho_stdout : rho stdout = stdout).
  Notation drel := (drel R1 R2 rho).
  Notation srel := (srel R1 R2 rho).

  Record wrel (w1 : world R1 G) (w2 : world R2 G) : Prop := {
    wr_states : forall i, srel (interpreter R1 G w1 i) (interpreter R2 G w2 i);
    wr_sinv1 : forall i, sinv R1 (interpreter R1 G w1 i);
    wr_sinv2 : forall i, sinv R2 (interpreter R2 G w2 i);
    wr_held : Forall2 (fun a b => dinv R1 a /\ dinv R2 b /\ drel a b) (held R1 G w1) (held R2 G w2);
    wr_source : source R1 G w1 = source R2 G w2
  }.

  Lemma view_rel : forall a b, drel a b -> view_of R1 a = view_of R2 b.
  Proof.
    intros a b D. unfold view_of. pose proof (ext_rel R1 R2 rho true a b D) as X. pose proof (ext_rel R1 R2 rho false a b D) as N. unfold d_ext in X, N.
    now rewrite (result_map_rel R1 R2 rho a b D), X, N, (zero_rel R1 R2 rho a b D), (average_rel R1 R2 rho a b D), (dict_rel R1 R2 rho a b D), (at_least_rel R1 R2 rho a b D),
      (at_most_rel R1 R2 rho a b D), (histogram_rel R1 R2 rho a b D), (at_least_plot_rel R1 R2 rho a b D), (at_most_plot_rel R1 R2 rho a b D).
  Qed.

  Lemma comparison_rel : forall a a' b b' n n', drel a a' -> drel b b' -> comparison_of R1 a b n n' = comparison_of R2 a' b' n n'.
  Proof.
    intros a a' b b' n n' Da Db. unfold comparison_of, compare_plot, compare_histogram_data, get_compare, get_compare_at_least, get_compare_at_most, line_plot_of.
    now rewrite (dict_rel R1 R2 rho a a' Da), (dict_rel R1 R2 rho b b' Db), (histogram_data_rel R1 R2 rho a a' Da), (histogram_data_rel R1 R2 rho b b' Db),
      (at_least_data_rel R1 R2 rho a a' Da), (at_least_data_rel R1 R2 rho b b' Db), (at_most_data_rel R1 R2 rho a a' Da), (at_most_data_rel R1 R2 rho b b' Db).
  Qed.

  Lemma at_interpreter_rel : forall w1 w2 i s1 s2, wrel w1 w2 -> srel s1 s2 -> sinv R1 s1 -> sinv R2 s2 ->
    wrel (at_interpreter R1 G i s1 w1) (at_interpreter R2 G i s2 w2).
  Proof.
    intros w1 w2 i s1 s2 [A B C D E] S I1 I2. constructor; cbn; auto; intros j; destruct (Nat.eqb j i); auto.
  Qed.

  Lemma hold_rel : forall w1 w2 l1 l2, wrel w1 w2 -> Forall2 (fun a b => dinv R1 a /\ dinv R2 b /\ drel a b) l1 l2 ->
    wrel (hold R1 G l1 w1) (hold R2 G l2 w2).
  Proof. intros w1 w2 l1 l2 [A B C D E] H. constructor; cbn; auto. now apply Forall2_app. Qed.

  Lemma held_nth : forall w1 w2 i, wrel w1 w2 ->
    match nth_error (held R1 G w1) i, nth_error (held R2 G w2) i with
    | Some a, Some b => dinv R1 a /\ dinv R2 b /\ drel a b | None, None => True | _, _ => False end.
  Proof.
    intros w1 w2 i [_ _ _ H _]. revert i. induction H as [|a b l1 l2 K H IH]; intros [|k]; cbn; auto. apply IH.
  Qed.

  (** a call that gives a value that does not depend on the runtime *)
  Lemma plain_call_rel : forall A (r1 : state R1 * res A) (r2 : state R2 * res A) (f : res A -> sight) (g : A -> A) i w1 w2, wrel w1 w2 ->
    (forall r, f (rmap g r) = rename_sight rho (f r)) ->
    related R1 R2 rho (fun x y => y = g x) r1 r2 -> sinv R1 (fst r1) -> sinv R2 (fst r2) ->
    let x1 := (let (s', r) := r1 in (at_interpreter R1 G i s' w1, f r)) in
    let x2 := (let (s', r) := r2 in (at_interpreter R2 G i s' w2, f r)) in
    wrel (fst x1) (fst x2) /\ snd x2 = rename_sight rho (snd x1).
  Proof.
    intros A [s1 [a|x]] [s2 [b|y]] f g i w1 w2 W F [S K] I1 I2; cbn [fst snd rrel] in *; try contradiction; subst; (split; [now apply at_interpreter_rel|]).
    - apply (F (Ok a)).
    - apply (F (Raise y)).
  Qed.

  Lemma constants_call_rel : forall (r1 : state R1 * res const_dict) (r2 : state R2 * res const_dict) i w1 w2, wrel w1 w2 ->
    related R1 R2 rho eq r1 r2 -> sinv R1 (fst r1) -> sinv R2 (fst r2) ->
    let x1 := (let (s', r) := r1 in (at_interpreter R1 G i s' w1, SeenConstants (rmap (read_dict R1 s') r))) in
    let x2 := (let (s', r) := r2 in (at_interpreter R2 G i s' w2, SeenConstants (rmap (read_dict R2 s') r))) in
    wrel (fst x1) (fst x2) /\ snd x2 = rename_sight rho (snd x1).
  Proof.
    intros [s1 [a|x]] [s2 [b|y]] i w1 w2 W [S K] I1 I2; cbn [fst snd rrel] in *; try contradiction; subst; (split; [now apply at_interpreter_rel|]); [|auto].
    cbn [rmap rename_sight]. unfold read_dict. rewrite (proj1 (proj2 S)). destruct b; reflexivity.
  Qed.

  Lemma views_rel : forall l1 l2, Forall2 (nrel R1 R2 rho) l1 l2 ->
    map (fun nd => (fst nd, view_of R2 (snd nd))) l2 = map (on_name rho) (map (fun nd => (fst nd, view_of R1 (snd nd))) l1).
  Proof.
    intros l1 l2 H. rewrite map_map. symmetry. apply Forall2_same. eapply Forall2_weaken; [|exact H]. intros a b [E D]. cbn.
    unfold on_name. cbn. now rewrite E, (view_rel _ _ D).
  Qed.

  Definition crel (c c' : call) : Prop :=
    match c, c' with
    | CRoll l, CRoll l' | CMax l, CMax l' | CMin l, CMin l' | CDistributions l, CDistributions l' | CDict l, CDict l'
    | CAverage l, CAverage l' | CHistogram l, CHistogram l' | CAtLeast l, CAtLeast l' | CAtMost l, CAtMost l' | CCost l, CCost l' =>
        Forall2 (lrel rho) l l'
    | _, _ => False
    end.
  Definition arel (a a' : action) : Prop :=
    match a, a' with
    | ACall i c, ACall i' c' => i = i' /\ crel c c'
    | ARolls i l, ARolls i' l' => i = i' /\ Forall2 (lrel rho) l l'
    | _, _ => a = a'
    end.

  Lemma do_call_rel : forall i c c' w1 w2, crel c c' -> wrel w1 w2 ->
    wrel (fst (do_call R1 G i c w1)) (fst (do_call R2 G i c' w2)) /\ snd (do_call R2 G i c' w2) = rename_sight rho (snd (do_call R1 G i c w1)).
  Proof.
    intros i c c' w1 w2 L W. assert (S := wr_states w1 w2 W i). assert (I1 := wr_sinv1 w1 w2 W i). assert (I2 := wr_sinv2 w1 w2 W i).
    assert (E1 := empty_dwf R1 (interpreter R1 G w1 i)). assert (E2 := empty_dwf R2 (interpreter R2 G w2 i)).
    assert (ED : drel (empty_dist R1) (empty_dist R2)) by (split; [constructor | auto]).
    destruct c as [l|l|l|l|l|l|l|l|l|l], c' as [l'|l'|l'|l'|l'|l'|l'|l'|l'|l']; cbn [crel] in L; try contradiction; unfold do_call.
    - (* roll *)
      assert (K := drawn_from_rel R1 R2 rho rho_inj rho_stdout G l l' L EmptyDict _ _ (source R1 G w1) S). fold (roll_drawn R1 G l) in K. fold (roll_drawn R2 G l') in K.
      destruct (drawn_possible R1 G l (interpreter R1 G w1 i) (source R1 G w1)) as [u1 [P1 _]].
      destruct (drawn_possible R2 G l' (interpreter R2 G w2 i) (source R1 G w1)) as [u2 [P2 _]].
      apply (roll_kept R1 l EmptyDict _ I1) in P1. apply (roll_kept R2 l' EmptyDict _ I2) in P2. rewrite <- (wr_source w1 w2 W).
      destruct P1 as [J1 _]. destruct P2 as [J2 _]. destruct K as [K K'].
      destruct (roll_drawn R1 G l (interpreter R1 G w1 i) (source R1 G w1)) as [r1 g1].
      destruct (roll_drawn R2 G l' (interpreter R2 G w2 i) (source R1 G w1)) as [r2 g2]. cbn [fst snd] in *. subst g2.
      destruct (constants_call_rel r1 r2 i w1 w2 W K J1 J2) as [X Y]. destruct r1 as [s1 r1]. destruct r2 as [s2 r2]. cbn [fst snd] in *.
      split; [|exact Y]. destruct X as [X1 X2 X3 X4 X5]. constructor; cbn in *; auto.
    - apply constants_call_rel; auto; [apply ext_from_rel; auto | apply (ext_kept R1 true l EmptyDict _ I1) | apply (ext_kept R2 true l' EmptyDict _ I2)].
    - apply constants_call_rel; auto; [apply ext_from_rel; auto | apply (ext_kept R1 false l EmptyDict _ I1) | apply (ext_kept R2 false l' EmptyDict _ I2)].
    - (* get_probability_distributions *)
      unfold get_probability_distributions.
      assert (K := dist_lines_rel R1 R2 rho rho_inj rho_stdout l l' L false _ _ I1 I2 S).
      destruct (dist_lines_kept R1 l false _ I1) as [J1 [_ A1]]. destruct (dist_lines_kept R2 l' false _ I2) as [J2 [_ A2]].
      destruct (dist_lines R1 false l (interpreter R1 G w1 i)) as [s1 [l1|x1]]; destruct (dist_lines R2 false l' (interpreter R2 G w2 i)) as [s2 [l2|x2]];
        destruct K as [S' K]; cbn [fst snd rrel rmap] in *; try contradiction.
      + split; [|exact (f_equal (fun l => SeenDistributions (Ok l)) (views_rel l1 l2 K))]. apply hold_rel; [now apply at_interpreter_rel|].
        eapply Forall2_map_both; [exact K|]. intros [n a] [n' b] Ha Hb [_ D]. cbn in *. split; [apply (A1 n a Ha) | split; [apply (A2 n' b Hb) | exact D]].
      + subst x2. split; [now apply at_interpreter_rel | reflexivity].
    - apply (plain_call_rel _ _ _ SeenDict (map (on_name rho))); auto; unfold get_probability_distributions_dict.
      + eapply then_lift_rel; [apply dist_lines_kept; auto | apply dist_lines_kept; auto | apply dist_lines_rel; auto|].
        intros l1 l2 H. apply (map_res_rel R1 R2 rho); auto. apply dict_rel.
      + eapply (kept_lift_bind R1); apply dist_lines_kept; auto.
      + eapply (kept_lift_bind R2); apply dist_lines_kept; auto.
    - apply (plain_call_rel _ _ _ SeenAverages (map (on_name rho))); auto; unfold get_average.
      + eapply then_lift_rel; [apply dist_lines_kept; auto | apply dist_lines_kept; auto | apply dist_lines_rel; auto|].
        intros l1 l2 H. apply (map_res_rel R1 R2 rho); auto. apply average_rel.
      + eapply (kept_lift_bind R1); apply dist_lines_kept; auto.
      + eapply (kept_lift_bind R2); apply dist_lines_kept; auto.
    - apply (plain_call_rel _ _ _ SeenHistogram (fun x => x)); auto; unfold get_histogram.
      + intros [x|x]; reflexivity.
      + eapply then_lift_rel; [apply last_dist_kept; auto | apply last_dist_kept; auto | apply last_dist_rel; auto |].
        intros a b D. rewrite (histogram_rel R1 R2 rho a b D). now destruct (_ R2 b).
      + eapply (kept_lift_bind R1); apply last_dist_kept; auto.
      + eapply (kept_lift_bind R2); apply last_dist_kept; auto.
    - apply (plain_call_rel _ _ _ SeenHistogram (fun x => x)); auto; unfold get_at_least_histogram.
      + intros [x|x]; reflexivity.
      + eapply then_lift_rel; [apply last_dist_kept; auto | apply last_dist_kept; auto | apply last_dist_rel; auto |].
        intros a b D. rewrite (at_least_plot_rel R1 R2 rho a b D). now destruct (_ R2 b).
      + eapply (kept_lift_bind R1); apply last_dist_kept; auto.
      + eapply (kept_lift_bind R2); apply last_dist_kept; auto.
    - apply (plain_call_rel _ _ _ SeenHistogram (fun x => x)); auto; unfold get_at_most_histogram.
      + intros [x|x]; reflexivity.
      + eapply then_lift_rel; [apply last_dist_kept; auto | apply last_dist_kept; auto | apply last_dist_rel; auto |].
        intros a b D. rewrite (at_most_plot_rel R1 R2 rho a b D). now destruct (_ R2 b).
      + eapply (kept_lift_bind R1); apply last_dist_kept; auto.
      + eapply (kept_lift_bind R2); apply last_dist_kept; auto.
    - apply (plain_call_rel _ _ _ SeenCost (fun x => x)); auto; [intros [x|x]; reflexivity | | apply (cost_kept R1 l 0 _ I1) | apply (cost_kept R2 l' 0 _ I2)].
      assert (K := cost_from_rel R1 R2 rho rho_inj l l' L 0 _ _ I1 I2 S). destruct K as [K1 K2]. split; [exact K1|].
      unfold get_estimated_cost. destruct (snd (cost_from R1 0 l _)), (snd (cost_from R2 0 l' _)); cbn in *; auto.
  Qed.

  Lemma make_rel : forall r1 r2 w1 w2, wrel w1 w2 -> rrel drel r1 r2 -> (forall d, r1 = Ok d -> dinv R1 d) -> (forall d, r2 = Ok d -> dinv R2 d) ->
    wrel (fst (make R1 G r1 w1)) (fst (make R2 G r2 w2)) /\ snd (make R2 G r2 w2) = rename_sight rho (snd (make R1 G r1 w1)).
  Proof.
    intros [a|x] [b|y] w1 w2 W K D1 D2; cbn [rrel] in K; try contradiction; unfold make; cbn [fst snd rmap].
    - split; [|exact (f_equal (fun v => SeenDistribution (Ok v)) (eq_sym (view_rel a b K)))]. apply hold_rel; auto.
    - subst. auto.
  Qed.

  Lemma do_action_rel : forall a a' w1 w2, arel a a' -> wrel w1 w2 ->
    wrel (fst (do_action R1 G a w1)) (fst (do_action R2 G a' w2)) /\ snd (do_action R2 G a' w2) = rename_sight rho (snd (do_action R1 G a w1)).
  Proof.
    intros a a' w1 w2 A W. destruct a; (destruct a'; cbn [arel] in A; try discriminate A);
      match type of A with _ /\ _ => destruct A as [<- A] | _ = _ => destruct A end; cbn [do_action].
    - now apply do_call_rel.
    - split; [exact W|]. cbn. destruct (wr_states w1 w2 W i) as [_ [-> _]]. reflexivity.
    - split; [exact W|]. cbn [fst snd rename_sight]. f_equal. rewrite map_map. symmetry. apply Forall2_same.
      eapply Forall2_weaken; [|apply (roll_from_rel R1 R2 rho rho_inj rho_stdout lines lines0 A EmptyDict _ _ (wr_states w1 w2 W i))].
      intros [u [s1 [p|x]]] [u' [s2 [q|y]]] [E [[_ [S _]] K]]; cbn in *; try contradiction; subst; now rewrite S.
    - assert (X := held_nth w1 w2 x W). assert (Y := held_nth w1 w2 y W).
      destruct (nth_error (held R1 G w1) x) as [a|], (nth_error (held R2 G w2) x) as [a'|]; try contradiction; [|auto].
      destruct (nth_error (held R1 G w1) y) as [b|], (nth_error (held R2 G w2) y) as [b'|]; try contradiction; [|auto].
      destruct X as [X1 [X2 X3]]. destruct Y as [Y1 [Y2 Y3]]. apply make_rel; auto; [now apply binop_rel| |]; intros d E; eapply d_binop_inv_preserved; [| |eauto| | |eauto]; auto.
    - assert (X := held_nth w1 w2 x W).
      destruct (nth_error (held R1 G w1) x) as [a|], (nth_error (held R2 G w2) x) as [a'|]; try contradiction; [|auto].
      destruct X as [X1 [X2 X3]]. apply make_rel; auto; [now apply unop_rel| |]; intros d E; inversion E; now apply d_unop_inv.
    - assert (X := held_nth w1 w2 x W).
      destruct (nth_error (held R1 G w1) x) as [a|], (nth_error (held R2 G w2) x) as [a'|]; try contradiction; [|auto].
      destruct X as [X1 [X2 X3]]. apply make_rel; auto; [now apply unop_rel| |]; intros d E; inversion E; now apply d_unop_inv.
    - assert (X := held_nth w1 w2 x W). assert (Y := held_nth w1 w2 y W).
      destruct (nth_error (held R1 G w1) x) as [a|], (nth_error (held R2 G w2) x) as [a'|]; try contradiction; [|auto].
      destruct (nth_error (held R1 G w1) y) as [b|], (nth_error (held R2 G w2) y) as [b'|]; try contradiction; [|auto].
      split; [exact W|]. cbn [snd rename_sight]. f_equal. symmetry. apply comparison_rel; [apply X | apply Y].
  Qed.

  Lemma start_rel : forall g, wrel (start R1 G g) (start R2 G g).
  Proof. intros g. constructor; cbn; auto; try (intros; apply sinv_empty). intros _. split; cbn; auto. Qed.

  Lemma session_rel : forall acts acts', Forall2 arel acts acts' -> forall w1 w2, wrel w1 w2 ->
    session R2 G acts' w2 = map (rename_sight rho) (session R1 G acts w1).
  Proof.
    intros acts acts' H. induction H as [|a a' acts acts' A H IH]; intros w1 w2 W; cbn [session map]; [reflexivity|].
    destruct (do_action_rel a a' w1 w2 A W) as [W' E]. destruct (do_action R1 G a w1) as [v1 x1]. destruct (do_action R2 G a' w2) as [v2 x2]. cbn in *.
    subst x2. f_equal. now apply IH.
  Qed.
End Two.

(** ** The same names *)
Lemma rename_same : forall e, rename (fun n => n) e = e.
Proof. induction e; cbn; congruence. Qed.
Lemma on_name_same : forall A (l : list (text * A)), map (on_name (fun n => n)) l = l.
Proof. intros A l. rewrite <- (map_id l) at 2. apply map_ext. intros [n a]. reflexivity. Qed.
Lemma sight_same : forall x, rename_sight (fun n => n) x = x.
Proof.
  intros x. destruct x as [[r|r]|[r|r]|[r|r]|[r|r]|r|r|l|r|c|]; cbn; rewrite ?on_name_same; auto. f_equal. rewrite <- (map_id l) at 2. apply map_ext.
  intros [w [k r]]. cbn. now rewrite on_name_same.
Qed.
Lemma lines_same : forall l, Forall2 (lrel (fun n => n)) l l.
Proof. induction l; constructor; auto. unfold lrel. destruct (parse a); cbn; auto. now rewrite rename_same. Qed.
Lemma action_same : forall a, arel (fun n => n) a a.
Proof. intros [i c|i|i l|op x y|x|x|x y n n']; cbn; auto. - split; auto. destruct c; cbn; apply lines_same. - split; auto. apply lines_same. Qed.

Lemma same_session : forall R1 R2 G acts g, session R1 G acts (start R1 G g) = session R2 G acts (start R2 G g).
Proof.
  intros R1 R2 G acts g. assert (H : Forall2 (arel (fun n => n)) acts acts) by (induction acts; constructor; auto using action_same).
  rewrite (session_rel R1 R2 G (fun n => n) (fun a b E => E) eq_refl acts acts H _ _ (start_rel R1 R2 G _ g)).
  rewrite <- (map_id (session R1 G acts (start R1 G g))) at 1. apply map_ext. intros. symmetry. apply sight_same.
Qed.

(** The printed form shows the constraint sets *)
Definition two_variables : list action := [ACall 0 (CDistributions [$"VAR a = 1"; $"VAR b = 1"; $"a + b + a"])].

Definition differ (a b : option text) : bool := match a, b with Some a, Some b => negb (text_eqb a b) | _, _ => false end.
Lemma differ_ne : forall a b, differ a b = true -> a <> b.
Proof. intros [a|] b H E; [|discriminate]. subst b. cbn in H. now rewrite text_eqb_refl in H. Qed.

Lemma printed_differs : exists R1 R2 G acts x g, printed R1 G acts x (start R1 G g) <> printed R2 G acts x (start R2 G g).
Proof.
  exists rt_fwd, rt_rev, list_gen, two_variables, 1%nat, []. apply differ_ne. vm_compute. reflexivity.
Qed.

Definition example_session : list action :=
  [ACall 0 (CRoll [$"VAR a = d2"; $"a + a"]); ALook 0; ARolls 1 [$"VAR x = d2"; $"x * x"]; ACall 1 (CMax [$"VAR x = d2"; $"x - 7"]);
   ACall 0 (CDistributions [$"VAR a = d2"; $"a - a"]); ACombine VDiv 0 0; ACombine VDiv 0 1; ACall 1 (CCost [$"!x"]); ACall 0 (CMin [$"a + n"])].

Lemma example_seen : forall R,
  match session R list_gen example_session (start R list_gen []) with
  | [SeenConstants r1; SeenConstants r2; SeenRolls l3; SeenConstants r4; SeenDistributions (Ok l5); SeenDistribution (Ok v6); SeenDistribution r7;
     SeenCost r8; SeenConstants r9] =>
      r1 = Ok [($"a", 1); ($"stdout", 2)] /\ r2 = r1 /\
      l3 = [(1, ([($"x", 1); ($"stdout", 1)], Ok LiveConstants)); (1, ([($"x", 2); ($"stdout", 4)], Ok LiveConstants))] /\
      r4 = Ok [($"x", 2); ($"stdout", -5)] /\
      map (fun nv => (fst nv, v_result_map (snd nv))) l5 = [($"a", [(1, 1); (2, 1)]); ($"stdout", [(0, 2)])] /\
      v_result_map v6 = [(1, 2)] /\ r7 = Raise ZeroDivisionError /\ r8 = Ok 2 /\ r9 = Raise KeyError
  | _ => False
  end.
Proof. intros R. rewrite (same_session R rt_fwd). vm_compute. repeat split. Qed.
