(** * NearProofs: the share of the sequences of random numbers with which roll() gives a result (C57) *)
From Verif Require Import Py PyFacts PyFloat Constraint Distribution DiceModel Expr Parser Interp SpecDice SpecProgram SpecInterp SpecFrame DistFacts ExprFacts StateFacts DiceFacts DiceProofs
  CostProofs WfFacts ProgramProofs RollFacts RollProofs Random SpecRandom SpecNear RandomFacts RandomProofs NearFacts.

Definition bits53 : list Z := zrange 0 (2 ^ 53).
Lemma bits53_length : Z.of_nat (length bits53) = 2 ^ 53.
Proof. unfold bits53. rewrite zrange_length, Z2Nat.id by lia. ring. Qed.
Lemma bits53_in : forall r, In r bits53 <-> 0 <= r < 2 ^ 53.
Proof. intros r. unfold bits53. apply in_zrange. Qed.
Lemma bits53_draws : forall n P, count_draws n P = dsum bits53 n (fun l => if P l then 1 else 0).
Proof. intros n P. unfold count_draws, bits53. apply count_dsum. Qed.
Lemma bits53_for : forall m v, draws_for m v = Z.of_nat (length (filter (fun r => chosen m r v) bits53)).
Proof. intros m v. unfold draws_for, bits53. f_equal. Qed.
Global Opaque bits53.

Section Near.
  Context (R : Runtime).
  Notation state := (state R).
  Notation D := (D R list_gen).
  Notation W := (W R).
  Notation valid := (valid bits53).
  Notation nearly := (nearly bits53).

  Definition fine {A} (l : W A) (s : state) : Prop := forall w s' x, In (w, (s', Raise x)) (l s) -> w = 0.
  Definition consumes {A} (n : nat) (c : D A) (s : state) : Prop := forall l rest, valid n l -> c s (l ++ rest) = (fst (c s l), rest).
  Definition approx {A} (n : nat) (E T : Z) (c : D A) (l : W A) (s : state) : Prop :=
    consumes n c s /\ nearly n E T (l s) (fun bits => fst (c s bits)).

  Lemma fine_bind : forall A B (l : W A) (k : A -> W B) s, fine (wbind R l k) s ->
    fine l s /\ forall w s' a, In (w, (s', Ok a)) (l s) -> w <> 0 -> fine (k a) s'.
  Proof.
    intros A B l k s F. split.
    - intros w s' x I. apply (F w s' x). unfold wbind. apply in_flat_map. exists (w, (s', Raise x)). split; [exact I|now left].
    - intros w s' a I X w2 s2 x J. assert (w * w2 = 0); [|nia]. apply (F (w * w2) s2 x). unfold wbind. apply in_flat_map. exists (w, (s', Ok a)). split; [exact I|].
      apply in_map_iff. now exists (w2, (s2, Raise x)).
  Qed.
  Lemma approx_bind : forall A B n1 n2 E1 E2 T1 T2 (c : D A) (l : W A) (f : A -> D B) (k : A -> W B) s, 0 <= E1 -> 0 <= E2 -> 0 <= T2 -> fine (wbind R l k) s ->
    (fine l s -> approx n1 E1 T1 c l s) -> (forall a s', fine (k a) s' -> approx n2 E2 T2 (f a) (k a) s') ->
    approx (n1 + n2) (E1 + E2) (T1 * T2) (gbind R list_gen c f) (wbind R l k) s.
  Proof.
    intros A B n1 n2 E1 E2 T1 T2 c l f k s P1 P2 P3 F Hc Hf. destruct (fine_bind _ _ l k s F) as [F1 F2]. destruct (Hc F1) as [C1 N1].
    assert (OK : forall bits, valid n1 bits -> exists s' a w, fst (c s bits) = (s', Ok a) /\ In (w, (s', Ok a)) (l s) /\ w <> 0).
    { intros bits V. destruct N1 as [_ [_ [N1 _]]]. destruct (N1 bits V) as [w [I X]]. destruct (fst (c s bits)) as [s' [a|x]].
      - exists s', a, w. auto.
      - exfalso. apply X. now apply (F1 w s' x). }
    set (K := fun o : state * res A => match o with (s', Ok a) => k a s' | (s', Raise x) => [(1, (s', Raise x))] end).
    set (run2 := fun (o : state * res A) bits => match o with (s', Ok a) => fst (f a s' bits) | (s', Raise x) => (s', Raise x) end).
    assert (RUN : forall b1 b2 rest, valid n1 b1 -> gbind R list_gen c f s (b1 ++ b2 ++ rest) = match fst (c s b1) with (s', Ok a) => f a s' (b2 ++ rest) | (s', Raise x) => ((s', Raise x), b2 ++ rest) end).
    { intros b1 b2 rest V. unfold gbind. rewrite C1 by exact V. destruct (fst (c s b1)) as [s' [a|x]]; reflexivity. }
    split.
    - intros bits rest V. destruct (valid_split bits53 n1 n2 bits V) as [b1 [b2 [-> [Va Vb]]]]. pose proof (RUN b1 b2 [] Va) as X. rewrite app_nil_r in X. rewrite X.
      rewrite <- app_assoc, (RUN b1 b2 rest Va). destruct (OK b1 Va) as [s' [a [w [-> [I Y]]]]]. destruct (Hf a s' (F2 w s' a I Y)) as [C2 _]. now apply C2.
    - replace (wbind R l k s) with (flat_map (fun wa => map (fun wb => (fst wa * fst wb, snd wb)) (K (snd wa))) (l s)).
      + apply (nearly_bind bits53 _ _ n1 n2 E1 E2 T1 T2 (l s) (fun bits => fst (c s bits)) K run2); auto.
        * intros w [s' [a|x]] I X; cbn [K].
          -- apply Hf. now apply (F2 w s' a).
          -- exfalso. apply X. now apply (F1 w s' x).
        * intros b1 b2 Va Vb. pose proof (RUN b1 b2 [] Va) as X. rewrite app_nil_r in X. rewrite X. unfold run2. destruct (OK b1 Va) as [s' [a [w [-> _]]]]. reflexivity.
      + unfold wbind. apply flat_map_ext. intros [w [s' [a|x]]]; cbn [K fst snd map]; [reflexivity|]. now rewrite Z.mul_1_r.
  Qed.
  Lemma approx_one : forall A (f : state -> state * res A) s, approx 0 0 1 (fun s g => (f s, g)) (fun s => [(1, f s)]) s.
  Proof.
    intros A f s. split.
    - intros l rest [L _]. destruct l; [reflexivity|discriminate].
    - apply nearly_one.
  Qed.
  Lemma approx_lift : forall A (r : res A) s, approx 0 0 1 (glift R list_gen r) (wlift R r) s.
  Proof. intros A r s. apply (approx_one _ (fun s => (s, r))). Qed.
  Lemma approx_then : forall A B n E T (c : D A) (l : W A) (f : A -> state -> state * res B) s, 0 <= E -> fine (wbind R l (fun a s => [(1, f a s)])) s ->
    (fine l s -> approx n E T c l s) -> approx n E T (gbind R list_gen c (fun a s g => (f a s, g))) (wbind R l (fun a s => [(1, f a s)])) s.
  Proof.
    intros A B n E T c l f s P F H. pose proof (approx_bind _ _ n 0 E 0 T 1 c l (fun a s g => (f a s, g)) (fun a s => [(1, f a s)]) s P ltac:(lia) ltac:(lia) F H) as X.
    rewrite Nat.add_0_r, Z.add_0_r, Z.mul_1_r in X. apply X. intros a s' _. apply approx_one.
  Qed.
  Lemma approx_binop : forall n1 n2 E1 E2 T1 T2 f a b l k s, 0 <= E1 -> 0 <= E2 -> 0 <= T2 -> fine (wbinop R f l k) s ->
    (forall s, fine l s -> approx n1 E1 T1 a l s) -> (forall s, fine k s -> approx n2 E2 T2 b k s) ->
    approx (n1 + n2) (E1 + E2) (T1 * T2) (gbinop R list_gen f a b) (wbinop R f l k) s.
  Proof.
    intros n1 n2 E1 E2 T1 T2 f a b l k s P1 P2 P3 F Ha Hb. apply approx_bind; auto. intros x s' F'. apply (approx_then _ _ n2 E2 T2 b k (fun y s => (s, Ok (f x y)))); auto.
  Qed.

  Lemma approx_choices : forall m k f s, natural_counts m -> NoDup (map fst m) -> fine (wrolls R (rolls_of f (choices m k))) s ->
    approx (Z.to_nat k) (7 * (Z.of_nat (Z.to_nat k) * Z.of_nat (length m))) (zsum (map snd m) ^ Z.of_nat (Z.to_nat k)) (gchoices R list_gen m k f) (wrolls R (rolls_of f (choices m k))) s.
  Proof.
    intros m k f s N Nd F. destruct (choices m k) as [ts|x] eqn:C.
    - assert (Cc : can_choose m) by (apply (choices_can m k ts N C)). destruct (choices_drawn_ok m N Cc) as [t [Et [T1 Cd]]].
      rewrite (choices_ok m k N Cc) in C. injection C as <-. set (pick := fun r => nth (drawn_index m t r) (map fst m) 0) in *.
      assert (G : forall l rest, valid (Z.to_nat k) l -> gchoices R list_gen m k f s (l ++ rest) = ((s, Ok (f (map pick l))), rest)).
      { intros l rest [L V]. unfold gchoices. rewrite Cd. rewrite <- L, draw_list by (intros r Hr; rewrite <- bits53_in; exact (V r Hr)). rewrite Cd. reflexivity. }
      assert (G0 : forall l, valid (Z.to_nat k) l -> gchoices R list_gen m k f s l = ((s, Ok (f (map pick l))), [])) by (intros l V; rewrite <- (app_nil_r l) at 1; now apply G).
      split; [intros l rest V; rewrite G, G0 by exact V; reflexivity|].
      apply (nearly_ext bits53 _ _ _ _ _ (fun l => (s, Ok (f (map pick l))))); [intros l V; now rewrite G0|].
      replace (wrolls R (rolls_of f (Ok (weighted_tuples m (Z.to_nat k)))) s)
        with (map (fun wa => (fst wa, (s, Ok (f (snd wa))) : state * res Z)) (map (fun tw => (snd tw, fst tw)) (weighted_tuples m (Z.to_nat k)))).
      + apply (nearly_map bits53 _ _ _ _ _ _ (map pick) (fun x => (s, Ok (f x)) : state * res Z)). apply dice_nearly; [exact N|lia|exact Nd| |].
        * intros r Hr. apply (drawn_in m t r N T1 Et). rewrite bits53_in in Hr. exact Hr.
        * intros v w I. rewrite bits53_length. pose proof (draws_for_near m v w N Cc Nd I) as A. replace (picked pick bits53 v) with (draws_for m v); [lia|].
          rewrite bits53_for. unfold picked. f_equal. apply filter_count_ext. intros r Hr. unfold chosen. rewrite Cd. reflexivity.
      + unfold wrolls, rolls_of. rewrite !map_map. reflexivity.
    - exfalso. specialize (F 1 s x). cbn in F. discriminate F. now left.
  Qed.

  (** ** Expressions *)
  Fixpoint used (e : expr) : list (list (Z * Z)) :=
    match e with
    | EParen e | ENot e | EAbs e | EAssign _ e => used e
    | EDropKeep dk => match dk_simple dk with
                      | Some (SDice d) => repeat (dice_map d) (Z.to_nat (dice_num d))
                      | Some (SInt _) => []
                      | None => repeat (dk_map dk) (Z.to_nat (dk_num dk))
                      end
    | EDice d => repeat (dice_map d) (Z.to_nat (dice_num d))
    | EInt _ | EBool _ | EVar _ => []
    | EDiv a b => used b ++ used a
    | EAdd a b | ESub a b | EMul a b | EBin _ a b | EMinMax _ a b => used a ++ used b
    end.
  Definition err (l : list (list (Z * Z))) : Z := 7 * sides_thrown l.
  Fixpoint prod (l : list (list (Z * Z))) : Z := match l with [] => 1 | m :: l' => zsum (map snd m) * prod l' end.

  Lemma sides_app : forall a b, sides_thrown (a ++ b) = sides_thrown a + sides_thrown b.
  Proof. intros a b. unfold sides_thrown. now rewrite map_app, zsum_app. Qed.
  Lemma sides_nonneg : forall l, 0 <= sides_thrown l.
  Proof. intros l. unfold sides_thrown. apply zsum_map_nonneg. intros; lia. Qed.
  Lemma sides_repeat : forall m k, sides_thrown (repeat m k) = Z.of_nat k * Z.of_nat (length m).
  Proof. intros m k. unfold sides_thrown. induction k as [|k IH]; [reflexivity|]. cbn [repeat map]. rewrite zsum_cons, IH, Nat2Z.inj_succ. ring. Qed.
  Lemma prod_app : forall a b, prod (a ++ b) = prod a * prod b.
  Proof. induction a as [|m a IH]; intros b; cbn [prod app]; [ring|]. rewrite IH. ring. Qed.
  Lemma prod_repeat : forall m k, prod (repeat m k) = zsum (map snd m) ^ Z.of_nat k.
  Proof. intros m k. induction k as [|k IH]; [reflexivity|]. cbn [repeat prod]. rewrite IH, Nat2Z.inj_succ, Z.pow_succ_r by lia. reflexivity. Qed.
  Lemma prod_nonneg : forall l, (forall m, In m l -> natural_counts m) -> 0 <= prod l.
  Proof.
    induction l as [|m l IH]; intros H; cbn [prod]; [lia|]. assert (0 <= zsum (map snd m)) by (apply zsum_map_nonneg; intros [v w] I; now apply (H m (or_introl eq_refl) v)).
    specialize (IH (fun x X => H x (or_intror X))). nia.
  Qed.
  Lemma used_natural : forall e, well_formed e -> forall m, In m (used e) -> natural_counts m.
  Proof.
    induction e; intros H m I; cbn [well_formed] in H; cbn [used] in I; try (destruct I; fail); try (apply IHe; tauto);
      try (apply in_app_or in I; destruct I; [apply IHe1|apply IHe2]; tauto); try (apply in_app_or in I; destruct I; [apply IHe2|apply IHe1]; tauto).
    - destruct H as [[form Hm] [Hn Hk]]. pose proof (proj1 (mk_dropkeep_inv form d Hm)) as N.
      destruct (pool_cases form d Hm Hn Hk) as [[E _]|[[d0 [E [E1 _]]]|[E _]]]; rewrite E in I; [destruct I| |]; apply repeat_spec in I; subst m; [now rewrite E1|exact N].
    - destruct H as [[form Hm] _]. apply repeat_spec in I. subst m. now apply (dice_natural form).
  Qed.
  Lemma used_thrown : forall e, well_formed e -> (length (used e) <= length (thrown e))%nat /\ sides_thrown (used e) <= sides_thrown (thrown e).
  Proof.
    induction e; intros H; cbn [well_formed] in H; cbn [used thrown]; try (split; [lia|lia]; fail); try (apply IHe; tauto);
      try (destruct IHe1 as [A1 B1]; [tauto|]; destruct IHe2 as [A2 B2]; [tauto|]; rewrite !app_length, !sides_app; split; lia).
    destruct H as [[form Hm] [Hn Hk]]. destruct (pool_cases form d Hm Hn Hk) as [[E _]|[[d0 [E [E1 [E2 _]]]]|[E _]]]; rewrite E; [|rewrite E1, E2; split; lia|split; lia].
    split; [cbn; lia|]. pose proof (sides_nonneg (repeat (dk_map d) (Z.to_nat (dk_num d)))). change (sides_thrown []) with 0. lia.
  Qed.

  Lemma err_nonneg : forall l, 0 <= err l.
  Proof. intros l. unfold err. pose proof (sides_nonneg l). lia. Qed.
  Lemma err_app : forall a b, err (a ++ b) = err a + err b.
  Proof. intros a b. unfold err. rewrite sides_app. ring. Qed.
  Lemma approx_dice : forall m k f s, natural_counts m -> NoDup (map fst m) -> fine (wrolls R (rolls_of f (choices m k))) s ->
    approx (length (repeat m (Z.to_nat k))) (err (repeat m (Z.to_nat k))) (prod (repeat m (Z.to_nat k))) (gchoices R list_gen m k f) (wrolls R (rolls_of f (choices m k))) s.
  Proof. intros m k f s N Nd F. unfold err. rewrite repeat_length, sides_repeat, prod_repeat. now apply approx_choices. Qed.
  Lemma not_fine : forall A x s, ~ fine (wlift R (Raise x : res A)) s.
  Proof. intros A x s F. specialize (F 1 s x (or_introl eq_refl)). discriminate. Qed.

  Lemma approx_of : forall e, well_formed e -> forall s, fine (roll_of R e) s ->
    approx (length (used e)) (err (used e)) (prod (used e)) (drawn_of R list_gen e) (roll_of R e) s.
  Proof.
    assert (BIN : forall f a b ea eb la lb s, well_formed ea -> well_formed eb -> fine (wbinop R f la lb) s ->
      (forall s, fine la s -> approx (length (used ea)) (err (used ea)) (prod (used ea)) a la s) ->
      (forall s, fine lb s -> approx (length (used eb)) (err (used eb)) (prod (used eb)) b lb s) ->
      approx (length (used ea ++ used eb)) (err (used ea ++ used eb)) (prod (used ea ++ used eb)) (gbinop R list_gen f a b) (wbinop R f la lb) s).
    { intros f a b ea eb la lb s Wa Wb F Ha Hb. rewrite app_length, err_app, prod_app. apply approx_binop; auto using err_nonneg. apply prod_nonneg. now apply used_natural. }
    assert (ONE : forall e (f : state -> state * res Z) s, used e = [] -> approx (length (used e)) (err (used e)) (prod (used e)) (fun s g => (f s, g)) (fun s => [(1, f s)]) s).
    { intros e f s ->. apply approx_one. }
    induction e; intros H s F; cbn [well_formed] in H; cbn [used drawn_of roll_of] in *; auto;
      try (destruct H; apply BIN; auto; fail).
    - apply (approx_then _ _ _ _ _ _ _ (fun x s => (s, Ok (if x =? 0 then 1 else 0)))); auto using err_nonneg.
    - destruct H as [[form Hm] [Hn Hk]]. pose proof (proj1 (mk_dropkeep_inv form d Hm)) as N. pose proof (mk_dropkeep_sides form d Hm) as Nd.
      destruct (pool_cases form d Hm Hn Hk) as [[E _]|[[d0 [E [E1 [E2 _]]]]|[E _]]]; rewrite E in *; [apply approx_lift| |].
      + apply approx_dice; [now rewrite E1|now rewrite E1|exact F].
      + now apply approx_dice.
    - destruct H as [[form Hm] _]. apply approx_dice; [now apply (dice_natural form)|now apply (mk_dice_sides form)|exact F].
    - apply approx_lift.
    - apply (approx_one _ (fun s => (s, Ok (bool_value binary_string)))).
    - destruct H as [Ha Hb]. rewrite app_length, err_app, prod_app. apply approx_bind; auto using err_nonneg; [apply prod_nonneg, used_natural, Ha|].
      intros y s' F'. destruct (y =? 0); [destruct (not_fine _ _ _ F')|]. apply (approx_then _ _ _ _ _ _ _ (fun x s => (s, Ok (x / y)))); auto using err_nonneg.
    - destruct H as [_ [Ha Hb]]. destruct (int_operator operator); [|destruct (not_fine _ _ _ F)]. apply BIN; auto.
    - destruct H as [_ [Ha Hb]]. destruct (minmax_operator min_max); [|destruct (not_fine _ _ _ F)]. apply BIN; auto.
    - apply (approx_then _ _ _ _ _ _ _ (fun x s => (s, Ok (Z.abs x)))); auto using err_nonneg.
    - apply (approx_then _ _ _ _ _ _ _ (fun x s => (set_constant R name x s, Ok x))); auto using err_nonneg. intros F'. apply IHe; tauto.
    - apply (approx_one _ (fun s => (s, get_constant R name s))).
  Qed.

  (** ** Lines *)
  Definition line_used (t : text) : list (list (Z * Z)) := match parse t with Ok e => used e | Raise _ => [] end.
  Definition lines_used (lines : list text) : list (list (Z * Z)) := flat_map line_used lines.
  Lemma line_natural : forall t m, In m (line_used t) -> natural_counts m.
  Proof. intros t m H. unfold line_used in H. destruct (parse t) as [e|x] eqn:E; [|destruct H]. apply (used_natural e); [eapply parse_wf; eauto|exact H]. Qed.
  Lemma lines_natural : forall lines m, In m (lines_used lines) -> natural_counts m.
  Proof. intros lines m H. apply in_flat_map in H. destruct H as [t [_ H]]. now apply (line_natural t). Qed.
  Lemma approx_lift_bind : forall A B (a : A) n E T (f : A -> D B) (k : A -> W B) s, approx n E T (f a) (k a) s -> approx n E T (gbind R list_gen (glift R list_gen (Ok a)) f) (wbind R (wlift R (Ok a)) k) s.
  Proof.
    intros A B a n E T f k s H. replace (approx n E T (gbind R list_gen (glift R list_gen (Ok a)) f) (wbind R (wlift R (Ok a)) k) s) with (approx n E T (f a) (k a) s); [exact H|].
    unfold approx. f_equal. f_equal. unfold wbind, wlift. cbn [flat_map]. rewrite app_nil_r. symmetry. rewrite <- (map_id (k a s)) at 2. apply map_ext. intros [w o]. cbn [fst snd]. f_equal. apply Z.mul_1_l.
  Qed.
  Lemma approx_line : forall t s, fine (roll_line R t) s -> approx (length (line_used t)) (err (line_used t)) (prod (line_used t)) (drawn_line R list_gen t) (roll_line R t) s.
  Proof.
    intros t s F. unfold drawn_line, roll_line, line_used in *. destruct (parse t) as [e|x] eqn:E.
    - apply approx_lift_bind. apply (approx_then _ _ _ _ _ _ _ (fun v s => (set_stdout_const R v s, Ok LiveConstants))); [apply err_nonneg| |].
      + destruct (fine_bind _ _ _ _ _ F) as [_ F2]. apply (F2 1 s e); [now left|lia].
      + apply approx_of. eapply parse_wf; eauto.
    - exfalso. destruct (fine_bind _ _ _ _ _ F) as [F1 _]. exact (not_fine _ _ _ F1).
  Qed.
  Lemma approx_from : forall lines d s, fine (roll_from R d lines) s ->
    approx (length (lines_used lines)) (err (lines_used lines)) (prod (lines_used lines)) (drawn_from R list_gen d lines) (roll_from R d lines) s.
  Proof.
    induction lines as [|t lines IH]; intros d s F; cbn [drawn_from roll_from lines_used flat_map] in *; [apply (approx_one _ (fun s => (s, Ok d)))|].
    fold (lines_used lines). rewrite app_length, err_app, prod_app. apply approx_bind; auto using err_nonneg; [apply prod_nonneg, lines_natural|]. apply approx_line.
  Qed.
  Lemma lines_thrown : forall lines, (length (lines_used lines) <= length (dice_thrown lines))%nat /\ sides_thrown (lines_used lines) <= sides_thrown (dice_thrown lines).
  Proof.
    induction lines as [|t lines [A B]]; [split; cbn; lia|]. unfold lines_used, dice_thrown in *. cbn [flat_map]. rewrite !app_length, !sides_app.
    assert (X : (length (line_used t) <= length (match parse t with Ok e => thrown e | Raise _ => [] end))%nat /\ sides_thrown (line_used t) <= sides_thrown (match parse t with Ok e => thrown e | Raise _ => [] end)).
    { unfold line_used. destruct (parse t) as [e|x] eqn:E; [apply used_thrown; eapply parse_wf; eauto|split; cbn; lia]. }
    destruct X. split; lia.
  Qed.

  Lemma event_near : forall lines s P n, (forall x, ~ can_raise R s lines x) -> (length (dice_thrown lines) <= n)%nat ->
    2 ^ 53 * Z.abs (count_draws n (drawn_event R s lines P) * roll_total R s lines - event_weight R P (roll R lines s) * 2 ^ (53 * Z.of_nat n))
      <= 7 * sides_thrown (dice_thrown lines) * roll_total R s lines * 2 ^ (53 * Z.of_nat n).
  Proof.
    intros lines s P n X L. destruct (lines_thrown lines) as [L1 L2].
    assert (F : fine (roll_from R EmptyDict lines) s).
    { intros w s' x I. destruct (Z.eq_dec w 0) as [W|W]; [exact W|]. destruct (X x). exists w, s'. auto. }
    destruct (approx_from lines EmptyDict s F) as [C [W [T [V H]]]]. change (roll_from R EmptyDict lines s) with (roll R lines s) in *.
    assert (T0 : 0 <= roll_total R s lines) by (unfold roll_total; rewrite T; apply prod_nonneg, lines_natural).
    set (h := fun o : state * res const_dict => match o with (s', Ok d) => if P (dget text_eqb (read_dict R s' d)) then 1 else 0 | (_, Raise _) => 0 end).
    specialize (H h 1). rewrite <- T in H. fold (roll_total R s lines) in H. rewrite bits53_length in H.
    assert (Hw : wsum (roll R lines s) h = event_weight R P (roll R lines s)).
    { unfold wsum, event_weight. generalize (roll R lines s). induction l as [|[w [s' [d|x]]] l IH]; [reflexivity| |]; cbn [map filter fst snd]; rewrite zsum_cons, IH; unfold h.
      - destruct (P (dget text_eqb (read_dict R s' d))); cbn [map fst]; rewrite ?zsum_cons; lia.
      - lia. }
    set (k := length (lines_used lines)) in *. assert (En : n = (k + (n - k))%nat) by lia. set (j := (n - k)%nat) in *.
    assert (Hd : count_draws n (drawn_event R s lines P) = dsum bits53 k (fun l => h (fst (drawn_from R list_gen EmptyDict lines s l))) * (2 ^ 53) ^ Z.of_nat j).
    { rewrite En at 1. rewrite bits53_draws, dsum_app. rewrite (dsum_ext bits53 k _ (fun l => h (fst (drawn_from R list_gen EmptyDict lines s l)) * (2 ^ 53) ^ Z.of_nat j)).
      - apply dsum_mul.
      - intros l1 V1. rewrite (dsum_ext bits53 j _ (fun _ => h (fst (drawn_from R list_gen EmptyDict lines s l1)))); [now rewrite dsum_const, bits53_length|].
        intros l2 V2. unfold drawn_event, roll_drawn. rewrite (C l1 l2 V1). cbn [fst]. unfold h. destruct (fst (drawn_from R list_gen EmptyDict lines s l1)) as [s' [d|x]]; reflexivity. }
    assert (Hh : forall w a, In (w, a) (roll R lines s) -> w <> 0 -> 0 <= h a <= 1).
    { intros w [s' [d|x]] _ _; unfold h; [destruct (P _)|]; lia. }
    specialize (H Hh). rewrite Hw in H. rewrite Hd. replace (2 ^ (53 * Z.of_nat n)) with ((2 ^ 53) ^ Z.of_nat k * (2 ^ 53) ^ Z.of_nat j).
    - set (Dk := dsum bits53 k _) in *. set (ew := event_weight R P (roll R lines s)) in *. set (t := roll_total R s lines) in *. unfold err in H.
      set (s1 := sides_thrown (lines_used lines)) in *. set (s2 := sides_thrown (dice_thrown lines)) in *. assert (s1P : 0 <= s1) by apply sides_nonneg.
      assert (P0 : 0 <= (2 ^ 53) ^ Z.of_nat k) by (apply Z.pow_nonneg; lia). assert (Q0 : 0 <= (2 ^ 53) ^ Z.of_nat j) by (apply Z.pow_nonneg; lia).
      set (p := (2 ^ 53) ^ Z.of_nat k) in *. set (q := (2 ^ 53) ^ Z.of_nat j) in *. clearbody Dk ew t s1 s2 p q. set (b := 2 ^ 53) in *. assert (B0 : 0 <= b) by (unfold b; lia). clearbody b.
      replace (Dk * q * t - ew * (p * q)) with (- (q * (ew * p - Dk * t))) by ring. rewrite Z.abs_opp, Z.abs_mul, (Z.abs_eq q) by exact Q0.
      set (u := Z.abs (ew * p - Dk * t)) in *. clearbody u.
      transitivity (q * (7 * s1 * 1 * t * p)); [replace (b * (q * u)) with (q * (b * u)) by ring; now apply Z.mul_le_mono_nonneg_l|].
      replace (q * (7 * s1 * 1 * t * p)) with (s1 * (7 * t * (p * q))) by ring. replace (7 * s2 * t * (p * q)) with (s2 * (7 * t * (p * q))) by ring.
      apply Z.mul_le_mono_nonneg_r; [|exact L2]. apply Z.mul_nonneg_nonneg; [lia|]. now apply Z.mul_nonneg_nonneg.
    - rewrite En at 1. rewrite Z.pow_mul_r, Nat2Z.inj_add by lia. symmetry. apply Z.pow_add_r; lia.
  Qed.

  (** ** The probability of a value of stdout *)
  Lemma stdout_event : forall lines s v, event_weight R (stdout_is v) (roll R lines s) = roll_weight R s lines v.
  Proof.
    intros lines s v. unfold event_weight, roll_weight. f_equal. f_equal. apply filter_ext. intros [w [s' [d|x]]]; reflexivity.
  Qed.
  Lemma reported_near : forall s s1 lines p d v n, reachable R s -> program_text lines p -> good_program p -> drawable p ->
    program_logic_agrees no_values p -> used_once_or_uniform p -> reports R s lines d -> (length (dice_thrown lines) <= n)%nat ->
    2 ^ 53 * Z.abs (count_draws n (drawn_event R s1 lines (stdout_is v)) * d_count d - reported R d v * 2 ^ (53 * Z.of_nat n))
      <= 7 * sides_thrown (dice_thrown lines) * d_count d * 2 ^ (53 * Z.of_nat n).
  Proof.
    intros s s1 lines p d v n Hs T G Dr L U H Hn. destruct (probabilities_agree R s s1 lines p d Hs T G Dr L U H) as [P0 PA]. specialize (PA v).
    assert (X : forall x, ~ can_raise R s1 lines x).
    { intros x C. apply (roll_raises_division R s1 lines p x T (good_runnable p G) Dr L) in C. destruct C as [_ C]. exact (program_none R s lines p d Hs T G H C). }
    pose proof (event_near lines s1 (stdout_is v) n X Hn) as E. rewrite stdout_event in E. 
    assert (C0 : 0 <= d_count d).
    { destruct (program_run R s lines p d Hs T G H) as [s' [Er I]]. pose proof (run_dinv R true p s s' d I G Er) as DI. rewrite (di_count _ _ DI). apply zsum_map_nonneg.
      intros [o w] J. exact (di_nonneg _ _ DI (o, w) J). }
    set (c := count_draws n _) in *. set (rt := roll_total R s1 lines) in *. set (rw := roll_weight R s1 lines v) in *. set (q := 2 ^ (53 * Z.of_nat n)) in *.
    set (dc := d_count d) in *. set (rp := reported R d v) in *. set (sd := sides_thrown _) in *. clearbody c rt rw q dc rp sd. set (b := 2 ^ 53) in *. clearbody b.
    apply (Z.mul_le_mono_pos_l _ _ rt P0). transitivity (dc * (7 * sd * rt * q)); [|apply Z.eq_le_incl; ring].
    replace (rt * (b * Z.abs (c * dc - rp * q))) with (dc * (b * Z.abs (c * rt - rw * q))); [now apply Z.mul_le_mono_nonneg_l|].
    rewrite <- (Z.abs_eq dc) at 1 by exact C0. rewrite <- (Z.abs_eq rt) at 2 by lia.
    replace (Z.abs dc * (b * Z.abs (c * rt - rw * q))) with (b * (Z.abs dc * Z.abs (c * rt - rw * q))) by ring.
    replace (Z.abs rt * (b * Z.abs (c * dc - rp * q))) with (b * (Z.abs rt * Z.abs (c * dc - rp * q))) by ring.
    rewrite <- !Z.abs_mul. f_equal. f_equal. rewrite !Z.mul_sub_distr_l. f_equal; [ring|]. replace (dc * (rw * q)) with (rw * dc * q) by ring. rewrite <- PA. ring.
  Qed.
End Near.
