(** * RandomProofs: roll() with a random generator, compared with the list of all its results (C56) *)
From Verif Require Import Py PyFacts PyFloat FloatFacts Constraint Distribution DiceModel Expr Parser Interp SpecDice SpecProgram SpecInterp ExprFacts StateFacts DiceFacts DiceProofs
  CostProofs WfFacts RollFacts Random SpecRandom RandomFacts.

Lemma choices_can : forall m k ts, natural_counts m -> choices m k = Ok ts -> can_choose m.
Proof.
  intros m k ts N H. unfold choices in H. destruct m as [|vc m]; [discriminate|]. set (T := zsum (map snd (vc :: m))) in *.
  destruct (T <=? 0) eqn:L; [destruct (float_of_Z T); discriminate|]. apply Z.leb_gt in L. split.
  - intros F. assert (E : forall l, natural_counts l -> faces l = [] -> zsum (map snd l) = 0).
    { intros l Nl Fl. pose proof (lsum_faces (fun _ => 1) l Nl) as E. rewrite Fl, lsum_nil in E. rewrite E. apply zsum_map_ext_in. intros; lia. }
    specialize (E _ N F). fold T in E. lia.
  - fold T. destruct (Z_lt_ge_dec T float_limit) as [X|X]; [exact X|]. rewrite float_too_large in H by lia. discriminate.
Qed.

(** ** What a generator gives is a possible result *)
Section Sound.
  Context (R : Runtime) (G : Generator).
  Definition possible {A} (c : D R G A) (l : W R A) : Prop := forall s g, exists w, In (w, fst (c s g)) (l s) /\ w <> 0.

  Lemma possible_bind : forall A B (c : D R G A) (l : W R A) (f : A -> D R G B) (k : A -> W R B),
    possible c l -> (forall a, possible (f a) (k a)) -> possible (gbind R G c f) (wbind R l k).
  Proof.
    intros A B c l f k H F s g. destruct (H s g) as [w [I N]]. unfold gbind, wbind. destruct (c s g) as [[s' [a|x]] g']; cbn [fst] in *.
    - destruct (F a s' g') as [w2 [I2 N2]]. exists (w * w2). split; [|nia]. apply in_flat_map. exists (w, (s', Ok a)). split; [exact I|].
      apply in_map_iff. exists (w2, fst (f a s' g')). split; [reflexivity|exact I2].
    - exists w. split; [|exact N]. apply in_flat_map. exists (w, (s', Raise x)). split; [exact I|]. now left.
  Qed.
  Lemma possible_one : forall A (f : state R -> state R * res A), possible (fun s g => (f s, g)) (fun s => [(1, f s)]).
  Proof. intros A f s g. exists 1. split; [now left|lia]. Qed.
  Lemma possible_binop : forall f a b l k, possible a l -> possible b k -> possible (gbinop R G f a b) (wbinop R f l k).
  Proof. intros f a b l k Ha Hb. apply possible_bind; [exact Ha|]. intros x. apply possible_bind; [exact Hb|]. intros y. apply (possible_one _ (fun s => (s, Ok (f x y)))). Qed.

  Lemma draw_range : forall k g, length (fst (draw G k g)) = k /\ forall r, In r (fst (draw G k g)) -> 0 <= r < 2 ^ 53.
  Proof.
    induction k as [|k IH]; intros g; cbn [draw]; [split; [reflexivity|intros r []]|]. pose proof (bits_range G g) as B. destruct (next_bits G g) as [r g1]. cbn [fst] in B.
    destruct (IH g1) as [L H]. destruct (draw G k g1) as [rs g2]. cbn [fst length] in *. split; [now rewrite L|]. intros r' [<-|I]; auto.
  Qed.

  Lemma possible_choices : forall m k f, natural_counts m -> possible (gchoices R G m k f) (wrolls R (rolls_of f (choices m k))).
  Proof.
    intros m k f N s g. unfold gchoices, wrolls. destruct (choices_drawn m []) as [l|x] eqn:E.
    - destruct (choices m k) as [ts|y] eqn:C.
      + destruct (draw G (Z.to_nat k) g) as [rs g'] eqn:Dr. pose proof (draw_range (Z.to_nat k) g) as [L H]. rewrite Dr in L, H. cbn [fst] in *.
        assert (Cc : can_choose m) by (apply (choices_can m k ts N C)). destruct (choices_drawn_ok m N Cc) as [t [Et [T1 Cd]]]. rewrite Cd. cbn [rmap].
        rewrite (choices_ok m k N Cc) in C. injection C as <-.
        set (l' := map _ rs). assert (I : In l' (tuples (Z.to_nat k) (faces m))).
        { unfold l'. rewrite <- L. clear - H N T1 Et. induction rs as [|r rs IH]; [now left|]. cbn [map length tuples]. apply in_flat_map.
          exists (nth (drawn_index m t r) (map fst m) 0). split; [apply drawn_faces; auto; apply H; now left|]. apply in_map, IH. intros y Y. apply H. now right. }
        apply weighted_tuples_in in I; [|exact N]. destruct I as [w [I W]]. exists w. split; [|exact W]. cbn [rolls_of]. apply in_map_iff.
        exists (w, Ok (f l')). split; [reflexivity|]. apply in_map_iff. exists (l', w). auto.
      + apply (choices_drawn_raises m [] k y N) in C. rewrite C in E. discriminate.
    - pose proof (proj1 (choices_drawn_raises m [] k x N) E) as C. rewrite C. cbn [rolls_of map fst snd]. exists 1. split; [now left|lia].
  Qed.

  Lemma possible_of : forall e, well_formed e -> possible (drawn_of R G e) (roll_of R e).
  Proof.
    assert (RT : forall A (a : res A), possible (glift R G a) (wlift R a)) by (intros A a; apply (possible_one _ (fun s => (s, a)))).
    assert (RR : forall A (a : A), possible (gret R G a) (wret R a)) by (intros A a; apply (possible_one _ (fun s => (s, Ok a)))).
    induction e; intros H; cbn [well_formed] in H; cbn [drawn_of roll_of]; auto;
      try (destruct H; apply possible_binop; auto; fail); try (apply possible_bind; auto; fail).
    - destruct H as [[form Hm] [Hn Hk]]. pose proof (proj1 (mk_dropkeep_inv form d Hm)) as N.
      destruct (pool_cases form d Hm Hn Hk) as [[E _]|[[d0 [E [E1 _]]]|[E _]]]; rewrite E; [apply RT|apply possible_choices; now rewrite E1|apply possible_choices; exact N].
    - destruct H as [[form Hm] _]. apply possible_choices. now apply (dice_natural form).
    - destruct H as [Ha Hb]. apply possible_bind; [auto|]. intros y. destruct (y =? 0); [apply RT|]. apply possible_bind; auto.
    - destruct H as [_ [Ha Hb]]. destruct (int_operator operator); [apply possible_binop; auto|apply RT].
    - destruct H as [_ [Ha Hb]]. destruct (minmax_operator min_max); [apply possible_binop; auto|apply RT].
    - apply possible_bind; [apply IHe, H|]. intros x. apply (possible_one _ (fun s => (set_constant R name x s, Ok x))).
    - apply (possible_one _ (fun s => (s, get_constant R name s))).
  Qed.

  Lemma possible_from : forall lines d, possible (drawn_from R G d lines) (roll_from R d lines).
  Proof.
    induction lines as [|l lines IH]; intros d; cbn [drawn_from roll_from]; [apply (possible_one _ (fun s => (s, Ok d)))|]. apply possible_bind; [|auto].
    unfold drawn_line, roll_line. intros s g. destruct (parse l) as [e|x] eqn:E.
    - assert (P : possible (gbind R G (drawn_of R G e) (fun v s g => ((set_stdout_const R v s, Ok LiveConstants), g)))
                           (wbind R (roll_of R e) (fun v s => [(1, (set_stdout_const R v s, Ok LiveConstants))]))).
      { apply possible_bind; [apply possible_of; eapply parse_wf; eauto|]. intros v. apply (possible_one _ (fun s => (set_stdout_const R v s, Ok LiveConstants))). }
      destruct (P s g) as [w [I N]]. exists w. split; [|exact N]. unfold wbind at 1, wlift. cbn [flat_map]. rewrite app_nil_r. apply in_map_iff. exists (w, fst (gbind R G (drawn_of R G e) (fun v s g => ((set_stdout_const R v s, Ok LiveConstants), g)) s g)).
      split; [|exact I]. cbn [fst snd]. rewrite Z.mul_1_l. reflexivity.
    - exists 1. split; [|lia]. now left.
  Qed.

  Lemma drawn_possible : forall lines s g, exists w, In (w, fst (roll_drawn R G lines s g)) (roll R lines s) /\ w <> 0.
  Proof. intros lines s g. apply possible_from. Qed.
  Lemma drawn_can_roll : forall lines s g v, drawn_result R G s lines g = Ok (Some v) -> can_roll R s lines v.
  Proof.
    intros lines s g v H. destruct (drawn_possible lines s g) as [w [I N]]. unfold drawn_result in H. exists w, (fst (roll_drawn R G lines s g)). split; [exact I|]. split; [exact N|].
    destruct (roll_drawn R G lines s g) as [[s' [d|x]] g']; [|discriminate]. cbn [fst stdout_of]. now injection H.
  Qed.
  Lemma drawn_can_raise : forall lines s g x, drawn_result R G s lines g = Raise x -> can_raise R s lines x.
  Proof.
    intros lines s g x H. destruct (drawn_possible lines s g) as [w [I N]]. unfold drawn_result in H. destruct (roll_drawn R G lines s g) as [[s' [d|y]] g']; [discriminate|].
    injection H as ->. exists w, s'. split; [exact I|exact N].
  Qed.
End Sound.

(** ** Every possible result is given by some numbers *)
Section Complete.
  Context (R : Runtime).
  Definition producible {A} (c : D R list_gen A) (l : W R A) : Prop :=
    forall s w o, In (w, o) (l s) -> w <> 0 -> exists ds, forall rest, c s (ds ++ rest) = (o, rest).

  Lemma producible_bind : forall A B (c : D R list_gen A) (l : W R A) (f : A -> D R list_gen B) (k : A -> W R B),
    producible c l -> (forall a, producible (f a) (k a)) -> producible (gbind R list_gen c f) (wbind R l k).
  Proof.
    intros A B c l f k H F s w o I N. unfold wbind in I. apply in_flat_map in I. destruct I as [[w1 [s1 [a|x]]] [I J]].
    - apply in_map_iff in J. destruct J as [[w2 o2] [E J]]. cbn [fst snd] in E. injection E as <- <-.
      destruct (H s w1 _ I ltac:(intros ->; apply N; lia)) as [ds H1]. destruct (F a s1 w2 o2 J ltac:(intros ->; apply N; lia)) as [ds2 H2].
      exists (ds ++ ds2). intros rest. unfold gbind. rewrite <- app_assoc, H1. apply H2.
    - destruct J as [J|[]]. injection J as <- <-. destruct (H s w1 _ I N) as [ds H1]. exists ds. intros rest. unfold gbind. now rewrite H1.
  Qed.
  Lemma producible_one : forall A (f : state R -> state R * res A), producible (fun s g => (f s, g)) (fun s => [(1, f s)]).
  Proof. intros A f s w o [E|[]] N. injection E as <- <-. exists []. intros rest. reflexivity. Qed.
  Lemma producible_binop : forall f a b l k, producible a l -> producible b k -> producible (gbinop R list_gen f a b) (wbinop R f l k).
  Proof. intros f a b l k Ha Hb. apply producible_bind; [exact Ha|]. intros x. apply producible_bind; [exact Hb|]. intros y. apply (producible_one _ (fun s => (s, Ok (f x y)))). Qed.

  Lemma draw_list : forall ds rest, (forall r, In r ds -> 0 <= r < 2 ^ 53) -> draw list_gen (length ds) (ds ++ rest) = (ds, rest).
  Proof.
    induction ds as [|r ds IH]; intros rest H; [reflexivity|]. cbn [length draw app next_bits list_gen list_next].
    rewrite IH by (intros y Y; apply H; now right). rewrite Z.mod_small by (apply H; now left). reflexivity.
  Qed.
  Lemma producible_choices : forall m k f, natural_counts m -> NoDup (map fst m) -> light m -> producible (gchoices R list_gen m k f) (wrolls R (rolls_of f (choices m k))).
  Proof.
    intros m k f N Nd Li s w o I W. unfold wrolls in I. apply in_map_iff in I. destruct I as [[w' r] [E I]]. cbn [fst snd] in E. injection E as -> <-.
    destruct (choices m k) as [ts|x] eqn:C.
    - assert (Cc : can_choose m) by (apply (choices_can m k ts N C)). destruct (choices_drawn_ok m N Cc) as [t [Et [T1 Cd]]].
      rewrite (choices_ok m k N Cc) in C. injection C as <-. cbn [rolls_of] in I. apply in_map_iff in I. destruct I as [[l w'] [E I]]. cbn [fst snd] in E. injection E as -> <-.
      assert (In l (tuples (Z.to_nat k) (faces m))) as J by (apply (weighted_tuples_in m (Z.to_nat k) l N); eauto).
      assert (P : exists ds, length ds = Z.to_nat k /\ (forall r, In r ds -> 0 <= r < 2 ^ 53) /\ map (fun r => nth (drawn_index m t r) (map fst m) 0) ds = l).
      { clear I. revert l J. induction (Z.to_nat k) as [|n IH]; intros l J.
        - destruct J as [<-|[]]. exists []. split; [reflexivity|]. split; [intros r []|reflexivity].
        - cbn [tuples] in J. apply in_flat_map in J. destruct J as [v [Hv J]]. apply in_map_iff in J. destruct J as [l' [<- J]]. destruct (IH l' J) as [ds [H1 [H2 H3]]].
          apply in_faces in Hv. destruct Hv as [c [Hv Hc]]. destruct (side_drawn m v c N Cc Nd Hv (Li v c Hv Hc)) as [r [Hr X]].
          exists (r :: ds). split; [cbn; now rewrite H1|]. split; [intros y [<-|Y]; auto|]. cbn [map]. rewrite H3. f_equal.
          unfold chosen in X. rewrite Cd in X. cbn [map] in X. now apply Z.eqb_eq in X. }
      destruct P as [ds [H1 [H2 H3]]]. exists ds. intros rest. unfold gchoices. rewrite Cd. rewrite <- H1, draw_list by exact H2. rewrite Cd, H3. reflexivity.
    - destruct I as [I|[]]. injection I as <- <-. exists []. intros rest. unfold gchoices. rewrite (proj2 (choices_drawn_raises m [] k x N) C). reflexivity.
  Qed.

  Lemma producible_of : forall e, well_formed e -> (forall m, In m (dice_of e) -> light m) -> producible (drawn_of R list_gen e) (roll_of R e).
  Proof.
    assert (RT : forall A (a : res A), producible (glift R list_gen a) (wlift R a)) by (intros A a; apply (producible_one _ (fun s => (s, a)))).
    assert (RR : forall A (a : A), producible (gret R list_gen a) (wret R a)) by (intros A a; apply (producible_one _ (fun s => (s, Ok a)))).
    induction e; intros H Li; cbn [well_formed] in H; cbn [dice_of] in Li; cbn [drawn_of roll_of]; auto;
      try (destruct H; apply producible_binop; [apply IHe1|apply IHe2]; auto; intros m Hm; apply Li, in_or_app; auto; fail); try (apply producible_bind; auto; fail).
    - destruct H as [[form Hm] [Hn Hk]]. pose proof (proj1 (mk_dropkeep_inv form d Hm)) as N. pose proof (mk_dropkeep_sides form d Hm) as Nd. specialize (Li (dk_map d) (or_introl eq_refl)).
      destruct (pool_cases form d Hm Hn Hk) as [[E _]|[[d0 [E [E1 _]]]|[E _]]]; rewrite E; [apply RT|apply producible_choices; now rewrite E1|apply producible_choices; auto].
    - destruct H as [[form Hm] _]. apply producible_choices; [now apply (dice_natural form)|now apply (mk_dice_sides form)|apply Li; now left].
    - destruct H as [Ha Hb]. apply producible_bind; [apply IHe2; auto; intros m Hm; apply Li, in_or_app; auto|]. intros y. destruct (y =? 0); [apply RT|].
      apply producible_bind; auto. apply IHe1; auto. intros m Hm. apply Li, in_or_app. auto.
    - destruct H as [_ [Ha Hb]]. destruct (int_operator operator); [|apply RT]. apply producible_binop; [apply IHe1|apply IHe2]; auto; intros m Hm; apply Li, in_or_app; auto.
    - destruct H as [_ [Ha Hb]]. destruct (minmax_operator min_max); [|apply RT]. apply producible_binop; [apply IHe1|apply IHe2]; auto; intros m Hm; apply Li, in_or_app; auto.
    - apply producible_bind; [apply IHe; [apply H|exact Li]|]. intros x. apply (producible_one _ (fun s => (set_constant R name x s, Ok x))).
    - apply (producible_one _ (fun s => (s, get_constant R name s))).
  Qed.
  Lemma producible_from : forall lines d, light_dice lines -> producible (drawn_from R list_gen d lines) (roll_from R d lines).
  Proof.
    induction lines as [|l lines IH]; intros d Li; cbn [drawn_from roll_from]; [apply (producible_one _ (fun s => (s, Ok d)))|].
    apply producible_bind; [|intros a; apply IH; intros t e m Ht; apply Li; now right].
    unfold drawn_line, roll_line. intros s w o I N. unfold wbind at 1, wlift in I. cbn [flat_map] in I. rewrite app_nil_r in I. destruct (parse l) as [e|x] eqn:E.
    - apply in_map_iff in I. destruct I as [[w2 o2] [E2 I]]. cbn [fst snd] in E2. injection E2 as <- <-.
      assert (P : producible (gbind R list_gen (drawn_of R list_gen e) (fun v s g => ((set_stdout_const R v s, Ok LiveConstants), g)))
                           (wbind R (roll_of R e) (fun v s => [(1, (set_stdout_const R v s, Ok LiveConstants))]))).
      { apply producible_bind; [apply producible_of; [eapply parse_wf; eauto|intros m Hm; apply (Li l e m); auto; now left]|].
        intros v. apply (producible_one _ (fun s => (set_stdout_const R v s, Ok LiveConstants))). }
      destruct (P s w2 o2 I ltac:(intros ->; apply N; lia)) as [ds H]. exists ds. intros rest. unfold gbind at 1, glift. apply H.
    - destruct I as [I|[]]. injection I as <- <-. exists []. intros rest. reflexivity.
  Qed.
  Lemma can_roll_drawn : forall lines s v, light_dice lines -> can_roll R s lines v -> exists bits, drawn_result R list_gen s lines bits = Ok (Some v).
  Proof.
    intros lines s v Li [w [o [I [N E]]]]. destruct (producible_from lines EmptyDict Li s w o I N) as [ds H]. exists ds. specialize (H []). rewrite app_nil_r in H.
    unfold drawn_result, roll_drawn. rewrite H. destruct o as [s' [d|x]]; [|discriminate]. cbn [stdout_of] in E. now rewrite E.
  Qed.
  Lemma can_raise_drawn : forall lines s x, light_dice lines -> can_raise R s lines x -> exists bits, drawn_result R list_gen s lines bits = Raise x.
  Proof.
    intros lines s x Li [w [s' [I N]]]. destruct (producible_from lines EmptyDict Li s w _ I N) as [ds H]. exists ds. specialize (H []). rewrite app_nil_r in H.
    unfold drawn_result, roll_drawn. now rewrite H.
  Qed.
End Complete.

(** ** Dice *)
Lemma zero_never_chosen : forall m v bits l, natural_counts m -> NoDup (map fst m) -> In (v, 0) m -> (forall r, In r bits -> 0 <= r < 2 ^ 53) ->
  choices_drawn m bits = Ok l -> ~ In v l.
Proof.
  intros m v bits l N Nd H B E I. assert (Cc : can_choose m).
  { destruct (choices m 0) as [ts|x] eqn:C; [now apply (choices_can m 0 ts)|]. apply (choices_drawn_raises m bits 0 x N) in C. rewrite C in E. discriminate. }
  destruct (choices_drawn_ok m N Cc) as [t [Et [T1 Cd]]]. rewrite Cd in E. injection E as <-. apply in_map_iff in I. destruct I as [r [E I]].
  destruct (drawn_in m t r N T1 Et (B r I)) as [c [J P]]. rewrite E in J. assert (c = 0); [|lia].
  clear - Nd H J. induction m as [|[x k] m IH]; [destruct H|]. cbn [map fst] in Nd. inversion Nd as [|? ? F Nd']; subst. destruct H as [H|H], J as [J|J].
  - congruence.
  - injection H as -> ->. exfalso. apply F. apply in_map_iff. now exists (v, c).
  - injection J as -> ->. exfalso. apply F. apply in_map_iff. now exists (v, 0).
  - now apply IH.
Qed.
Lemma chosen_length : forall m bits l, choices_drawn m bits = Ok l -> length l = length bits.
Proof.
  intros m bits l H. unfold choices_drawn in H. destruct m as [|vc m]; [discriminate|]. destruct (float_of_Z _) as [t|x]; [|discriminate]. cbn [rbind] in H.
  destruct (fle_zero t); [discriminate|]. injection H as <-. apply map_length.
Qed.
Lemma choices_drawn_exn : forall m bits, natural_counts m ->
  (choices_drawn m bits = Raise IndexError <-> m = []) /\
  (choices_drawn m bits = Raise ValueError <-> m <> [] /\ forall v w, In (v, w) m -> w = 0) /\
  (choices_drawn m bits = Raise OverflowError <-> float_limit <= zsum (map snd m)).
Proof.
  intros m bits N.
  assert (T0 : 0 <= zsum (map snd m)).
  { change 0 with (cumul m 0). rewrite <- (cumul_all m). apply (cumul_mono m N). cbn. lia. }
  assert (Tz : zsum (map snd m) = 0 <-> forall v w, In (v, w) m -> w = 0).
  { clear T0. induction m as [|[x k] m IH]; [split; [intros _ v w []|reflexivity]|]. cbn [map snd]. rewrite zsum_cons. assert (Nm : natural_counts m) by (intros v w H; apply (N v w); now right).
    pose proof (N x k (or_introl eq_refl)) as K. assert (Tm : 0 <= zsum (map snd m)).
    { change 0 with (cumul m 0). rewrite <- (cumul_all m). apply (cumul_mono m Nm). cbn. lia. }
    specialize (IH Nm). split.
    - intros E v w [H|H]; [injection H as <- <-; lia|]. apply (proj1 IH ltac:(lia) v w H).
    - intros H. rewrite (proj2 IH) by (intros v w I; apply (H v w); now right). rewrite (H x k) by now left. reflexivity. }
  rewrite !(choices_drawn_raises m bits 0 _ N). unfold choices. assert (L0 : 0 < float_limit) by reflexivity. destruct m as [|vc m].
  - split; [tauto|]. split; [split; [discriminate|intros [H _]; congruence]|]. change (zsum (map snd [])) with 0. split; [discriminate|lia].
  - set (T := zsum (map snd (vc :: m))) in *. destruct (Z_lt_ge_dec T float_limit) as [L|L].
    + destruct (float_of_total T T0 L) as [t ->]. cbn [rbind]. destruct (T <=? 0) eqn:X.
      * apply Z.leb_le in X. split; [split; discriminate|]. split; [|split; [discriminate|lia]]. split; [intros _; split; [discriminate|apply Tz; lia]|reflexivity].
      * apply Z.leb_gt in X. split; [split; discriminate|]. split; [|split; [discriminate|lia]]. split; [discriminate|]. intros [_ H]. apply Tz in H. lia.
    + rewrite float_too_large by lia. cbn [rbind]. split; [split; discriminate|]. split; [|split; [lia|reflexivity]]. split; [discriminate|]. intros [_ H]. apply Tz in H. lia.
Qed.

(** ** A side that is never drawn *)
Lemma drawn_first : forall m t r, natural_counts m -> 1 <= zsum (map snd m) -> float_of_Z (zsum (map snd m)) = Ok t -> 0 <= r < 2 ^ 53 ->
  FloatFacts.units (-2148) t <= cumul m 1 * 2 ^ 2148 -> drawn_index m t r = 0%nat.
Proof.
  intros m t r N T1 E Hr H. pose proof (dice_nonempty m N t T1 E) as Ne. apply (drawn_index_iff m N t T1 E r 0 Hr Ne). split.
  - apply (below_zero (zsum (map snd m)) t T1 E); [exact Hr|reflexivity].
  - apply (below_iff (zsum (map snd m)) t T1 E); [exact Hr|]. pose proof (drawn_below_float (zsum (map snd m)) t T1 E r Hr). lia.
Qed.
Lemma faces_some : forall m v c, In (v, c) m -> 0 < c -> faces m <> [].
Proof. intros m v c H P F. assert (I : In v (faces m)) by (apply in_faces; eauto). rewrite F in I. destruct I. Qed.
Definition heavy : list (Z * Z) := [(1, 2 ^ 60); (2, 1)].
Lemma heavy_natural : natural_counts heavy.
Proof. intros v c [H|[H|[]]]; injection H as <- <-; lia. Qed.
Lemma heavy_one : forall r, 0 <= r < 2 ^ 53 -> choices_drawn heavy [r] = Ok [1].
Proof.
  intros r Hr. assert (C : can_choose heavy).
  { split; [apply (faces_some heavy 2 1); [right; now left|lia]|reflexivity]. }
  destruct (choices_drawn_ok heavy heavy_natural C) as [t [E [T1 Cd]]]. rewrite Cd. cbn [map]. rewrite (drawn_first heavy t r heavy_natural T1 E Hr); [reflexivity|].
  vm_compute in E. injection E as <-. vm_compute. discriminate.
Qed.
Lemma heavy_drawn : forall R (G : Generator) s t d g, parse t = Ok (EDice d) -> dice_map d = heavy -> dice_num d = 1 -> drawn_result R G s [t] g = Ok (Some 1).
Proof.
  intros R G s t d g P M K. unfold drawn_result, roll_drawn. cbn [drawn_from]. unfold drawn_line, gbind at 1, gbind at 1, glift. rewrite P. cbn [drawn_of].
  unfold gbind, gchoices. rewrite M, K. change (Z.to_nat 1) with 1%nat. cbn [draw]. pose proof (bits_range G g) as B. destruct (next_bits G g) as [r g']. cbn [fst] in B.
  rewrite (heavy_one r B). change (choices_drawn heavy []) with (Ok [] : res (list Z)). change (rmap zsum (Ok [1])) with (Ok 1). unfold gret. cbn [read_dict set_stdout_const st_const].
  rewrite dget_dset_same by apply text_eqb_iff. reflexivity.
Qed.
