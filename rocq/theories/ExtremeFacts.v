(** * ExtremeFacts: what max() and min() return, for every program *)
From Verif Require Import Py PyFacts PyFloat Constraint ConstraintFacts Distribution DistFacts SpecDice DiceFacts DiceModel
  DropKeepFacts NotationFacts DiceProofs Expr Lexer Parser Interp TagFacts SpecProgram ExprFacts StateFacts ProgramFacts JointFacts RaiseFacts
  SpecInterp InterpRun ProgramProofs SpecRoll RollFacts RollProofs ExtFacts ExtProofs SpecExtreme.

(** ** The specification says one value, and depends only on what is read *)
Lemma largest_unique : forall mx E e v w, largest mx E e v -> largest mx E e w -> v = w.
Proof.
  intros mx E e v w [[env [H1 H2]] B] [[env' [H1' H2']] B']. assert (A := B env' w H1' H2'). assert (A' := B' env v H1 H2).
  destruct mx; unfold within in *; lia.
Qed.
Lemma worked_out_unique : forall mx E (stored : text -> Z -> Prop), (forall n v w, stored n v -> stored n w -> v = w) ->
  forall e v w, worked_out mx E stored e v -> worked_out mx E stored e w -> v = w.
Proof.
  intros mx E stored U. induction e; intros v w; cbn [worked_out]; try apply largest_unique; auto; try apply U.
  intros [f [x [y [F [A [B ->]]]]]] [f' [x' [y' [F' [A' [B' ->]]]]]]. rewrite F in F'. injection F' as <-. f_equal; auto.
Qed.
Lemma stored_unique : forall (stored : text -> Z -> Prop) n w, (forall n v w, stored n v -> stored n w -> v = w) ->
  forall m (v v' : Z), stored_after stored n w m v -> stored_after stored n w m v' -> v = v'.
Proof. intros stored [n|] w U m v v'; cbn [stored_after]; [|apply U]. destruct (text_eqb m n); [congruence | apply U]. Qed.

Lemma line_extreme_cons : forall mx E stored n e l p v, line_extreme mx E stored ((n, e) :: l :: p) v <->
  exists w, worked_out mx E stored e w /\ line_extreme mx (values_after E n e) (stored_after stored n w) (l :: p) v.
Proof. intros. destruct n; reflexivity. Qed.
Lemma line_extreme_one : forall mx E stored n e v, line_extreme mx E stored [(n, e)] v <-> worked_out mx E stored e v.
Proof. intros. destruct n; reflexivity. Qed.

Lemma line_extreme_unique : forall mx p E (stored : text -> Z -> Prop), (forall n v w, stored n v -> stored n w -> v = w) ->
  forall v w, line_extreme mx E stored p v -> line_extreme mx E stored p w -> v = w.
Proof.
  intros mx. induction p as [|[n e] p IH]; intros E stored U v w; [intros []|]. destruct p as [|l p].
  - rewrite !line_extreme_one. now apply worked_out_unique.
  - rewrite !line_extreme_cons. intros [x [A B]] [x' [A' B']]. assert (x = x') by (eapply worked_out_unique; eauto). subst x'.
    eapply IH; [|exact B | exact B']. now apply stored_unique.
Qed.

(** Two sets of values that are the same but for the variables [X], which are not read *)
Definition agree_off (X : text -> Prop) (E E' : values -> Prop) : Prop :=
  (forall env, E env -> exists env', E' env' /\ forall m, ~ X m -> env m = env' m) /\
  (forall env', E' env' -> exists env, E env /\ forall m, ~ X m -> env m = env' m).
Fixpoint avoids (X : text -> Prop) (p : program) : Prop :=
  match p with [] => True | (n, e) :: p' => (forall m, In m (reads e) -> ~ X m) /\ avoids (fun m => X m /\ n <> Some m) p' end.

Lemma largest_off : forall mx X E E' e v, agree_off X E E' -> (forall m, In m (reads e) -> ~ X m) -> largest mx E e v -> largest mx E' e v.
Proof.
  intros mx X E E' e v [A B] N [[env [H1 H2]] H3]. split.
  - destruct (A env H1) as [env' [H4 H5]]. exists env'. split; auto. rewrite <- (joint_agree (map fst) e env env'); auto.
  - intros env' x H4 H5. destruct (B env' H4) as [env0 [H6 H7]]. apply (H3 env0); auto. rewrite (joint_agree (map fst) e env0 env'); auto.
Qed.
Lemma worked_out_off : forall mx X E E' (stored stored' : text -> Z -> Prop), agree_off X E E' -> (forall n v, ~ X n -> stored n v -> stored' n v) ->
  forall e v, (forall m, In m (reads e) -> ~ X m) -> worked_out mx E stored e v -> worked_out mx E' stored' e v.
Proof.
  intros mx X E E' stored stored' A S. induction e; intros v N; cbn [worked_out]; try (now apply (largest_off mx X E E')); try (now apply IHe).
  - intros [f [x [y [F [H1 [H2 ->]]]]]]. cbn [reads] in N. exists f, x, y. split; auto. split; [|split; auto].
    + apply IHe1; auto. intros m Hm. apply N, in_or_app. auto.
    + apply IHe2; auto. intros m Hm. apply N, in_or_app. auto.
  - apply S. apply N. now left.
Qed.

Lemma values_off : forall X E E' n e, agree_off X E E' -> (forall m, In m (reads e) -> ~ X m) ->
  agree_off (fun m => X m /\ n <> Some m) (values_after E n e) (values_after E' n e).
Proof.
  assert (G : forall X (env env' env2 env2' : values) n x, (forall m, ~ X m -> env m = env' m) -> (forall m, env2 m = bind_value env n x m) ->
    (forall m, env2' m = bind_value env' n x m) -> forall m, ~ (X m /\ n <> Some m) -> env2 m = env2' m).
  { intros X env env' env2 env2' n x A E2 E2' m Hm. rewrite E2, E2'. destruct n as [n|]; cbn [bind_value].
    - destruct (text_eqb m n) eqn:E; auto. apply A. intros C. apply Hm. split; auto. intros K. injection K as ->. rewrite text_eqb_refl in E. discriminate.
    - apply A. intros C. apply Hm. split; [exact C | discriminate]. }
  intros X E E' n e [A B] N. split.
  - intros env2 [env [x [H1 [H2 H3]]]]. destruct (A env H1) as [env' [H4 H5]]. exists (bind_value env' n x). split.
    + exists env', x. split; auto. split; auto. rewrite <- (joint_agree (map fst) e env env'); auto.
    + eapply G; eauto.
  - intros env2' [env' [x [H1 [H2 H3]]]]. destruct (B env' H1) as [env [H4 H5]]. exists (bind_value env n x). split.
    + exists env, x. split; auto. split; auto. rewrite (joint_agree (map fst) e env env'); auto.
    + eapply G; eauto.
Qed.

Lemma line_extreme_off : forall mx p X E E' (stored stored' : text -> Z -> Prop) v, agree_off X E E' -> (forall n v, ~ X n -> stored n v -> stored' n v) -> avoids X p ->
  line_extreme mx E stored p v -> line_extreme mx E' stored' p v.
Proof.
  intros mx. induction p as [|[n e] p IH]; intros X E E' stored stored' v A S N; [intros []|]. destruct N as [N1 N2]. destruct p as [|l p].
  - rewrite !line_extreme_one. now apply (worked_out_off mx X).
  - rewrite !line_extreme_cons. intros [w [H1 H2]]. exists w. split; [now apply (worked_out_off mx X E E' stored)|].
    apply (IH _ _ _ _ _ _ (values_off X E E' n e A N1)) with (3 := H2); [|exact N2]. intros m x Hm. destruct n as [n|]; cbn [stored_after].
    + destruct (text_eqb m n) eqn:Em; auto. apply S. intros C. apply Hm. split; auto. intros K. injection K as ->. rewrite text_eqb_refl in Em. discriminate.
    + apply S. intros C. apply Hm. split; [exact C | discriminate].
Qed.

Lemma avoids_nothing : forall p (X : text -> Prop), (forall m, ~ X m) -> avoids X p.
Proof. induction p as [|[n e] p IH]; intros X H; [exact Logic.I|]. split; auto. apply IH. intros m [C _]. now apply (H m). Qed.

Lemma line_extreme_ext : forall mx p (E E' : values -> Prop) (stored stored' : text -> Z -> Prop) v, (forall env, E env -> E' env) -> (forall env, E' env -> E env) -> (forall n v, stored n v -> stored' n v) ->
  line_extreme mx E stored p v -> line_extreme mx E' stored' p v.
Proof.
  intros mx p E E' stored stored' v A B S. apply (line_extreme_off mx p (fun _ => False)); auto.
  - split; intros env H; exists env; auto.
  - now apply avoids_nothing.
Qed.

Section Facts.
  Context (R : Runtime).

  Lemma ext_of_worked : forall mx org ok s c (stored : text -> Z -> Prop), known R s c -> extendable c -> separated org c -> bounded R mx ok s c ->
    (forall n v, c_inst c n <> None -> get_constant R n s = Ok v -> stored n v) ->
    forall e v, simple e -> (forall n, In n (reads e) -> c_inst c n <> None) -> sides_ok (map fst) e ->
    ext_of R mx e s = (s, Ok v) -> worked_out mx (possible c) stored e v.
  Proof.
    intros mx org ok s c stored K X SP B ST.
    assert (other : forall e v, simple e -> (forall n, In n (reads e) -> c_inst c n <> None) -> sides_ok (map fst) e -> extreme_exact mx org ok e ->
      ext_of R mx e s = (s, Ok v) -> largest mx (possible c) e v).
    { intros e v S Hr Hs EX E. destruct (ext_of_spec R mx org ok s c K X SP B e S Hr Hs) as [r [E' H]]. rewrite E in E'. injection E' as <-.
      destruct H as [H1 H2]. split; [exact (H2 EX)|]. intros env x P Hx. destruct (H1 env P) as [_ W]. auto. }
    induction e; intros v S Hr Hs E; cbn [worked_out]; try (now apply other).
    - now apply IHe.
    - assert (Hra : forall n, In n (reads e1) -> c_inst c n <> None) by (intros; apply Hr; cbn [reads]; apply in_or_app; auto).
      assert (Hrb : forall n, In n (reads e2) -> c_inst c n <> None) by (intros; apply Hr; cbn [reads]; apply in_or_app; auto).
      assert (Hsa : sides_ok (map fst) e1) by (intros m Hm; apply Hs; cbn [dice_of]; apply in_or_app; auto).
      assert (Hsb : sides_ok (map fst) e2) by (intros m Hm; apply Hs; cbn [dice_of]; apply in_or_app; auto).
      cbn [simple] in S. destruct S as [So [Sa Sb]].
      destruct (ext_of_spec R mx org ok s c K X SP B e1 Sa Hra Hsa) as [ra [Ea _]]. destruct (ext_of_spec R mx org ok s c K X SP B e2 Sb Hrb Hsb) as [rb [Eb _]].
      assert (F : exists f, minmax_operator min_max = Some f /\ minmax_meaning min_max = Some f).
      { unfold minmax_meaning in *. unfold minmax_operator. destruct (text_eqb min_max $"MAX"); [exists Z.max; auto|].
        destruct (text_eqb min_max $"MIN"); [exists Z.min; auto | congruence]. }
      destruct F as [f [F1 F2]]. cbn [ext_of] in E. rewrite F1 in E. unfold bind in E. rewrite Ea in E. destruct ra as [va|xa]; [|discriminate].
      rewrite Eb in E. destruct rb as [vb|xb]; [|discriminate]. cbn in E. injection E as <-.
      exists f, va, vb. split; [exact F2|]. split; [now apply IHe1|]. split; [now apply IHe2 | reflexivity].
    - destruct S.
    - cbn [ext_of] in E. apply ST; [apply Hr; now left|]. injection E as E. exact E.
  Qed.

  Lemma erun_worked : forall mx p (i : nat) org ok s c (E : values -> Prop) (stored : text -> Z -> Prop) v s', sinv R s -> known R s c -> cwf R s c -> extendable c -> separated org c -> bounded R mx ok s c -> good_lines p ->
    (forall m, In m (program_dice p) -> map fst m <> []) -> (exists kn, known_names c kn /\ closed kn p) ->
    (forall env, possible c env -> E env) -> (forall env, E env -> exists env', possible c env' /\ forall m, env m = env' m) ->
    (forall n w, c_inst c n <> None -> get_constant R n s = Ok w -> stored n w) ->
    erun R mx p s = (s', Ok v) -> line_extreme mx E stored p v.
  Proof.
    intros mx. induction p as [|[n e] p IH]; intros i org ok s c EE stored v s' I K W X SP B G Hd [kn [Hkn HC]] P1 P2 ST; [discriminate|].
    destruct (G n e (or_introl eq_refl)) as [S N]. destruct HC as [HC1 HC2].
    assert (Hr : forall m, In m (reads e) -> c_inst c m <> None) by (intros m Hm; apply Hkn; auto).
    assert (He : sides_ok (map fst) e) by (intros m Hm; apply Hd; cbn [program_dice flat_map snd]; apply in_or_app; auto).
    assert (Hq : forall m, In m (program_dice p) -> map fst m <> []) by (intros m Hm; apply Hd; cbn [program_dice flat_map snd]; apply in_or_app; auto).
    assert (AO : agree_off (fun _ => False) (possible c) EE).
    { split; [intros env P; exists env; auto|]. intros env P. destruct (P2 env P) as [env' [P' Q]]. exists env'. split; auto. }
    assert (WO : forall w, ext_of R mx e s = (s, Ok w) -> worked_out mx EE stored e w).
    { intros w Ew. apply (worked_out_off mx (fun _ => False) (possible c) EE stored); auto. now apply (ext_of_worked mx org ok s c stored). }
    destruct (ext_line_step R mx i org ok s c n e I K W X SP B S N Hr He) as [s1 [r [El H]]].
    assert (WL : forall w, r = Ok w -> worked_out mx EE stored e w).
    { intros w ->. apply WO. destruct (ext_of_spec R mx org ok s c K X SP B e S Hr He) as [r' [Er _]]. destruct n as [n|]; [|cbn [line_expr] in El; congruence].
      cbn [line_expr ext_of] in El. unfold bind at 1 in El. rewrite Er in El. destruct r' as [w'|x]; [|discriminate]. rewrite Er.
      unfold bind, set_const_m, ret in El. destruct (dist_of R e (set_constant R n w' s)) as [s2 [d|x]]; [|discriminate].
      destruct (set_var R n d s2) as [s3 [u|x]]; [|discriminate]. injection El as _ ->. reflexivity. }
    destruct p as [|l p].
    - cbn [erun]. unfold bind. rewrite El. destruct r as [w|x]; [|discriminate]. intros Ev. injection Ev as _ <-. apply line_extreme_one. auto.
    - rewrite erun_cons. unfold bind. rewrite El. destruct r as [w|x]; [|discriminate]. intros Ev. apply line_extreme_cons. exists w. split; [auto|].
      destruct H as [H1 [H2 [c2 [I2 [K2 [W2 [X2 [SP2 [B2 [C1 [C2 [FW [BK CO]]]]]]]]]]]]].
      apply (IH (Datatypes.S i) (next_origins i org n e) (next_exact mx org ok n e) (set_stdout_const R w s1) c2 _ _ v s'); auto.
      + intros k f Hk. apply G. right; auto.
      + exists (match n with Some n => n :: kn | None => kn end). split; auto. intros k Hk. destruct n as [n|]; [|apply C1; auto]. destruct Hk as [<-|Hk]; [now apply C2 | apply C1; auto].
      + intros env2 P. destruct (BK env2 P) as [env [x [P' [Hx Eb]]]]. exists env, x. auto.
      + intros env2 [env [x [P' [Hx Eb]]]]. destruct (P2 env P') as [env' [P'' Q]]. exists (bind_value env' n x). split.
        * apply FW; auto. rewrite <- (joint_agree (map fst) e env env'); auto.
        * intros m. rewrite Eb. destruct n as [n|]; cbn [bind_value]; auto. destruct (text_eqb m n); auto.
      + intros m y Hm Hy. destruct (CO m Hm) as [[-> Hc]|[Hn [Hc Hg]]].
        * cbn [stored_after]. rewrite text_eqb_refl. congruence.
        * rewrite Hg in Hy. specialize (ST m y Hc Hy). destruct n as [n|]; cbn [stored_after]; auto. destruct (text_eqb m n) eqn:Em; auto. apply text_eqb_eq in Em. congruence.
  Qed.

  (** ** C15 *)
  Lemma extreme_worked_out : forall mx s lines p v, reachable R s -> program_text lines p -> good_program p -> sided p ->
    extreme_is R mx s lines v -> program_extreme mx p v /\ forall w, program_extreme mx p w -> w = v.
  Proof.
    intros mx s lines p v Hs T [Hp [HC HG]] Sd H. assert (Is := reachable_sinv R s Hs).
    assert (U : forall a b, program_extreme mx p a -> program_extreme mx p b -> a = b) by (apply line_extreme_unique; contradiction).
    assert (G : program_extreme mx p v); [|split; auto].
    assert (EX := ext_from_erun R mx p lines s EmptyDict Hp T). destruct H as [s2 [dict [E2 G]]]. rewrite extreme_from, EX in E2.
    destruct (erun R mx p s) as [s' [w|x]] eqn:Er; [|discriminate]. cbn [fst snd rmap] in E2. injection E2 as <- <-.
    assert (Hd : forall m, In m (program_dice p) -> map fst m <> []) by (intros m Hm; apply map_nonempty; now apply Sd).
    destruct (erun_spec R mx p 0%nat (fun _ => []) (fun _ => False) s no_context Hp Is (known_none R s) (cwf_none R s) extendable_none (separated_none _) (bounded_none R mx _ s) HG Hd) as [s1 [r [E1 H1]]].
    { exists []. split; [intros n []|auto]. }
    rewrite Er in E1. injection E1 as <- <-. destruct H1 as [H1 _]. change (dget text_eqb (st_const s') stdout = Some v) in G. specialize (H1 _ eq_refl). rewrite H1 in G. injection G as ->.
    apply (erun_worked mx p 0%nat (fun _ => []) (fun _ => False) s no_context _ _ v s' Is (known_none R s) (cwf_none R s) extendable_none (separated_none _) (bounded_none R mx _ s) HG Hd); auto.
    - exists []. split; [intros n []|auto].
    - apply possible_none.
    - intros env Hn. exists no_values. split; [exists (fun _ => 0); split; [intros n Hc; cbn in Hc; congruence | reflexivity] | exact Hn].
  Qed.
End Facts.
