(** * RaiseFacts: a distribution raises exactly when some result has no value *)
From Verif Require Import Py PyFacts PyFloat Constraint ConstraintFacts Distribution DistFacts SpecDice DiceFacts DiceModel
  DropKeepFacts NotationFacts DiceProofs Expr Lexer Parser Interp TagFacts SpecProgram ExprFacts StateFacts ProgramFacts JointFacts.

Section Facts.
  Context (R : Runtime).
  Notation dist := (dist R).
  Notation state := (state R).

  Definition full (c : context) (h : text -> Z) : Prop := forall n, c_inst c n <> None -> c_lt c n h.

  (** Values that are possible for some variables can be completed to values for all of them *)
  Definition extendable (c : context) : Prop := forall (l : text -> bool) h,
    (forall n, l n = true -> c_inst c n <> None /\ c_lt c n h) ->
    exists h', full c h' /\ forall n, l n = true -> env_of c h' n = env_of c h n.

  Definition memb (l : list text) (n : text) : bool := existsb (text_eqb n) l.
  Lemma memb_iff : forall l n, memb l n = true <-> In n l.
  Proof.
    intros l n. unfold memb. rewrite existsb_exists. split.
    - intros [x [H E]]. apply text_eqb_eq in E. now subst.
    - intros H. exists n. split; auto. apply text_eqb_refl.
  Qed.

  Lemma joint_keyed : forall e s d c, known R s c -> simple e -> (forall n, In n (reads e) -> c_inst c n <> None) ->
    sides_ok (map fst) e -> extendable c -> dist_of R e s = (s, Ok d) -> describes R s c e d -> d_map d <> [].
  Proof.
    intros e s d c K S Hr Hs X Ed D. destruct (X (fun _ => false) (fun _ => 0)) as [h [F _]]; [discriminate|].
    assert (N := no_none R s c K e d h S Hr (fun n Hn => F n (Hr n Hn)) Ed).
    assert (J := joint_nonempty (map fst) (env_of c h) e Hs). destruct (joint (map fst) (env_of c h) e) as [|[x|] r] eqn:E; [congruence | |exfalso; apply N; left; auto].
    destruct (proj2 (ds_lst _ _ _ _ _ D h x)) as [o [Ho _]]; [split; [auto | rewrite E; left; auto]|].
    intros C. rewrite C in Ho. destruct Ho.
  Qed.

  Lemma raise_none : forall s c, known R s c -> extendable c -> forall e x, simple e -> (forall n, In n (reads e) -> c_inst c n <> None) ->
    sides_ok (map fst) e -> dist_of R e s = (s, Raise x) -> exists h, full c h /\ In None (joint (map fst) (env_of c h) e).
  Proof.
    intros s c K X.
    assert (binop : forall (a b : expr) (v : vop) (g : Z -> Z -> option Z) x,
      (forall x, simple a -> (forall n, In n (reads a) -> c_inst c n <> None) -> sides_ok (map fst) a ->
         dist_of R a s = (s, Raise x) -> exists h, full c h /\ In None (joint (map fst) (env_of c h) a)) ->
      (forall x, simple b -> (forall n, In n (reads b) -> c_inst c n <> None) -> sides_ok (map fst) b ->
         dist_of R b s = (s, Raise x) -> exists h, full c h /\ In None (joint (map fst) (env_of c h) b)) ->
      simple a -> simple b -> (forall n, In n (reads a ++ reads b) -> c_inst c n <> None) ->
      (forall m, In m (dice_of a ++ dice_of b) -> map fst m <> []) -> binop_m R v (dist_of R a) (dist_of R b) s = (s, Raise x) ->
      (v = VDiv -> forall x, g x 0 = None) ->
      exists h, full c h /\ In None (both g (joint (map fst) (env_of c h) a) (joint (map fst) (env_of c h) b))).
    { intros a b v g x IHa IHb Sa Sb Hr Hs E Hg.
      assert (Hra : forall n, In n (reads a) -> c_inst c n <> None) by (intros; apply Hr, in_or_app; auto).
      assert (Hrb : forall n, In n (reads b) -> c_inst c n <> None) by (intros; apply Hr, in_or_app; auto).
      assert (Hsa : sides_ok (map fst) a) by (intros m Hm; apply Hs, in_or_app; auto).
      assert (Hsb : sides_ok (map fst) b) by (intros m Hm; apply Hs, in_or_app; auto).
      assert (none_l : forall la lb, In None la -> lb <> [] -> In None (both g la lb)).
      { intros la [|y lb] H1 H2; [congruence|]. unfold both. apply in_flat_map. exists None. split; auto. left; auto. }
      assert (none_r : forall la lb, In None lb -> la <> [] -> In None (both g la lb)).
      { intros [|y la] lb H1 H2; [congruence|]. unfold both. apply in_flat_map. exists y. split; [left; auto|].
        apply in_map_iff. exists None. split; auto. destruct y; auto. }
      destruct (simple_dist R s c K a Sa Hra) as [ra [Ea Da]]. destruct (simple_dist R s c K b Sb Hrb) as [rb [Eb Db]].
      unfold binop_m, bind in E. rewrite Ea in E. destruct ra as [da|xa].
      - rewrite Eb in E. destruct rb as [db|xb].
        + unfold lift in E. injection E as E. destruct (d_binop_cases R v da db (proj1 (ds_wf _ _ _ _ _ Da))) as [[d E']|[_ [-> [Ne L]]]]; [congruence|].
          apply listed_values in L. destruct L as [o [Ho Hv]].
          destruct (di_keys R db (proj1 (ds_wf _ _ _ _ _ Db)) o Ho) as [_ [_ [_ [h0 Hh0]]]].
          assert (L0 : lst R h0 db 0) by (exists o; auto). apply (ds_lst _ _ _ _ _ Db) in L0. destruct L0 as [L1 L2].
          destruct (X (memb (reads b)) h0) as [h [F A]]; [intros n Hn; apply memb_iff in Hn; split; auto|].
          exists h. split; auto. assert (J := joint_nonempty (map fst) (env_of c h) a Hsa).
          destruct (joint (map fst) (env_of c h) a) as [|y la]; [congruence|]. unfold both. apply in_flat_map. exists y. split; [left; auto|].
          apply in_map_iff. exists (Some 0). split; [destruct y; auto|]. rewrite (joint_agree (map fst) b _ (env_of c h0)); auto. intros n Hn. apply A. now apply memb_iff.
        + destruct (IHb xb Sb Hrb Hsb Eb) as [h [F N]]. exists h. split; auto. apply none_r; auto. now apply joint_nonempty.
      - destruct (IHa xa Sa Hra Hsa Ea) as [h [F N]]. exists h. split; auto. apply none_l; auto. now apply joint_nonempty. }
    assert (unop : forall a (g : dist -> dist) (f : option Z -> option Z) x,
      (forall x, simple a -> (forall n, In n (reads a) -> c_inst c n <> None) -> sides_ok (map fst) a ->
         dist_of R a s = (s, Raise x) -> exists h, full c h /\ In None (joint (map fst) (env_of c h) a)) ->
      simple a -> (forall n, In n (reads a) -> c_inst c n <> None) -> sides_ok (map fst) a ->
      bind R (dist_of R a) (fun d => ret R (g d)) s = (s, Raise x) -> f None = None ->
      exists h, full c h /\ In None (map f (joint (map fst) (env_of c h) a))).
    { intros a g f x IHa Sa Hra Hsa E Hf. destruct (simple_dist R s c K a Sa Hra) as [ra [Ea Da]]. unfold bind in E. rewrite Ea in E.
      destruct ra as [da|xa]; [discriminate|]. destruct (IHa xa Sa Hra Hsa Ea) as [h [F N]]. exists h. split; auto. apply in_map_iff. exists None. auto. }
    induction e; intros x S Hr Hs E; cbn [simple reads joint] in *; unfold sides_ok in Hs; cbn [dice_of] in Hs.
    - eapply IHe; eauto.
    - eapply unop; eauto.
    - destruct S as [[form Hf] [Hn Hk]]. destruct (pool_cases R form d s Hf Hn Hk) as [dd [E' _]]. congruence.
    - destruct (simple_dist R s c K (EDice d)) as [r [E' D]]; auto. rewrite E' in E. injection E as ->. cbn [dist_of] in E'.
      destruct S as [[form Hf] Hn]. exfalso. assert (N : natural_counts (dice_map d)).
      { unfold mk_dice in Hf. destruct (rbind (index (split_on (is_ch "d") form) 1) get_single_dice_outcome_map) as [m|] eqn:Em; [|discriminate].
        cbn [rbind] in Hf. destruct (number_of_dice _); [|discriminate]. cbn [rbind] in Hf. apply Ok_inj in Hf. subst d. cbn [dice_map].
        destruct (index (split_on (is_ch "d") form) 1); [|discriminate]. cbn [rbind] in Em. now apply single_map_natural in Em. }
      destruct (dice_dist_spec R d N) as [dd [E2 _]]. unfold lift in E'. rewrite E2 in E'. discriminate.
    - destruct S as [z Ez]. cbn [dist_of] in E. unfold lift in E. rewrite Ez in E. cbn [rbind] in E.
      destruct (const_describes R s c (EInt number) z) as [d [E' D]]; auto; [|congruence].
      intros sides env. cbn [joint]. now rewrite Ez.
    - cbn [dist_of] in E. unfold lift in E. rewrite bool_truth in E. destruct (const_describes R s c (EBool binary_string) (truth (text_eqb binary_string $"True"))) as [d [E' D]]; auto; congruence.
    - destruct S. eapply (binop e1 e2 VAdd); eauto. discriminate.
    - destruct S. eapply (binop e1 e2 VSub); eauto. discriminate.
    - destruct S. eapply (binop e1 e2 VMul); eauto. discriminate.
    - destruct S. eapply (binop e1 e2 VDiv); eauto.
    - destruct S as [So [Sa Sb]]. destruct (meaning_dist_operator operator So) as [v Ev]. cbn [dist_of] in E. rewrite Ev in E.
      eapply (binop e1 e2 v); eauto. intros ->. unfold dist_operator in Ev.
      repeat match type of Ev with (if ?b then _ else _) = _ => destruct b; [discriminate|] end. discriminate.
    - destruct S as [So [Sa Sb]]. cbn [dist_of] in E. eapply (binop e1 e2); eauto. destruct (text_eqb min_max $"MAX"); discriminate.
    - eapply unop; eauto.
    - destruct S.
    - cbn [dist_of] in E. specialize (Hr name (or_introl eq_refl)). destruct (c_inst c name) as [inst|] eqn:Ei; [|congruence].
      destruct (K name inst Ei) as [d [Eg _]]. rewrite Eg in E. discriminate.
  Qed.

  Lemma extendable_next : forall s c n e d, cwf R s c -> known R s c -> simple e -> (forall m, In m (reads e) -> c_inst c m <> None) ->
    sides_ok (map fst) e -> dist_of R e s = (s, Ok d) -> describes R s c e d -> extendable c -> extendable (extend R s c n e d).
  Proof.
    intros s c n e d W K S Hr Hs Ed D X l h Hl. set (inst := next_instance R s n).
    assert (finish : forall h' x, full c h' -> In (Some x) (joint (map fst) (env_of c h') e) -> full (extend R s c n e d) (upd h' inst x)).
    { intros h' x F Hx k Hk. assert (A : agree_on (issued R s) h' (upd h' inst x)) by apply upd_agree.
      destruct (text_eq_dec k n) as [->|Hne].
      - apply (ext_lt R s c n e d D). fold inst. rewrite upd_same. split.
        + intros k Hk'. apply (lt_agree R s c W h' _ k A). auto.
        + now rewrite <- (joint_agree_h R s c W (map fst) h' _ e A).
      - rewrite ext_lt_other by auto. apply (lt_agree R s c W h' _ k A). apply F. cbn [extend c_inst] in Hk. apply text_eqb_neq in Hne. now rewrite Hne in Hk. }
    assert (old : forall k, l k = true -> k <> n -> c_inst c k <> None /\ c_lt c k h).
    { intros k Hk Hne. destruct (Hl k Hk) as [H1 H2]. rewrite ext_lt_other in H2 by auto. cbn [extend c_inst] in H1. apply text_eqb_neq in Hne. rewrite Hne in H1. auto. }
    assert (env1 : forall h' x k, k <> n -> env_of c h' k = env_of c h k -> env_of (extend R s c n e d) (upd h' inst x) k = env_of (extend R s c n e d) h k).
    { intros h' x k Hne A. rewrite !ext_env_other by auto. rewrite <- A. symmetry. apply (env_agree R s); auto. apply upd_agree. }
    destruct (l n) eqn:Hn.
    - destruct (Hl n Hn) as [_ H2]. apply (ext_lt R s c n e d D) in H2. fold inst in H2. destruct H2 as [H2 H3].
      destruct (X (fun k => (l k && negb (text_eqb k n)) || memb (reads e) k) h) as [h' [F A]].
      { intros k Hk. apply orb_true_iff in Hk. destruct Hk as [Hk|Hk]; [|apply memb_iff in Hk; auto].
        apply andb_true_iff in Hk. destruct Hk as [Hk Hne]. apply old; auto. apply negb_true_iff in Hne. now apply text_eqb_neq. }
      exists (upd h' inst (h inst)). split.
      + apply finish; auto. rewrite (joint_agree (map fst) e _ (env_of c h)); auto. intros k Hk. apply A. apply orb_true_iff. right. now apply memb_iff.
      + intros k Hk. destruct (text_eq_dec k n) as [->|Hne].
        * unfold env_of. cbn [extend c_inst]. rewrite text_eqb_refl. fold inst. simpl. now rewrite upd_same.
        * apply env1; auto. apply A. rewrite Hk. apply text_eqb_neq in Hne. now rewrite Hne.
    - destruct (X l h) as [h' [F A]]; [intros k Hk; apply old; auto; intros ->; congruence|].
      assert (N := no_none R s c K e d h' S Hr (fun m Hm => F m (Hr m Hm)) Ed).
      assert (J := joint_nonempty (map fst) (env_of c h') e Hs). destruct (joint (map fst) (env_of c h') e) as [|[x|] r] eqn:E; [congruence | |exfalso; apply N; left; auto].
      exists (upd h' inst x). split; [apply finish; auto; rewrite E; left; auto|].
      intros k Hk. apply env1; auto. intros ->. congruence.
  Qed.

  Lemma extendable_line : forall s c n e d, cwf R s c -> known R s c -> simple e -> (forall m, In m (reads e) -> c_inst c m <> None) ->
    sides_ok (map fst) e -> dist_of R e s = (s, Ok d) -> describes R s c e d -> extendable c -> extendable (next_context R s c n e d).
  Proof. intros. destruct n as [n|]; [|auto]. now apply extendable_next. Qed.

  Lemma run_raise : forall so p s c s' x, p <> [] -> sinv R s -> known R s c -> cwf R s c -> good_lines p -> extendable c ->
    (forall m, In m (program_dice p) -> map fst m <> []) -> (exists kn, known_names c kn /\ closed kn p) ->
    run R so p s = (s', Raise x) -> exists h, full c h /\ In None (results (map fst) (env_of c h) p).
  Proof.
    intros so. induction p as [|[n e] p IH]; intros s c s' x Hp I K W G X Hd [kn [Hkn HC]] Er; [congruence|]. clear Hp.
    destruct (G n e (or_introl eq_refl)) as [S N]. destruct HC as [HC1 HC2].
    assert (Hr : forall m, In m (reads e) -> c_inst c m <> None) by (intros m Hm; apply Hkn; auto).
    assert (He : sides_ok (map fst) e) by (intros m Hm; apply Hd; cbn [program_dice flat_map snd]; apply in_or_app; auto).
    assert (Hq : forall m, In m (program_dice p) -> map fst m <> []) by (intros m Hm; apply Hd; cbn [program_dice flat_map snd]; apply in_or_app; auto).
    destruct (line_step R so s c n e I K W S N Hr) as [s1 [r [E H]]].
    assert (here : forall x, r = Raise x -> exists h, full c h /\ In None (joint (map fst) (env_of c h) e)).
    { intros y ->. destruct H as [_ ->]. destruct (simple_dist R s c K e S Hr) as [re [Ee _]].
      apply (raise_none s c K X e y S Hr He). rewrite Ee. f_equal. destruct n as [n|]; cbn [line_expr dist_of] in E; [|congruence].
      unfold bind in E. rewrite Ee in E. destruct re as [d|z]; [|congruence].
      destruct (set_var R n d s) as [s2 [u|w]] eqn:Es; [discriminate|]. exfalso.
      destruct (simple_dist R s c K e S Hr) as [re2 [Ee2 D2]]. rewrite Ee in Ee2. injection Ee2 as <-.
      destruct (set_var_spec R s n d I (ds_wf _ _ _ _ _ D2) (proj1 N)) as [d' [E2 _]]. congruence. }
    destruct p as [|l p].
    - assert (RE : forall env, results (map fst) env [(n, e)] = joint (map fst) env e) by (intros; destruct n; reflexivity). setoid_rewrite RE.
      cbn [run] in Er. unfold bind in Er. rewrite E in Er. destruct r as [d|y]; [discriminate|]. eauto.
    - set (q := l :: p) in *. change (run R so ((n, e) :: q)) with (bind R (dist_of R (line_expr (n, e))) (fun d s => run R so q (after_line R so d s))) in Er.
      unfold bind in Er. rewrite E in Er. destruct r as [d|y].
      + destruct H as [Ed [D [I2 [K2 [W2 [L [IS IN]]]]]]]. set (s2 := after_line R so d s1) in *. set (c2 := next_context R s c n e d) in *.
        destruct (IH s2 c2 s' x) as [h2 [F2 N2]]; auto; [discriminate | intros k f Hk; apply G; right; auto | now apply extendable_line | |].
        { exists (match n with Some n => n :: kn | None => kn end). split; auto. intros k Hk. unfold c2, next_context.
          destruct n as [n|]; [|auto]. cbn [extend c_inst]. destruct (text_eqb k n) eqn:Ek; [discriminate|].
          destruct Hk as [->|Hk]; [rewrite text_eqb_refl in Ek; discriminate | auto]. }
        unfold q. setoid_rewrite results_cons. fold q. destruct n as [n|]; cbn [next_context] in *.
        * assert (Fn : c_lt c2 n h2) by (apply F2; unfold c2; cbn [extend c_inst]; rewrite text_eqb_refl; discriminate).
          apply (ext_lt R s c n e d D) in Fn. destruct Fn as [F3 F4]. set (inst := next_instance R s n) in *.
          destruct (X (fun k => (match c_inst c k with Some _ => true | None => false end && negb (text_eqb k n)) || memb (reads e) k) h2) as [h [F A]].
          { intros k Hk. apply orb_true_iff in Hk. destruct Hk as [Hk|Hk]; [|apply memb_iff in Hk; auto].
            apply andb_true_iff in Hk. destruct Hk as [Hk Hne]. apply negb_true_iff in Hne. assert (Hc : c_inst c k <> None) by (destruct (c_inst c k); [discriminate | discriminate]).
            split; auto. assert (H2 : c_lt c2 k h2) by (apply F2; unfold c2; cbn [extend c_inst]; rewrite Hne; auto).
            unfold c2 in H2. rewrite ext_lt_other in H2; auto. now apply text_eqb_neq. }
          exists h. split; auto. apply in_flat_map. exists (Some (h2 inst)). split.
          -- rewrite (joint_agree (map fst) e _ (env_of c h2)); auto. intros k Hk. apply A. apply orb_true_iff. right. now apply memb_iff.
          -- rewrite (results_ext (map fst) q _ (env_of c2 h2)); auto. intros k. unfold bind_value, c2. destruct (text_eqb k n) eqn:Ek.
             ++ unfold env_of. cbn [extend c_inst]. rewrite Ek. reflexivity.
             ++ rewrite ext_env_other by (now apply text_eqb_neq). destruct (c_inst c k) as [ik|] eqn:Ec.
                ** apply A. rewrite Ec, Ek. reflexivity.
                ** unfold env_of. now rewrite Ec.
        * exists h2. split; auto. apply in_flat_map.
          assert (NN := no_none R s c K e d h2 S Hr (fun m Hm => F2 m (Hr m Hm)) Ed).
          assert (J := joint_nonempty (map fst) (env_of c h2) e He). destruct (joint (map fst) (env_of c h2) e) as [|[y|] r] eqn:Ej; [congruence | |exfalso; apply NN; left; auto].
          exists (Some y). split; [left; auto | exact N2].
      + destruct (here y eq_refl) as [h [F Nn]]. exists h. split; auto. unfold q. rewrite results_cons. apply in_flat_map. exists None. split; auto. left; auto.
  Qed.

  (** ** From any consistent state, knowing no variable *)
  Definition no_context : context := {| c_inst := fun _ => None; c_wt := fun _ _ => 1; c_lt := fun _ _ => True; c_sup := fun _ _ _ => False |}.

  Lemma known_none : forall s, known R s no_context.
  Proof. intros s n inst H. discriminate. Qed.
  Lemma cwf_none : forall s, cwf R s no_context.
  Proof. intros s. constructor; cbn; auto; try discriminate; tauto. Qed.
  Lemma extendable_none : extendable no_context.
  Proof. intros l h H. exists h. split; [intros n Hn; cbn in Hn; congruence | auto]. Qed.

  Lemma env_none : forall h n, env_of no_context h n = no_values n.
  Proof. reflexivity. Qed.

  Lemma run_good : forall so p s, sinv R s -> good_program p -> exists s' r, run R so p s = (s', r) /\
    match r with Raise x => x = ZeroDivisionError | Ok d => run_facts R s no_context p s' d end.
  Proof.
    intros so p s I [Hp [HC HG]]. apply run_spec; auto using known_none, cwf_none; try discriminate.
    exists []. split; [intros n []|auto].
  Qed.

  Lemma wprod_none : forall h l, wprod no_context h l = 1.
  Proof. intros h l. unfold wprod. induction l as [|x l IH]; auto. cbn [fold_right]. rewrite IH. reflexivity. Qed.

  Lemma run_reported : forall so p s s' d, sinv R s -> good_program p -> run R so p s = (s', Ok d) ->
    forall v, reported R d v = weighted faces no_values p v.
  Proof.
    intros so p s s' d I G E v. destruct (run_good so p s I G) as [s2 [r [E2 H]]]. rewrite E in E2. injection E2 as <- <-.
    destruct H as [S W [A [A1 [A2 [A3 A4]]]] L N].
    rewrite (reported_esum R d v).
    change (esum R (fun o => if o_value o =? v then 1 else 0) (d_map d)) with (esum R (fun o => delta v (o_value o)) (d_map d)).
    rewrite (pinned_sum R A d (delta v) (fun _ => 0)); auto; [|apply W | |intros m V Hm; apply (A2 m V Hm)].
    - rewrite A4, wprod_none. rewrite (weighted_agree faces p _ no_values); [lia | reflexivity].
    - revert A3. apply pinned_ext. intros m V. split; [intros [H|[n [_ []]]]; auto | auto].
  Qed.

  Lemma run_listed : forall so p s s' d, sinv R s -> good_program p -> run R so p s = (s', Ok d) ->
    forall v, listed R d v <-> In (Some v) (used_results (map fst) no_values p).
  Proof.
    intros so p s s' d I G E v. destruct (run_good so p s I G) as [s2 [r [E2 H]]]. rewrite E in E2. injection E2 as <- <-.
    destruct H as [S W _ L N]. rewrite listed_values.
    rewrite <- (used_results_agree (map fst) p (env_of no_context (fun _ => 0))) by reflexivity. split.
    - intros [o [Ho Hv]]. destruct (di_keys R d (proj1 W) o Ho) as [_ [_ [_ [h Hh]]]].
      destruct (proj1 (L h v)) as [_ H]; [exists h; split; [intros m _; auto | exists o; auto] | exact H].
    - intros H. destruct (proj2 (L (fun _ => 0) v)) as [h [_ [o [Ho [_ Hv]]]]]; [split; auto; intros n Hn; exact Logic.I | eauto].
  Qed.

  Lemma run_none : forall so p s s' d, sinv R s -> good_program p -> run R so p s = (s', Ok d) ->
    ~ In None (results (map fst) no_values p).
  Proof.
    intros so p s s' d I G E. destruct (run_good so p s I G) as [s2 [r [E2 H]]]. rewrite E in E2. injection E2 as <- <-.
    assert (N := rf_none _ _ _ _ _ _ H (fun _ => 0)). rewrite (results_ext (map fst) p _ no_values) in N by reflexivity. apply N.
    intros n Hn. cbn in Hn. congruence.
  Qed.

  Lemma run_raises : forall so p s s' x, sinv R s -> good_program p -> sided p -> run R so p s = (s', Raise x) ->
    x = ZeroDivisionError /\ In None (results (map fst) no_values p).
  Proof.
    intros so p s s' x I G Sd E. split.
    - destruct (run_good so p s I G) as [s2 [r [E2 H]]]. rewrite E in E2. now injection E2 as <- <-.
    - destruct G as [Hp [HC HG]]. destruct (run_raise so p s no_context s' x Hp I (known_none s) (cwf_none s) HG extendable_none) as [h [_ H]]; auto.
      + intros m Hm. apply map_nonempty. now apply Sd.
      + exists []. split; [intros n []|auto].
  Qed.
End Facts.
