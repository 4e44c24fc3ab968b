(** * RenameProofs: sessions with other names for the variables (C61) *)
From Verif Require Import Py PyFacts PyFloat Constraint Distribution DiceModel Expr Lexer Parser Interp Random SpecGrammar ParserFacts WfFacts LexFacts LexProofs SyntaxProofs SpecCalls SpecSeed
  SpecRename SeedFacts SeedProofs Instances.

Section Rename.
  Context (rho : text -> text).
  Notation ren := (rename_token rho).

  Lemma ren_name : forall t, tk_name (ren t) = tk_name t.
  Proof. intros [n w]. unfold rename_token. cbn. destruct n; reflexivity. Qed.
  Lemma ren_named : forall n t, named n t -> named n (ren t).
  Proof. intros n t H. unfold named. now rewrite ren_name. Qed.
  Lemma ren_back : forall n t, named n (ren t) -> named n t.
  Proof. intros n t H. unfold named in *. now rewrite ren_name in H. Qed.
  Lemma ren_var : forall t, named T_NAME t -> tk_text (ren t) = rho (tk_text t).
  Proof. intros [n w] H. unfold named in H. cbn in H. subst. reflexivity. Qed.
  Lemma ren_other : forall t n, named n t -> n <> T_NAME -> ren t = t.
  Proof. intros [n w] m H N. unfold named in H. cbn in H. subst. unfold rename_token. cbn. destruct m; congruence. Qed.

  Lemma derives_rename : forall e ts, derives e ts -> derives (rename rho e) (map ren ts).
  Proof.
    intros e ts H. induction H; cbn [rename map]; rewrite ?map_app; cbn [map]; rewrite ?map_app; cbn [map].
    - constructor; auto using ren_named.
    - constructor; auto using ren_named.
    - rewrite (ren_other t _ H) by discriminate. now constructor.
    - rewrite (ren_other t _ H) by discriminate. now constructor.
    - rewrite (ren_other t _ H) by discriminate. now constructor.
    - rewrite (ren_other t _ H) by discriminate. now constructor.
    - constructor; auto using ren_named.
    - constructor; auto using ren_named.
    - constructor; auto using ren_named.
    - constructor; auto using ren_named.
    - rewrite (ren_other o _ H0) by discriminate. now constructor.
    - rewrite (ren_other m _ H) by discriminate. constructor; auto using ren_named.
    - constructor; auto using ren_named.
    - rewrite <- (ren_var n H0). constructor; auto using ren_named.
    - rewrite <- (ren_var t H). constructor. now apply ren_named.
  Qed.

  Lemma derives_back : forall e' ts', derives e' ts' -> forall ts, ts' = map ren ts -> exists e, derives e ts.
  Proof.
    assert (BIN : forall (f : token -> expr -> expr -> expr) n ta o tb ts,
      (forall a ta o b tb, derives a ta -> named n o -> derives b tb -> derives (f o a b) (ta ++ o :: tb)) ->
      named n o -> (forall ts, ta = map ren ts -> exists e, derives e ts) -> (forall ts, tb = map ren ts -> exists e, derives e ts) ->
      ta ++ o :: tb = map ren ts -> exists e, derives e ts).
    { intros f n ta o tb ts F N Ha Hb E. symmetry in E. apply map_eq_app in E. destruct E as [ua [uo [-> [Ea E]]]]. apply map_eq_cons in E.
      destruct E as [o' [ub [-> [Eo Eb]]]]. subst o. destruct (Ha ua (eq_sym Ea)) as [a Da]. destruct (Hb ub (eq_sym Eb)) as [b Db].
      exists (f o' a b). apply F; auto. now apply ren_back. }
    intros e' ts' H. induction H; intros us E.
    - symmetry in E. apply map_eq_cons in E. destruct E as [o' [u [-> [Eo E]]]]. apply map_eq_app in E. destruct E as [u1 [u2 [-> [E1 E2]]]].
      apply map_eq_cons in E2. destruct E2 as [c' [u3 [-> [Ec E3]]]]. apply map_eq_nil in E3. subst. destruct (IHderives _ eq_refl) as [e0 D].
      exists (EParen e0). constructor; auto using ren_back.
    - symmetry in E. apply map_eq_cons in E. destruct E as [o' [u [-> [Eo E]]]]. subst. destruct (IHderives _ eq_refl) as [e0 D].
      exists (ENot e0). constructor; auto using ren_back.
    - symmetry in E. apply map_eq_cons in E. destruct E as [t' [u [-> [Et E]]]]. apply map_eq_nil in E. subst. apply ren_back in H. rewrite (ren_other t' _ H) in H0 by discriminate.
      exists (EDropKeep d). now constructor.
    - symmetry in E. apply map_eq_cons in E. destruct E as [t' [u [-> [Et E]]]]. apply map_eq_nil in E. subst. apply ren_back in H. rewrite (ren_other t' _ H) in H0 by discriminate.
      exists (EDice d). now constructor.
    - symmetry in E. apply map_eq_cons in E. destruct E as [t' [u [-> [Et E]]]]. apply map_eq_nil in E. subst. apply ren_back in H. eexists. now constructor.
    - symmetry in E. apply map_eq_cons in E. destruct E as [t' [u [-> [Et E]]]]. apply map_eq_nil in E. subst. apply ren_back in H. eexists. now constructor.
    - apply (BIN (fun _ => EAdd) T_ADD ta o tb); auto using dv_add.
    - apply (BIN (fun _ => ESub) T_SUBTRACT ta o tb); auto using dv_sub.
    - apply (BIN (fun _ => EMul) T_MULTIPLY ta o tb); auto using dv_mul.
    - apply (BIN (fun _ => EDiv) T_INTEGER_DIVISION ta o tb); auto using dv_div.
    - apply (BIN (fun o => EBin (tk_text o)) T_BINARY_OPERATOR ta o tb); auto using dv_bin.
    - symmetry in E. apply map_eq_cons in E. destruct E as [m' [u [-> [Em E]]]]. apply map_eq_cons in E. destruct E as [o' [u1 [-> [Eo E]]]].
      apply map_eq_app in E. destruct E as [ua [u2 [-> [Ea E]]]]. apply map_eq_cons in E. destruct E as [k' [u3 [-> [Ek E]]]].
      apply map_eq_app in E. destruct E as [ub [u4 [-> [Eb E]]]]. apply map_eq_cons in E. destruct E as [c' [u5 [-> [Ec E]]]]. apply map_eq_nil in E. subst.
      destruct (IHderives1 _ eq_refl) as [a0 Da]. destruct (IHderives2 _ eq_refl) as [b0 Db]. exists (EMinMax (tk_text m') a0 b0). constructor; auto using ren_back.
    - symmetry in E. apply map_eq_cons in E. destruct E as [m' [u [-> [Em E]]]]. apply map_eq_cons in E. destruct E as [o' [u1 [-> [Eo E]]]].
      apply map_eq_app in E. destruct E as [ua [u2 [-> [Ea E]]]]. apply map_eq_cons in E. destruct E as [c' [u5 [-> [Ec E]]]]. apply map_eq_nil in E. subst.
      destruct (IHderives _ eq_refl) as [a0 Da]. exists (EAbs a0). constructor; auto using ren_back.
    - symmetry in E. apply map_eq_cons in E. destruct E as [v' [u [-> [Ev E]]]]. apply map_eq_cons in E. destruct E as [n' [u1 [-> [En E]]]].
      apply map_eq_cons in E. destruct E as [q' [u2 [-> [Eq E]]]]. subst. destruct (IHderives _ eq_refl) as [a0 Da]. exists (EAssign (tk_text n') a0).
      constructor; auto using ren_back.
    - symmetry in E. apply map_eq_cons in E. destruct E as [t' [u [-> [Et E]]]]. apply map_eq_nil in E. subst. apply ren_back in H. eexists. now constructor.
  Qed.

  Lemma open_rename : forall e, open_ended (rename rho e) = open_ended e.
  Proof. induction e; cbn; auto. Qed.
  Lemma tight_rename : forall e, tightness (rename rho e) = tightness e.
  Proof. intros []; reflexivity. Qed.
  Lemma grouped_rename : forall e, well_grouped e -> well_grouped (rename rho e).
  Proof.
    induction e; cbn [well_grouped rename]; auto; unfold left_operand, right_operand; rewrite ?open_rename, ?tight_rename; tauto.
  Qed.

  Lemma renamed_lrel : forall l l', renamed rho l l' -> lrel rho l l'.
  Proof.
    intros l l' [[ts [L L']]|[m [m' [L L']]]]; unfold lrel.
    - destruct (parse l) as [e|x] eqn:P.
      + apply parse_ok in P. destruct P as [us [Lu [D W]]]. rewrite L in Lu. inversion Lu. subst us.
        assert (P' : parse l' = Ok (rename rho e)). { apply parse_ok. exists (map ren ts). split; [auto|]. split; [now apply derives_rename | now apply grouped_rename]. }
        rewrite P'. reflexivity.
      + destruct (parse l') as [e'|x'] eqn:P'.
        * apply parse_ok in P'. destruct P' as [us [Lu [D W]]]. rewrite L' in Lu. inversion Lu. subst us. destruct (derives_back _ _ D _ eq_refl) as [e D'].
          destruct (proj2 (proj1 (proj2 (parse_text l)))) as [e0 P0]; [eauto|]. congruence.
        * apply parse_text in P. apply parse_text in P'. cbn. congruence.
    - unfold parse. rewrite L, L'. reflexivity.
  Qed.

  Lemma renamed_lines : forall l l', Forall2 (renamed rho) l l' -> Forall2 (lrel rho) l l'.
  Proof. intros l l' H. eapply Forall2_weaken; [|exact H]. apply renamed_lrel. Qed.

  Lemma renamed_arel : forall a a', renamed_action rho a a' -> arel rho a a'.
  Proof.
    intros a a' H. destruct a, a'; cbn [renamed_action arel] in *; auto; destruct H as [H1 H2]; (split; [auto|]).
    - destruct c, c0; cbn [renamed_call crel] in *; auto using renamed_lines.
    - now apply renamed_lines.
  Qed.
End Rename.

Lemma session_renamed : forall R1 R2 (G : Generator) rho acts acts' (g : gen G), (forall a b, rho a = rho b -> a = b) -> rho stdout = stdout ->
  Forall2 (renamed_action rho) acts acts' -> session R2 G acts' (start R2 G g) = map (rename_sight rho) (session R1 G acts (start R1 G g)).
Proof.
  intros R1 R2 G rho acts acts' g I S H. apply (session_rel R1 R2 G rho I S); [|apply start_rel].
  eapply Forall2_weaken; [|exact H]. apply renamed_arel.
Qed.

(** ** An example: a and a_ exchanged *)
Definition swap (a b n : text) : text := if text_eqb n a then b else if text_eqb n b then a else n.
Lemma swap_inj : forall a b n m, swap a b n = swap a b m -> n = m.
Proof.
  intros a b n m. unfold swap.
  destruct (text_eqb n a) eqn:E1, (text_eqb m a) eqn:E2, (text_eqb n b) eqn:E3, (text_eqb m b) eqn:E4;
    repeat match goal with
           | H : text_eqb _ _ = true |- _ => apply text_eqb_eq in H
           | H : text_eqb _ _ = false |- _ => apply text_eqb_neq in H
           end; intros H; congruence.
Qed.

Definition session_before : list action :=
  [ACall 0 (CDistributions [$"VAR a = d2"; $"VAR a_ = a * 2"; $"a_ - a"]); ACall 0 (CRoll [$"VAR a = 1"; $"a + a_"]); ACall 0 (CCost [$"a a"])].
Definition session_after : list action :=
  [ACall 0 (CDistributions [$"VAR a_ = d2"; $"VAR a = a_ * 2"; $"a - a_"]); ACall 0 (CRoll [$"VAR a_ = 1"; $"a_ + a"]); ACall 0 (CCost [$"a_ a_"])].
