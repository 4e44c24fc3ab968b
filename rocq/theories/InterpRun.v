(** * InterpRun: the calls of the interpreter on the text of a program *)
From Verif Require Import Py PyFacts PyFloat Constraint ConstraintFacts Distribution DistFacts SpecDice DiceFacts DiceModel
  DropKeepFacts NotationFacts DiceProofs Expr Lexer Parser Interp TagFacts SpecProgram ExprFacts StateFacts ProgramFacts JointFacts RaiseFacts
  WfFacts SpecInterp.

Section Facts.
  Context (R : Runtime).
  Notation state := (state R).
  Notation dist := (dist R).

  Lemma kept_lift_bind : forall A B (P : state -> A -> Prop) (m : M R A) (f : A -> res B) s, kept R P s (m s) ->
    kept R (fun _ _ => True) s (bind R m (fun a => lift R (f a)) s).
  Proof. intros A B P m f s [K1 [K2 K3]]. unfold bind. destruct (m s) as [s' [a|x]]; (split; [exact K1 | split; [exact K2|]]); cbn; [destruct (f a)|]; exact Logic.I. Qed.

  Lemma set_constant_sinv : forall s n v, sinv R s -> sinv R (set_constant R n v s).
  Proof.
    intros s n v [V T]. assert (L : later R s (set_constant R n v s)) by exact (later_bumped R s n). constructor.
    - intros m d H. exact (dwf_later R s _ d L (V m d H)).
    - intros m. specialize (T m). specialize (L m). lia.
  Qed.

  Lemma change_sinv : forall s c, sinv R s -> sinv R {| st_var := st_var s; st_const := c; st_times := st_times s |}.
  Proof. intros s c [V T]. constructor; [intros m d H; exact (V m d H) | intros m; exact (T m)]. Qed.

  Notation goes s0 s := (sinv R s0 -> sinv R s /\ later R s0 s).
  Notation holds s d := (sinv R s /\ dwf R s d).
  Lemma goes_step : forall s0 s A (P : state -> A -> Prop) r, goes s0 s -> (sinv R s -> kept R P s r) -> goes s0 (fst r).
  Proof. intros s0 s A P r H K I. destruct (H I) as [I1 L]. destruct (K I1) as [K1 [K2 _]]. split; auto. eapply later_trans; eauto. Qed.

  Lemma after_own_kept : (forall s0 s, after R s0 s -> goes s0 s) /\ (forall s d, own R s d -> holds s d).
  Proof.
    apply (after_own R (fun s0 s => goes s0 s) (fun s d => holds s d)).
    - intros s0 I. split; [auto | apply later_refl].
    - intros s0 s lines w s' r _ IH H. apply (goes_step s0 s _ (fun _ _ => True) (s', r) IH). intros I. eapply (roll_kept R lines EmptyDict s I); eauto.
    - intros s0 s lines _ IH. eapply goes_step; [exact IH | intros I; apply (ext_kept R true lines EmptyDict s I)].
    - intros s0 s lines _ IH. eapply goes_step; [exact IH | intros I; apply (ext_kept R false lines EmptyDict s I)].
    - intros s0 s lines _ IH. eapply goes_step; [exact IH | intros I; apply (dist_lines_kept R lines false s I)].
    - intros s0 s lines _ IH. eapply goes_step; [exact IH | intros I; eapply kept_lift_bind; apply (dist_lines_kept R lines false s I)].
    - intros s0 s lines _ IH. eapply goes_step; [exact IH | intros I; eapply kept_lift_bind; apply (dist_lines_kept R lines false s I)].
    - intros s0 s lines _ IH. eapply goes_step; [exact IH | intros I; eapply kept_lift_bind; apply last_dist_kept; [exact I | apply empty_dwf]].
    - intros s0 s lines _ IH. eapply goes_step; [exact IH | intros I; eapply kept_lift_bind; apply last_dist_kept; [exact I | apply empty_dwf]].
    - intros s0 s lines _ IH. eapply goes_step; [exact IH | intros I; eapply kept_lift_bind; apply last_dist_kept; [exact I | apply empty_dwf]].
    - intros s0 s lines _ IH. eapply goes_step; [exact IH | intros I; apply (cost_kept R lines 0 s I)].
    - intros s0 s n v _ IH I. destruct (IH I) as [I1 L1]. split; [now apply set_constant_sinv|]. apply (later_trans R _ s); [exact L1|]. exact (later_bumped R s n).
    - intros s0 s n d _ IH N _ [_ W0] I. destruct (IH I) as [I1 L1]. destruct (set_var_spec R s n d I1 W0 N) as [d' [E [_ [_ W]]]]. rewrite E. cbn [fst].
      split; [now apply sinv_store|]. apply (later_trans R _ s); [exact L1|]. exact (later_bumped R s n).
    - intros s0 s c _ IH I. destruct (IH I) as [I1 L1]. split; [now apply change_sinv|]. intros m. exact (L1 m).
    - intros s n d _ IH H. destruct (IH (sinv_empty R)) as [I _]. split; [exact I|]. now apply (si_var R s I n).
    - intros s m d _ IH H H0. split; [apply (IH (sinv_empty R))|].
      destruct (mk_dist_ints_spec R m) as [d' [E [D [_ [P _]]]]]; [intros [v c] Hvc; exact (H v c Hvc)|]. rewrite H0 in E. injection E as <-.
      split; [exact D|]. intros k Hk. exfalso. revert Hk. unfold dnames. intros [o [Ho Hk]]. exact (create_names R (o_cs o) k (P o Ho) Hk).
    - intros s op a b d _ [I Wa] _ [_ Wb] E. split; [exact I|]. eapply binop_dwf; [exact Wa | exact Wb | exact E].
    - intros s a _ [I W]. split; [exact I|]. now apply unop_dwf.
    - intros s a _ [I W]. split; [exact I|]. now apply unop_dwf.
    - intros s s' d _ [I W] _ IH. destruct (IH I) as [I1 L1]. split; [exact I1|]. now apply (dwf_later R s).
  Qed.
  Lemma after_kept : forall s0 s, sinv R s0 -> after R s0 s -> sinv R s /\ later R s0 s.
  Proof. intros s0 s I H. now apply after_own_kept. Qed.
  Lemma own_dwf : forall s d, own R s d -> dwf R s d.
  Proof. intros s d H. now apply after_own_kept. Qed.

  Lemma reachable_sinv : forall s, reachable R s -> sinv R s.
  Proof. intros s H. apply (after_kept (empty_state R) s (sinv_empty R) H). Qed.

  Lemma obtainable_dinv : forall d, obtainable R d -> dinv R d.
  Proof.
    intros d H. induction H.
    - destruct (dist_lines_kept R lines false s (reachable_sinv s H)) as [_ [_ K]]. unfold get_probability_distributions in H0.
      rewrite H0 in K. cbn [fst snd] in K. apply (K n d H1).
    - destruct (last_dist_kept R lines (empty_dist R) s (reachable_sinv s H) (empty_dwf R s)) as [_ [_ K]]. rewrite H0 in K. cbn in K. apply K.
    - apply (own_dwf s d H).
    - destruct (mk_dist_ints_spec R m) as [d' [E [I _]]]; [intros [v c] Hvc; exact (H v c Hvc)|]. congruence.
    - eapply d_binop_inv_preserved; [exact IHobtainable1 | exact IHobtainable2 | eauto].
    - apply d_unop_inv; auto.
    - apply d_unop_inv; auto.
  Qed.

  (** ** get_probability_distributions *)
  Lemma dist_lines_run : forall p lines s ran, p <> [] -> program_text lines p ->
    dist_lines R ran lines s = (fst (run R true p s), rmap (fun _ => st_var (fst (run R true p s))) (snd (run R true p s))) /\
    forall d, snd (run R true p s) = Ok d -> dget text_eqb (st_var (fst (run R true p s))) stdout = Some d.
  Proof.
    induction p as [|l p IH]; intros lines s ran Hp HT; [congruence|]. clear Hp. inversion HT as [|t l' ts p' Ht HT']; subst.
    cbn [dist_lines]. unfold dist_line. unfold bind at 1. unfold bind at 1. unfold lift at 1. rewrite Ht. unfold bind at 1. destruct p as [|l2 p].
    - inversion HT'; subst. cbn [run dist_lines]. unfold bind. destruct (dist_of R (line_expr l) s) as [s1 [d|x]]; cbn [fst snd rmap after_line].
      + split; [reflexivity|]. intros d' E. injection E as <-. cbn. now rewrite (dget_dset_same text_eqb text_eqb_iff).
      + split; [reflexivity | discriminate].
    - change (run R true (l :: l2 :: p)) with (bind R (dist_of R (line_expr l)) (fun d s => run R true (l2 :: p) (after_line R true d s))).
      unfold bind at 1. destruct (dist_of R (line_expr l) s) as [s1 [d|x]] eqn:E; cbn [after_line].
      + destruct (IH ts (set_stdout_var R d s1) true) as [H1 H2]; [discriminate | auto|]. unfold bind. rewrite E. split; auto.
      + unfold bind. rewrite E. cbn [fst snd rmap]. split; [reflexivity | discriminate].
  Qed.

  Lemma reports_run : forall p lines s d, p <> [] -> program_text lines p ->
    (reports R s lines d <-> exists s', run R true p s = (s', Ok d)).
  Proof.
    intros p lines s d Hp HT. destruct (dist_lines_run p lines s false Hp HT) as [E H]. unfold reports, get_probability_distributions. rewrite E.
    destruct (run R true p s) as [s' [d'|x]]; cbn [fst snd rmap] in *.
    - specialize (H d' eq_refl). split.
      + intros [s2 [dict [E2 G]]]. injection E2 as <- <-. exists s'. congruence.
      + intros [s2 E2]. injection E2 as <- <-. exists s', (st_var s'). auto.
    - split; [intros [s2 [dict [E2 _]]]; discriminate | intros [s2 E2]; discriminate].
  Qed.

  Lemma raises_run : forall p lines s x, p <> [] -> program_text lines p ->
    (distribution_raises R s lines x <-> exists s', run R true p s = (s', Raise x)).
  Proof.
    intros p lines s x Hp HT. destruct (dist_lines_run p lines s false Hp HT) as [E H]. unfold distribution_raises, get_probability_distributions. rewrite E.
    destruct (run R true p s) as [s' [d'|y]]; cbn [fst snd rmap]; split.
    - discriminate.
    - intros [s2 E2]. discriminate.
    - intros E2. injection E2 as <-. eauto.
    - intros [s2 E2]. now injection E2 as <- <-.
  Qed.

  (** the distribution drawn by a histogram *)
  Lemma last_dist_run : forall p lines s d0, p <> [] -> program_text lines p -> last_dist R d0 lines s = run R false p s.
  Proof.
    induction p as [|l p IH]; intros lines s d0 Hp HT; [congruence|]. clear Hp. inversion HT as [|t l' ts p' Ht HT']; subst.
    cbn [last_dist]. unfold bind at 1. unfold lift at 1. rewrite Ht. destruct p as [|l2 p].
    - inversion HT'; subst. cbn [run last_dist]. unfold bind. destruct (dist_of R (line_expr l) s) as [s1 [d|x]]; reflexivity.
    - change (run R false (l :: l2 :: p)) with (bind R (dist_of R (line_expr l)) (fun d s => run R false (l2 :: p) (after_line R false d s))).
      unfold bind. destruct (dist_of R (line_expr l) s) as [s1 [d|x]]; cbn [after_line]; auto. apply IH; [discriminate | auto].
  Qed.
End Facts.
