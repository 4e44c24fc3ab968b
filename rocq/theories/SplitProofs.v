(** * SplitProofs: C77 *)
From Coq Require Import QArith Qabs Permutation Lqa.
From Verif Require Import Py PyFacts PyFloat Constraint Distribution DistFacts DiceModel Expr Parser Interp Instances SpecDice DiceFacts DiceProofs SpecProgram SpecRoll
  SpecInterp SpecAlgebra SpecInline AlgebraFacts ExprFacts ProgramFacts JointFacts RaiseFacts WfFacts InterpRun RollFacts InlineFacts InlineProofs ProgramProofs RollProofs
  Checks SpecProb ProbProofs CostProofs SpecExchange ExchangeProofs SpecBetter BetterProofs SpecFormula FormulaProofs SpecCases CaseProofs PartProofs SpecCost SpecAfresh SpecSplit SpecAlgebra.
Local Open Scope Z_scope.

(** ** Names *)
Definition reads_none (n : text) (p : program) : Prop := forall m f, In (m, f) p -> ~ In n (reads f).
Lemma closed_reads : forall p kn m f k, closed kn p -> In (m, f) p -> In k (reads f) -> In k kn \/ assigned p k.
Proof.
  induction p as [|[a g] p IH]; intros kn m f k C I H; [destruct I|]. destruct C as [C1 C2]. destruct I as [E|I].
  - injection E as -> ->. left. now apply C1.
  - destruct (IH _ m f k C2 I H) as [X|[e X]]; [|right; exists e; now right]. destruct a as [a|]; [|now left].
    destruct X as [<-|X]; [right; exists g; now left | now left].
Qed.
Lemma assigned_last : forall q e n, assigned (q ++ [(None, e)]) n -> assigned q n.
Proof. intros q e n [f I]. exists f. apply in_app_or in I. destruct I as [I|[I|[]]]; [exact I | discriminate]. Qed.
Lemma never_read : forall n e, ~ In n (reads e) -> times_read n e = 0.
Proof.
  intros n e H. unfold times_read. induction (reads e) as [|k l IH]; [reflexivity|]. cbn [filter]. destruct (text_eqb n k) eqn:X.
  - apply text_eqb_eq in X. subst. destruct H. now left.
  - apply IH. intros I. apply H. now right.
Qed.
Lemma text_neqb : forall a b : text, a <> b -> text_eqb a b = false.
Proof. intros a b H. destruct (text_eqb a b) eqn:X; [apply text_eqb_eq in X; contradiction | reflexivity]. Qed.
Lemma uses_some : forall n k f q (l : option text * expr), uses n ((Some k, f) :: q ++ [l]) = times_read n f * uses k (q ++ [l]) + (if text_eqb n k then 0 else uses n (q ++ [l])).
Proof. intros n k f [|a q] l; reflexivity. Qed.
Lemma uses_none : forall n f q (l : option text * expr), uses n ((None, f) :: q ++ [l]) = uses n (q ++ [l]).
Proof. intros n f [|a q] l; reflexivity. Qed.
Lemma cons_app : forall A (x : A) l r, (x :: l) ++ r = x :: l ++ r.
Proof. reflexivity. Qed.

Section Split.
  Context (E e1 e2 : expr) (O : forall n, times_read n E = times_read n e1 + times_read n e2).

  Lemma uses_through : forall n q, ~ assigned q n -> reads_none n q -> uses n (q ++ [(None, E)]) = times_read n E.
  Proof.
    intros n. induction q as [|[[k|] f] q IH]; intros A Rn; [reflexivity| |].
    - rewrite cons_app, uses_some, (never_read n f) by (apply (Rn (Some k)); now left). rewrite text_neqb by (intros ->; apply A; exists f; now left).
      rewrite IH; [lia | intros [g I]; apply A; exists g; now right | intros m g I; apply (Rn m); now right].
    - rewrite cons_app, uses_none. apply IH; [intros [g I]; apply A; exists g; now right | intros m g I; apply (Rn m); now right].
  Qed.
  Lemma uses_first : forall q2 q1 n, (forall k, k = n \/ assigned q1 k -> ~ assigned q2 k /\ reads_none k q2 /\ ~ In k (reads e2)) ->
    uses n (q1 ++ q2 ++ [(None, E)]) = uses n (q1 ++ [(None, e1)]).
  Proof.
    intros q2. induction q1 as [|[[k|] f] q1 IH]; intros n H.
    - cbn [app uses]. destruct (H n (or_introl eq_refl)) as [A [B C]]. rewrite uses_through by assumption. rewrite O, (never_read n e2 C). lia.
    - rewrite !cons_app, !app_assoc, !uses_some, <- !app_assoc, !IH; [reflexivity | |]; intros k' [->|[g I]]; apply H; eauto.
      + right. exists g. now right.
      + right. exists f. now left.
      + right. exists g. now right.
    - rewrite !cons_app, !app_assoc, !uses_none, <- !app_assoc. apply IH. intros k' [->|[g I]]; apply H; auto. right. exists g. now right.
  Qed.
  Lemma uses_second : forall q n, (forall k, k = n \/ assigned q k -> ~ In k (reads e1)) -> uses n (q ++ [(None, E)]) = uses n (q ++ [(None, e2)]).
  Proof.
    induction q as [|[[k|] f] q IH]; intros n H.
    - cbn [app uses]. rewrite O, (never_read n e1 (H n (or_introl eq_refl))). lia.
    - rewrite !cons_app, !uses_some, !IH; [reflexivity | |]; intros k' [->|[g I]]; apply H; eauto.
      + right. exists g. now right.
      + right. exists f. now left.
      + right. exists g. now right.
    - rewrite !cons_app, !uses_none. apply IH. intros k' [->|[g I]]; apply H; auto. right. exists g. now right.
  Qed.

  (** ** Values of the variables *)
  Lemma envs_second : forall q env, (forall k, assigned q k -> ~ In k (reads e1)) -> envs E None env q = envs e2 None env q.
  Proof.
    induction q as [|[[k|] f] q IH]; intros env H; cbn [envs]; auto.
    - assert (H' : forall k', assigned q k' -> ~ In k' (reads e1)) by (intros k' [g I]; apply H; exists g; now right).
      rewrite uses_second by (intros k' [->|[g I]]; apply H; [exists f; now left | exists g; now right]). rewrite IH by exact H'. destruct (uses k _ =? 0); auto.
      apply flat_map_ext. intros [x|]; auto. now rewrite IH by exact H'.
    - apply IH. intros k' [g I]. apply H. exists g. now right.
  Qed.
  Lemma envs_first : forall (G : (text -> option Z) -> Z) q2 q1 env, (forall k, assigned q1 k -> ~ assigned q2 k /\ reads_none k q2 /\ ~ In k (reads e2)) ->
    lsum (fun we => fst we * G (snd we)) (envs E None env (q1 ++ q2)) =
    lsum (fun we1 => fst we1 * lsum (fun we2 => fst we2 * G (snd we2)) (envs E None (snd we1) q2)) (envs e1 None env q1).
  Proof.
    intros G q2. induction q1 as [|[[k|] f] q1 IH]; intros env H.
    - cbn [app envs]. rewrite lsum_cons, lsum_nil. cbn [fst snd]. lia.
    - assert (H' : forall k', assigned q1 k' -> ~ assigned q2 k' /\ reads_none k' q2 /\ ~ In k' (reads e2)) by (intros k' [g I]; apply H; exists g; now right).
      rewrite cons_app. cbn [envs]. rewrite <- app_assoc, uses_first by (intros k' [->|[g I]]; apply H; [exists f; now left | exists g; now right]).
      destruct (uses k _ =? 0); [now apply IH|]. rewrite !lsum_flat_map. apply lsum_ext. intros [x|] _; [|reflexivity]. rewrite !lsum_map. cbn [fst snd].
      rewrite (lsum_ext _ _ (fun we => occurrences x (joint faces env f) ^ uses k (q1 ++ [(None, e1)]) * (fst we * G (snd we)))) by (intros; ring).
      rewrite lsum_scale, IH by exact H'. rewrite <- lsum_scale. apply lsum_ext. intros; ring.
    - cbn [app envs]. apply IH. intros k' [g I]. apply H. exists g. now right.
  Qed.
  Lemma envs_other : forall q env w en k, In (w, en) (envs e2 None env q) -> ~ assigned q k -> en k = env k.
  Proof.
    induction q as [|[[m|] f] q IH]; intros env w en k I A; cbn [envs] in I.
    - destruct I as [X|[]]. injection X as _ <-. reflexivity.
    - assert (A' : ~ assigned q k) by (intros [g J]; apply A; exists g; now right). destruct (uses m _ =? 0); [now apply (IH env w)|].
      apply in_flat_map in I. destruct I as [[x|] [_ I]]; [|destruct I]. apply in_map_iff in I. destruct I as [[w' en'] [X I]]. injection X as _ <-. rewrite (IH _ w' en' k I A').
      cbn [bind_value]. rewrite text_neqb; [reflexivity|]. intros ->. apply A. exists f. now left.
    - apply (IH env w); auto. intros [g J]. apply A. exists g. now right.
  Qed.
  Lemma envs_shift : forall (H : list (option Z) -> Z) q en en', (forall k, In k (ulist (q ++ [(None, e2)])) -> en k = en' k) ->
    lsum (fun we => fst we * H (joint faces (snd we) e2)) (envs e2 None en q) = lsum (fun we => fst we * H (joint faces (snd we) e2)) (envs e2 None en' q).
  Proof.
    intros H. induction q as [|[[m|] f] q IH]; intros en en' A; cbn [envs].
    - rewrite !lsum_cons, !lsum_nil. cbn [fst snd]. now rewrite (joint_agree faces e2 en en') by auto.
    - rewrite cons_app in A. destruct (last_cons e2 None q) as [l [r X]]. rewrite X in *. rewrite uses_ulist. destruct (count m (ulist (l :: r)) =? 0) eqn:U.
      + apply Z.eqb_eq in U. apply count_zero in U. apply IH. intros k I. apply A. apply ulist_cons. right. split; [exact I | congruence].
      + apply Z.eqb_neq in U. assert (Hm : In m (ulist (l :: r))) by (destruct (in_dec text_eq_dec m (ulist (l :: r))) as [I|I]; [exact I | apply count_zero in I; lia]).
        rewrite (joint_agree faces f en en') by (intros k I; apply A; apply ulist_cons; auto).
        rewrite !lsum_flat_map. apply lsum_ext. intros [x|] _; [|reflexivity]. rewrite !lsum_map. cbn [fst snd]. set (c := _ ^ _).
        rewrite (lsum_ext _ _ (fun we => c * (fst we * H (joint faces (snd we) e2)))) by (intros; ring). symmetry.
        rewrite (lsum_ext _ _ (fun we => c * (fst we * H (joint faces (snd we) e2)))) by (intros; ring). symmetry.
        rewrite !lsum_scale. f_equal. apply IH. intros k I. cbn [bind_value]. destruct (text_eqb k m) eqn:Y; [reflexivity|]. apply A. apply ulist_cons. right. split; [exact I|].
        intros ->. now rewrite text_eqb_refl in Y.
    - rewrite cons_app in A. destruct (last_cons e2 None q) as [l [r X]]. rewrite X in *. now apply IH.
  Qed.
  Lemma closed_ulist : forall q kn k, closed kn (q ++ [(None, e2)]) -> In k (ulist (q ++ [(None, e2)])) -> In k kn.
  Proof.
    induction q as [|[[m|] f] q IH]; intros kn k C I.
    - destruct C as [C _]. apply C. exact I.
    - rewrite cons_app in *. destruct C as [C1 C2]. destruct (last_cons e2 None q) as [l [r X]]. rewrite X in *. apply ulist_cons in I. destruct I as [[_ I]|[I N]]; [auto|].
      destruct (IH _ k C2 I) as [->|J]; [congruence | exact J].
    - rewrite cons_app in *. destruct C as [C1 C2]. destruct (last_cons e2 None q) as [l [r X]]. rewrite X in *. now apply (IH kn).
  Qed.

  (** the weighted sum over the values of both operands *)
  Lemma envs_both : forall h F q1 q2, (forall env, joint faces env E = both h (joint faces env e1) (joint faces env e2)) ->
    closed [] (q1 ++ [(None, e1)]) -> closed [] (q2 ++ [(None, e2)]) -> separate q1 q2 ->
    lsum (fun we => fst we * lsum F (joint faces (snd we) E)) (envs E None no_values (q1 ++ q2)) =
    lsum (fun we1 => fst we1 * lsum (fun x => lsum (fun we2 => fst we2 * lsum (fun y => F (bothv h x y)) (joint faces (snd we2) e2)) (envs e2 None no_values q2)) (joint faces (snd we1) e1)) (envs e1 None no_values q1).
  Proof.
    intros h F q1 q2 J C1 C2 S.
    assert (Rd : forall q e k, closed [] (q ++ [(None, e)]) -> (exists m f, In (m, f) (q ++ [(None, e)]) /\ In k (reads f)) -> assigned q k).
    { intros q e k C [m [f [I1 I2]]]. destruct (closed_reads _ _ m f k C I1 I2) as [[]|A]. now apply assigned_last in A. }
    assert (Le : forall q (e : expr), In (None, e) (q ++ [(None : option text, e)])) by (intros; apply in_or_app; right; now left).
    rewrite (envs_first (fun en => lsum F (joint faces en E))).
    - apply lsum_ext. intros [w1 en1] I1. cbn [fst snd]. f_equal.
      rewrite envs_second by (intros k A I; apply (S k); [apply (Rd q1 e1 k C1); eauto | exact A]).
      rewrite (lsum_ext _ _ (fun we2 => fst we2 * lsum (fun x => lsum (fun y => F (bothv h x y)) (joint faces (snd we2) e2)) (joint faces en1 e1))).
      + rewrite (envs_shift (fun l => lsum (fun x => lsum (fun y => F (bothv h x y)) l) (joint faces en1 e1)) q2 en1 no_values) by (intros k I; destruct (closed_ulist q2 [] k C2 I)).
        rewrite (lsum_ext _ _ (fun we2 => lsum (fun x => fst we2 * lsum (fun y => F (bothv h x y)) (joint faces (snd we2) e2)) (joint faces en1 e1))) by (intros; now rewrite lsum_scale).
        apply lsum_swap.
      + intros [w2 en2] I2. cbn [fst snd]. f_equal. rewrite J, lsum_both2. rewrite (joint_agree faces e1 en2 en1); [reflexivity|].
        intros k I. apply (envs_other q2 en1 w2 en2 k I2). intros A. apply (S k); [apply (Rd q1 e1 k C1); eauto | exact A].
    - intros k A. split; [intros A2; exact (S k A A2)|]. split; [intros m f I Ir | intros I]; apply (S k A); apply (Rd q2 e2 k C2); [exists m, f; split; [apply in_or_app; now left | exact Ir] | eauto].
  Qed.
End Split.

(** ** What is reported *)
Lemma operands_read : forall E e1 e2 n, operands E = Some (e1, e2) -> times_read n E = times_read n e1 + times_read n e2.
Proof.
  intros E e1 e2 n H. destruct E; cbn [operands] in H; try discriminate; injection H as -> ->; unfold times_read; cbn [reads]; rewrite filter_app, app_length; lia.
Qed.
Lemma operands_joint : forall E e1 e2 sides env, operands E = Some (e1, e2) -> joint sides env E = both (combined E) (joint sides env e1) (joint sides env e2).
Proof. intros E e1 e2 sides env H. destruct E; cbn [operands] in H; try discriminate; injection H as -> ->; reflexivity. Qed.
Lemma operands_dice : forall E e1 e2, operands E = Some (e1, e2) -> dice_of E = dice_of e1 ++ dice_of e2.
Proof. intros E e1 e2 H. destruct E; cbn [operands] in H; try discriminate; injection H as -> ->; reflexivity. Qed.
Lemma operands_reads : forall E e1 e2, operands E = Some (e1, e2) -> reads E = reads e1 ++ reads e2.
Proof. intros E e1 e2 H. destruct E; cbn [operands] in H; try discriminate; injection H as -> ->; reflexivity. Qed.
Lemma closed_join : forall E e1 e2, reads E = reads e1 ++ reads e2 -> forall q2 q1 kn kn2, closed kn (q1 ++ [(None, e1)]) -> closed kn2 (q2 ++ [(None, e2)]) -> (forall k, In k kn2 -> In k kn) ->
  closed kn (q1 ++ q2 ++ [(None, E)]).
Proof.
  intros E e1 e2 Er q2.
  assert (B : forall q kn kn2, (forall k, In k (reads e1) -> In k kn) -> (forall k, In k kn2 -> In k kn) -> closed kn2 (q ++ [(None, e2)]) -> closed kn (q ++ [(None, E)])).
  { induction q as [|[n f] q IH]; intros kn kn2 K1 K2 C; cbn [app closed] in *; destruct C as [C1 C2].
    - split; [|exact Logic.I]. rewrite Er. intros m I. apply in_app_or in I. destruct I; auto.
    - split; [auto|]. apply (IH _ (match n with Some n => n :: kn2 | None => kn2 end)); [| |exact C2]; destruct n as [n|]; auto; intros k I; [right; auto | destruct I as [->|I]; [now left | right; auto]]. }
  induction q1 as [|[n f] q1 IH]; intros kn kn2 C1 C2 K; cbn [app closed] in *.
  - destruct C1 as [C1 _]. now apply (B q2 kn kn2).
  - destruct C1 as [C1 C1']. split; [exact C1|]. apply (IH _ kn2); auto. destruct n; auto. intros k I. right. auto.
Qed.
Lemma good_join : forall E e1 e2 q1 q2, operands E = Some (e1, e2) -> simple E -> good_program (q1 ++ [(None, e1)]) -> good_program (q2 ++ [(None, e2)]) -> good_program ((q1 ++ q2) ++ [(None, E)]).
Proof.
  intros E e1 e2 q1 q2 H Se [_ [C1 G1]] [_ [C2 G2]]. split; [intros X; apply app_eq_nil in X; destruct X; discriminate|]. split.
  - rewrite <- app_assoc. apply (closed_join E e1 e2 (operands_reads E e1 e2 H) q2 q1 [] []); auto.
  - intros n f I. rewrite <- app_assoc in I. apply in_app_or in I. destruct I as [I|I]; [apply G1; apply in_or_app; now left|].
    apply in_app_or in I. destruct I as [I|[I|[]]]; [apply G2; apply in_or_app; now left|]. injection I as <- <-. split; [exact Se | exact Logic.I].
Qed.
Lemma sided_join : forall E e1 e2 q1 q2, operands E = Some (e1, e2) -> sided (q1 ++ [(None, e1)]) -> sided (q2 ++ [(None, e2)]) -> sided ((q1 ++ q2) ++ [(None, E)]).
Proof.
  intros E e1 e2 q1 q2 H S1 S2 m I. unfold program_dice in *. apply in_flat_map in I. destruct I as [[n f] [I1 I2]]. cbn [snd] in I2.
  assert (A : forall q e, sided (q ++ [(None, e)]) -> (exists n f, In (n, f) (q ++ [(None, e)]) /\ In m (dice_of f)) -> m <> []).
  { intros q e Sq [n' [f' [J1 J2]]]. apply Sq. unfold program_dice. apply in_flat_map. exists (n', f'). split; assumption. }
  rewrite <- app_assoc in I1. apply in_app_or in I1. destruct I1 as [I1|I1]; [apply (A q1 e1 S1); exists n, f; split; [apply in_or_app; now left | exact I2]|].
  apply in_app_or in I1. destruct I1 as [I1|[I1|[]]]; [apply (A q2 e2 S2); exists n, f; split; [apply in_or_app; now left | exact I2]|].
  injection I1 as <- <-. rewrite (operands_dice E e1 e2 H) in I2. apply in_app_or in I2.
  destruct I2 as [I2|I2]; [apply (A q1 e1 S1); exists None, e1 | apply (A q2 e2 S2); exists None, e2]; (split; [apply in_or_app; right; now left | exact I2]).
Qed.

Section Reported.
  Context (R : Runtime).
  Notation dist := (dist R).
  Notation keys d := (map fst (get_result_map R d)).

  Section Given.
    Context (E e1 e2 : expr) (q1 q2 : program) (s s1 s2 : state R) (lines lines1 lines2 : list text) (d d1 d2 : dist).
    Context (HE : operands E = Some (e1, e2)) (Se : simple E) (G1 : good_program (q1 ++ [(None, e1)])) (G2 : good_program (q2 ++ [(None, e2)])) (Sp : separate q1 q2).
    Context (T : program_text lines ((q1 ++ q2) ++ [(None, E)])) (T1 : program_text lines1 (q1 ++ [(None, e1)])) (T2 : program_text lines2 (q2 ++ [(None, e2)])).
    Context (Hs : reachable R s) (Hs1 : reachable R s1) (Hs2 : reachable R s2) (Hd : reports R s lines d) (Hd1 : reports R s1 lines1 d1) (Hd2 : reports R s2 lines2 d2).

    Lemma split_sum : forall g, lsum (fun v => g v * reported R d v) (keys d) =
      lsum (fun x => reported R d1 x * lsum (fun y => reported R d2 y * fo g (combined E x y)) (keys d2)) (keys d1).
    Proof.
      intros g. destruct (last_sum R _ _ _ s lines d Hs T (good_join E e1 e2 q1 q2 HE Se G1 G2) Hd) as [_ [A _]]. destruct (last_sum R _ _ _ s1 lines1 d1 Hs1 T1 G1 Hd1) as [_ [A1 _]].
      destruct (last_sum R _ _ _ s2 lines2 d2 Hs2 T2 G2 Hd2) as [_ [A2 _]].
      rewrite A, (envs_both E e1 e2 (fun n => operands_read E e1 e2 n HE) (combined E) (fo g) q1 q2 (fun env => operands_joint E e1 e2 faces env HE) (proj1 (proj2 G1)) (proj1 (proj2 G2)) Sp).
      rewrite (lsum_ext _ (fun x => reported R d1 x * _) (fun x => lsum (fun y => fo g (combined E x y) * reported R d2 y) (keys d2) * reported R d1 x))
        by (intros x _; rewrite Z.mul_comm; f_equal; apply lsum_ext; intros; ring).
      rewrite (A1 (fun x => lsum (fun y => fo g (combined E x y) * reported R d2 y) (keys d2))). apply lsum_ext. intros we1 _. f_equal. apply lsum_ext. intros [x|] _; cbn [fo].
      - rewrite (A2 (fun y => fo g (combined E x y))). apply lsum_ext. intros we2 _. f_equal. apply lsum_ext. intros [y|] _; reflexivity.
      - rewrite (lsum_ext _ _ (fun _ => 0)) by (intros we2 _; rewrite (lsum_ext _ _ (fun _ => 0)) by reflexivity; rewrite lsum_zero; lia). apply lsum_zero.
    Qed.
    Lemma split_inv : dinv R d /\ dinv R d1 /\ dinv R d2.
    Proof.
      split; [|split]; [apply (last_sum R _ _ _ s lines d Hs T (good_join E e1 e2 q1 q2 HE Se G1 G2) Hd) | apply (last_sum R _ _ _ s1 lines1 d1 Hs1 T1 G1 Hd1) | apply (last_sum R _ _ _ s2 lines2 d2 Hs2 T2 G2 Hd2)].
    Qed.
    Lemma total_sum : forall d : dist, dinv R d -> total_ways R d = lsum (fun v => (fun _ => 1) v * reported R d v) (keys d).
    Proof. intros d' D. rewrite (total_count R d' D), <- (reported_sum R d' D). apply lsum_ext. intros; lia. Qed.

    Section Sided.
      Context (S1 : sided (q1 ++ [(None, e1)])) (S2 : sided (q2 ++ [(None, e2)])).
      Lemma split_total : total_ways R d = total_ways R d1 * total_ways R d2.
      Proof.
        destruct split_inv as [D [D1 D2]]. rewrite !total_sum by assumption.
        destruct (last_sum R _ _ _ s lines d Hs T (good_join E e1 e2 q1 q2 HE Se G1 G2) Hd) as [_ [A N]]. destruct (last_sum R _ _ _ s1 lines1 d1 Hs1 T1 G1 Hd1) as [_ [A1 N1]].
        destruct (last_sum R _ _ _ s2 lines2 d2 Hs2 T2 G2 Hd2) as [_ [A2 N2]]. specialize (N (sided_join E e1 e2 q1 q2 HE S1 S2)). specialize (N1 S1). specialize (N2 S2). rewrite A, A1, A2.
        assert (K : forall l, ~ In None l -> lsum (fo (fun _ => 1)) l = lsum (fun _ => 1) l) by (intros l Nl; apply lsum_ext; intros [x|] I; [reflexivity | contradiction]).
        rewrite (lsum_ext _ _ (fun we => fst we * lsum (fun _ => 1) (joint faces (snd we) E))) by (intros [w en] I; cbn [fst snd]; f_equal; apply K; now apply (N w)).
        rewrite (lsum_ext _ (fun we => fst we * lsum (fo _) (joint faces (snd we) e1)) (fun we => fst we * lsum (fun _ => 1) (joint faces (snd we) e1))) by (intros [w en] I; cbn [fst snd]; f_equal; apply K; now apply (N1 w)).
        rewrite (lsum_ext _ (fun we => fst we * lsum (fo _) (joint faces (snd we) e2)) (fun we => fst we * lsum (fun _ => 1) (joint faces (snd we) e2))) by (intros [w en] I; cbn [fst snd]; f_equal; apply K; now apply (N2 w)).
        rewrite (envs_both E e1 e2 (fun n => operands_read E e1 e2 n HE) (combined E) (fun _ => 1) q1 q2 (fun env => operands_joint E e1 e2 faces env HE) (proj1 (proj2 G1)) (proj1 (proj2 G2)) Sp).
        rewrite Z.mul_comm, <- lsum_scale. apply lsum_ext. intros we _. rewrite !lsum_const. ring.
      Qed.
    End Sided.
  End Given.

  Lemma reported_indicator : forall (d : dist) v, lsum (fun w => (if w =? v then 1 else 0) * reported R d w) (keys d) = reported R d v.
  Proof.
    intros d v. destruct (in_dec Z.eq_dec v (keys d)) as [I|I].
    - rewrite (lsum_ext _ _ (fun w => if w =? v then reported R d v else 0)) by (intros w _; destruct (w =? v) eqn:X; [apply Z.eqb_eq in X; subst|]; lia).
      apply (lsum_indicator _ v (fun _ => reported R d v)); [apply result_map_nodup | exact I].
    - rewrite (lsum_ext _ _ (fun _ => 0)).
      + rewrite lsum_zero. symmetry. unfold reported. destruct (dget Z.eqb (get_result_map R d) v) as [c|] eqn:X; auto. exfalso. apply I. clear I.
        induction (get_result_map R d) as [|[k y] r IH]; [discriminate|]. cbn [dget] in X. cbn [map fst]. destruct (k =? v) eqn:K; [apply Z.eqb_eq in K; now left | right; auto].
      + intros w Iw. destruct (w =? v) eqn:X; [apply Z.eqb_eq in X; subst; contradiction | lia].
  Qed.
  Lemma product_sum : forall (d1 d2 : dist) a b,
    lsum (fun x => reported R d1 x * lsum (fun y => reported R d2 y * (a x * b y)) (keys d2)) (keys d1) = lsum (fun x => a x * reported R d1 x) (keys d1) * lsum (fun y => b y * reported R d2 y) (keys d2).
  Proof.
    intros d1 d2 a b. rewrite Z.mul_comm, <- lsum_scale. apply lsum_ext. intros x _.
    rewrite (lsum_ext _ _ (fun y => a x * (b y * reported R d2 y))) by (intros; ring). rewrite lsum_scale. ring.
  Qed.
  Lemma total_pos : forall s lines p (d : dist), reachable R s -> program_text lines p -> good_program p -> rollable p -> reports R s lines d -> 0 < total_ways R d.
  Proof.
    intros s lines p d Hs T G Rp H. assert (N := program_none R s lines p d Hs T G H). assert (NE := results_nonempty p no_values (proj1 G) Rp).
    destruct (program_run R s lines p d Hs T G H) as [s1 [E1 I1]]. assert (D := run_dinv R true p s s1 d I1 G E1).
    assert (X := total_nonneg R d D). destruct (Z.eq_dec (total_ways R d) 0) as [Z0|]; [|lia]. exfalso.
    destruct (results faces no_values p) as [|[x|] l0] eqn:El; [congruence| |apply N; now left]. destruct (results_possible R s lines p d Hs T G Rp H x) as [L _].
    rewrite El in L. apply (proj2 L (or_introl eq_refl)). assert (Y := reported_range R d x (reports_obtainable R s lines d Hs H)). lia.
  Qed.

  Lemma setting_sum : forall E e1 e2 q1 q2 d d1 d2, combines R E e1 e2 q1 q2 d d1 d2 -> dinv R d /\ dinv R d1 /\ dinv R d2 /\
    (forall g, lsum (fun v => g v * reported R d v) (keys d) = lsum (fun x => reported R d1 x * lsum (fun y => reported R d2 y * fo g (combined E x y)) (keys d2)) (keys d1)) /\
    (sided (q1 ++ [(None, e1)]) -> sided (q2 ++ [(None, e2)]) -> total_ways R d = total_ways R d1 * total_ways R d2) /\
    (rollable (q1 ++ [(None, e1)]) -> 0 < total_ways R d1) /\ (rollable (q2 ++ [(None, e2)]) -> 0 < total_ways R d2).
  Proof.
    intros E e1 e2 q1 q2 d d1 d2 [HE [Se [G1 [G2 [Sp [s [s1 [s2 [lines [lines1 [lines2 [Hs [Hs1 [Hs2 [T [T1 [T2 [H [H1 H2]]]]]]]]]]]]]]]]]]]. rewrite app_assoc in T.
    destruct (split_inv E e1 e2 q1 q2 s s1 s2 lines lines1 lines2 d d1 d2 HE Se G1 G2 T T1 T2 Hs Hs1 Hs2 H H1 H2) as [D [D1 D2]]. split; [exact D|]. split; [exact D1|]. split; [exact D2|].
    split; [intros g; now apply (split_sum E e1 e2 q1 q2 s s1 s2 lines lines1 lines2)|]. split; [intros S1 S2; now apply (split_total E e1 e2 q1 q2 s s1 s2 lines lines1 lines2)|].
    split; intros Rp; [now apply (total_pos s1 lines1 _ d1 Hs1 T1 G1) | now apply (total_pos s2 lines2 _ d2 Hs2 T2 G2)].
  Qed.

  Lemma split_ways : forall E e1 e2 q1 q2 d d1 d2, combines R E e1 e2 q1 q2 d d1 d2 ->
    forall v, reported R d v = zsum (map (fun xc => zsum (map (fun yc => if gives E (fst xc) (fst yc) v then snd xc * snd yc else 0) (get_result_map R d2))) (get_result_map R d1)).
  Proof.
    intros E e1 e2 q1 q2 d d1 d2 H v. destruct (setting_sum _ _ _ _ _ _ _ _ H) as [D [D1 [D2 [A _]]]]. specialize (A (fun w => if w =? v then 1 else 0)). cbv beta in A. rewrite reported_indicator in A. rewrite A.
    rewrite (lsum_ext _ _ (fun x => lsum (fun y => (if gives E x y v then 1 else 0) * reported R d2 y) (keys d2) * reported R d1 x)).
    - rewrite <- (weighted_ways R d1 (fun x => lsum (fun y => (if gives E x y v then 1 else 0) * reported R d2 y) (keys d2))). f_equal. apply map_ext. intros [x c]. cbn [fst snd].
      rewrite <- (weighted_ways R d2 (fun y => if gives E x y v then 1 else 0)). generalize (get_result_map R d2). intros l. induction l as [|[y c'] l IH]; [reflexivity|]. cbn [map fst snd].
      rewrite !zsum_cons, <- IH. destruct (gives E x y v); ring.
    - intros x _. rewrite Z.mul_comm. f_equal. apply lsum_ext. intros y _. unfold gives. destruct (combined E x y) as [w|]; cbn [fo]; [destruct (w =? v)|]; lia.
  Qed.

  Lemma split_expected : forall E e1 e2 q1 q2 d d1 d2, combines R E e1 e2 q1 q2 d d1 d2 -> sided (q1 ++ [(None, e1)]) -> sided (q2 ++ [(None, e2)]) ->
    forall g, (expected R d g == inject_Z (lsum (fun x => reported R d1 x * lsum (fun y => reported R d2 y * fo g (combined E x y)) (keys d2)) (keys d1))%Z / (inject_Z (total_ways R d1) * inject_Z (total_ways R d2)))%Q.
  Proof.
    intros E e1 e2 q1 q2 d d1 d2 H S1 S2 g. destruct (setting_sum _ _ _ _ _ _ _ _ H) as [D [D1 [D2 [A [B _]]]]]. unfold expected. now rewrite A, (B S1 S2), inject_Z_mult.
  Qed.
  Lemma ratio_product : forall a b c d : Q, (a * b / (c * d) == (a / c) * (b / d))%Q.
  Proof. intros a b c d. unfold Qdiv. rewrite Qinv_mult_distr. ring. Qed.
  Lemma product_expected : forall E e1 e2 q1 q2 d d1 d2, combines R E e1 e2 q1 q2 d d1 d2 -> sided (q1 ++ [(None, e1)]) -> sided (q2 ++ [(None, e2)]) ->
    forall g a b, (forall x y, fo g (combined E x y) = a x * b y) -> (expected R d g == expected R d1 a * expected R d2 b)%Q.
  Proof.
    intros E e1 e2 q1 q2 d d1 d2 H S1 S2 g a b F. rewrite (split_expected _ _ _ _ _ _ _ _ H S1 S2 g).
    rewrite (lsum_ext _ _ (fun x => reported R d1 x * lsum (fun y => reported R d2 y * (a x * b y)) (keys d2))) by (intros x _; f_equal; apply lsum_ext; intros y _; now rewrite F).
    rewrite product_sum, inject_Z_mult. apply ratio_product.
  Qed.

  Lemma split_probability : forall E e1 e2 q1 q2 d d1 d2, combines R E e1 e2 q1 q2 d d1 d2 -> sided (q1 ++ [(None, e1)]) -> sided (q2 ++ [(None, e2)]) ->
    forall v, (probability R d v == qtotal (map (fun x => qtotal (map (fun y => if gives E x y v then probability R d1 x * probability R d2 y else 0) (keys d2))) (keys d1)))%Q.
  Proof.
    intros E e1 e2 q1 q2 d d1 d2 H S1 S2 v. rewrite <- expected_probability, (split_expected _ _ _ _ _ _ _ _ H S1 S2). symmetry.
    apply (qtotal_scaled _ _ (fun x => reported R d1 x * lsum (fun y => reported R d2 y * fo (fun w => if w =? v then 1 else 0) (combined E x y)) (keys d2))).
    intros x _. rewrite <- lsum_scale. apply (qtotal_scaled _ _ (fun y => reported R d1 x * (reported R d2 y * fo (fun w => if w =? v then 1 else 0) (combined E x y)))). intros y _.
    assert (X : fo (fun w => if w =? v then 1 else 0) (combined E x y) = if gives E x y v then 1 else 0) by (unfold gives; destruct (combined E x y); reflexivity). rewrite X.
    destruct (gives E x y v); [|rewrite !Z.mul_0_r; ring]. rewrite Z.mul_1_r, inject_Z_mult. unfold probability. symmetry. apply ratio_product.
  Qed.

  Lemma expected_at_most : forall d v, (expected R d (fun w => if (w <=? v)%Z then 1 else 0)%Z == probability_at_most R d v)%Q.
  Proof. intros d v. unfold expected, probability_at_most. now rewrite ways_where_reported. Qed.
  Lemma split_max : forall e1 e2 q1 q2 d d1 d2, combines R (EMinMax $"MAX" e1 e2) e1 e2 q1 q2 d d1 d2 -> sided (q1 ++ [(None, e1)]) -> sided (q2 ++ [(None, e2)]) ->
    forall v, (probability_at_most R d v == probability_at_most R d1 v * probability_at_most R d2 v)%Q.
  Proof.
    intros e1 e2 q1 q2 d d1 d2 H S1 S2 v. rewrite <- !expected_at_most. apply (product_expected _ _ _ _ _ _ _ _ H S1 S2). intros x y. cbn [combined].
    change (minmax_meaning $"MAX") with (Some Z.max). cbn [fo]. destruct (Z.leb_spec (Z.max x y) v), (Z.leb_spec x v), (Z.leb_spec y v); lia.
  Qed.
  Lemma split_min : forall e1 e2 q1 q2 d d1 d2, combines R (EMinMax $"MIN" e1 e2) e1 e2 q1 q2 d d1 d2 -> sided (q1 ++ [(None, e1)]) -> sided (q2 ++ [(None, e2)]) ->
    forall v, (probability_at_least R d v == probability_at_least R d1 v * probability_at_least R d2 v)%Q.
  Proof.
    intros e1 e2 q1 q2 d d1 d2 H S1 S2 v. rewrite <- !expected_at_least. apply (product_expected _ _ _ _ _ _ _ _ H S1 S2). intros x y. cbn [combined].
    change (minmax_meaning $"MIN") with (Some Z.min). cbn [fo]. destruct (Z.leb_spec v (Z.min x y)), (Z.leb_spec v x), (Z.leb_spec v y); lia.
  Qed.
  Lemma split_product : forall e1 e2 q1 q2 d d1 d2, combines R (EMul e1 e2) e1 e2 q1 q2 d d1 d2 -> sided (q1 ++ [(None, e1)]) -> sided (q2 ++ [(None, e2)]) -> (mean R d == mean R d1 * mean R d2)%Q.
  Proof.
    intros e1 e2 q1 q2 d d1 d2 H S1 S2. destruct (setting_sum _ _ _ _ _ _ _ _ H) as [D [D1 [D2 _]]]. rewrite <- !expected_mean by assumption. now apply (product_expected _ _ _ _ _ _ _ _ H S1 S2).
  Qed.

  (** ** Sums and differences *)
  Lemma moment_variance : forall d, dinv R d -> 0 < total_ways R d ->
    (variance R d == expected R d (fun v => v * v)%Z - mean R d * mean R d)%Q.
  Proof.
    intros d D P. assert (Z0 : ~ (inject_Z (total_ways R d) == 0)%Q) by (unfold Qeq, inject_Z; cbn [Qnum Qden]; lia). unfold variance.
    set (mu := mean R d). assert (Em : (mu == inject_Z (lsum (fun v => v * reported R d v) (keys d))%Z / inject_Z (total_ways R d))%Q) by (unfold mu; now rewrite <- (expected_mean R d D)).
    assert (A : forall l m, (qtotal (map (fun x => inject_Z (reported R d x) / inject_Z (total_ways R d) * ((inject_Z x - m) * (inject_Z x - m))) l) ==
      (inject_Z (lsum (fun v => v * v * reported R d v) l)%Z - 2 * m * inject_Z (lsum (fun v => v * reported R d v) l)%Z + m * m * inject_Z (lsum (fun v => 1 * reported R d v) l)%Z) / inject_Z (total_ways R d))%Q).
    { induction l as [|x l IH]; intros m; [cbn; field; exact Z0|]. cbn [map qtotal fold_right]. fold (qtotal (map (fun x => inject_Z (reported R d x) / inject_Z (total_ways R d) * ((inject_Z x - m) * (inject_Z x - m))) l)%Q).
      rewrite IH, !lsum_cons, !inject_Z_plus, !inject_Z_mult. change (inject_Z 1) with 1%Q. field. exact Z0. }
    unfold probability. rewrite (A (keys d) mu), <- (total_sum d D). unfold expected. rewrite Em. field. exact Z0.
  Qed.
  Lemma split_moments : forall E e1 e2 (sg : Z) q1 q2 d d1 d2, combines R E e1 e2 q1 q2 d d1 d2 -> (forall x y, combined E x y = Some (x + sg * y)) -> sg * sg = 1 ->
    rollable (q1 ++ [(None, e1)]) -> rollable (q2 ++ [(None, e2)]) -> (mean R d == mean R d1 + inject_Z sg * mean R d2)%Q /\ (variance R d == variance R d1 + variance R d2)%Q.
  Proof.
    intros E e1 e2 sg q1 q2 d d1 d2 H C Sg R1 R2. destruct (setting_sum _ _ _ _ _ _ _ _ H) as [D [D1 [D2 [A [B [P1 P2]]]]]]. specialize (P1 R1). specialize (P2 R2).
    specialize (B (rollable_sided _ R1) (rollable_sided _ R2)). assert (P : 0 < total_ways R d) by (rewrite B; now apply Z.mul_pos_pos).
    set (M k d := lsum (fun v => k v * reported R d v) (keys d)).
    assert (T : forall d, dinv R d -> total_ways R d = M (fun _ => 1) d) by (intros; now apply total_sum).
    assert (F : forall g (l : list ((Z -> Z) * (Z -> Z))), (forall x y, g (x + sg * y) = zsum (map (fun ab => fst ab x * snd ab y) l)) -> M g d = zsum (map (fun ab => M (fst ab) d1 * M (snd ab) d2) l)).
    { intros g l Hg. unfold M. rewrite A.
      rewrite (lsum_ext _ _ (fun x => reported R d1 x * lsum (fun y => reported R d2 y * zsum (map (fun ab => fst ab x * snd ab y) l)) (keys d2)))
        by (intros x _; f_equal; apply lsum_ext; intros y _; rewrite C; cbn [fo]; now rewrite Hg).
      clear Hg. induction l as [|[a b] l IH].
      - cbn [map]. change (zsum []) with 0. rewrite (lsum_ext _ _ (fun _ => 0)); [apply lsum_zero|]. intros x _. rewrite (lsum_ext _ _ (fun _ => 0)) by (intros; lia). rewrite lsum_zero. lia.
      - cbn [map fst snd]. rewrite zsum_cons, <- IH, <- product_sum, <- lsum_add. apply lsum_ext. intros x _. rewrite <- Z.mul_add_distr_l. f_equal. rewrite <- lsum_add. apply lsum_ext. intros y _.
        rewrite zsum_cons. ring. }
    assert (F1 := F (fun v => v) [((fun x => x), (fun _ => 1)); ((fun _ => sg), (fun y => y))] ltac:(intros x y; cbn [map fst snd]; rewrite !zsum_cons; change (zsum []) with 0; ring)).
    assert (F2 := F (fun v => v * v) [((fun x => x * x), (fun _ => 1)); ((fun x => 2 * sg * x), (fun y => y)); ((fun _ => 1), (fun y => y * y))]
      ltac:(intros x y; cbn [map fst snd]; rewrite !zsum_cons; change (zsum []) with 0; transitivity (x * x + 2 * sg * x * y + sg * sg * (y * y)); [ring | rewrite Sg; ring])).
    cbn [map fst snd] in F1, F2. rewrite !zsum_cons in F1. rewrite !zsum_cons in F2. change (zsum []) with 0 in F1, F2.
    assert (K : forall c k d, M (fun x => c * k x) d = c * M k d) by (intros c k d0; unfold M; rewrite <- lsum_scale; apply lsum_ext; intros; ring).
    assert (Ks : M (fun _ => sg) d1 = sg * M (fun _ => 1) d1) by (rewrite <- K; unfold M; apply lsum_ext; intros; ring). rewrite Ks in F1. rewrite (K (2 * sg) (fun x => x)) in F2. rewrite <- !T in F1, F2 by assumption.
    assert (Q1 : ~ (inject_Z (total_ways R d1) == 0)%Q) by (unfold Qeq, inject_Z; cbn [Qnum Qden]; lia). assert (Q2 : ~ (inject_Z (total_ways R d2) == 0)%Q) by (unfold Qeq, inject_Z; cbn [Qnum Qden]; lia).
    assert (Me : (mean R d == mean R d1 + inject_Z sg * mean R d2)%Q).
    { rewrite <- !expected_mean by assumption. unfold expected. fold (M (fun v => v) d) (M (fun v => v) d1) (M (fun v => v) d2). rewrite F1, B, !inject_Z_plus, !inject_Z_mult. change (inject_Z 0) with 0%Q. field. auto. }
    split; [exact Me|]. rewrite !moment_variance by assumption. rewrite Me, <- !(expected_mean R) by assumption. unfold expected.
    fold (M (fun v => v * v) d) (M (fun v => v * v) d1) (M (fun v => v * v) d2) (M (fun v => v) d1) (M (fun v => v) d2). rewrite F2, B, !inject_Z_plus, !inject_Z_mult. change (inject_Z 0) with 0%Q. change (inject_Z 2) with 2%Q.
    assert (Sq : (inject_Z sg * inject_Z sg == 1)%Q) by (rewrite <- inject_Z_mult, Sg; reflexivity). set (q := inject_Z sg) in *. clearbody q.
    set (a := inject_Z (M (fun v => v) d1)). set (b := inject_Z (M (fun v => v) d2)). set (aa := inject_Z (M (fun v => v * v) d1)). set (bb := inject_Z (M (fun v => v * v) d2)).
    set (t1 := inject_Z (total_ways R d1)) in *. set (t2 := inject_Z (total_ways R d2)) in *.
    transitivity (aa / t1 - a / t1 * (a / t1) + (bb / t2 - (q * q) * (b / t2 * (b / t2))))%Q; [field; auto | rewrite Sq; field; auto].
  Qed.
  Lemma split_add : forall e1 e2 q1 q2 d d1 d2, combines R (EAdd e1 e2) e1 e2 q1 q2 d d1 d2 -> rollable (q1 ++ [(None, e1)]) -> rollable (q2 ++ [(None, e2)]) ->
    (mean R d == mean R d1 + mean R d2)%Q /\ (variance R d == variance R d1 + variance R d2)%Q.
  Proof.
    intros e1 e2 q1 q2 d d1 d2 H R1 R2. destruct (split_moments _ _ _ 1 _ _ _ _ _ H ltac:(intros; cbn [combined]; f_equal; ring) eq_refl R1 R2) as [A B]. split; [|exact B]. rewrite A. change (inject_Z 1) with 1%Q. ring.
  Qed.
  Lemma split_sub : forall e1 e2 q1 q2 d d1 d2, combines R (ESub e1 e2) e1 e2 q1 q2 d d1 d2 -> rollable (q1 ++ [(None, e1)]) -> rollable (q2 ++ [(None, e2)]) ->
    (mean R d == mean R d1 - mean R d2)%Q /\ (variance R d == variance R d1 + variance R d2)%Q.
  Proof.
    intros e1 e2 q1 q2 d d1 d2 H R1 R2. destruct (split_moments _ _ _ (-1) _ _ _ _ _ H ltac:(intros; cbn [combined]; f_equal; ring) eq_refl R1 R2) as [A B]. split; [|exact B]. rewrite A. change (inject_Z (-1)) with (- (1))%Q. ring.
  Qed.
End Reported.

(** ** roll() *)
(** the sum of [K] over the values of the variables after the lines [q] *)
Fixpoint paths (q : program) (env : text -> option Z) (K : (text -> option Z) -> Z) : Z :=
  match q with
  | [] => K env
  | (n, f) :: q' => lsum (fo (fun x => paths q' (bind_value env n x) K)) (rolled env f)
  end.
Lemma lsum_fo_ext : forall f g l, (forall x, f x = g x) -> lsum (fo f) l = lsum (fo g) l.
Proof. intros f g l H. apply lsum_ext. intros [x|] _; cbn [fo]; auto. Qed.
Lemma paths_program : forall g r q env, r <> [] -> lsum (fo g) (rolled_program env (q ++ r)) = paths q env (fun en => lsum (fo g) (rolled_program en r)).
Proof.
  intros g r. induction q as [|[n f] q IH]; intros env N; [reflexivity|]. cbn [paths]. rewrite cons_app. destruct (q ++ r) as [|l t] eqn:X; [apply app_eq_nil in X; tauto|].
  rewrite rolled_cons, lsum_flat_map. apply lsum_ext. intros [x|] _; cbn [fo]; [now apply IH | now rewrite lsum_cons, lsum_nil].
Qed.
Lemma paths_ext : forall q env K K', (forall en, (forall k, ~ assigned q k -> en k = env k) -> K en = K' en) -> paths q env K = paths q env K'.
Proof.
  induction q as [|[n f] q IH]; intros env K K' H; cbn [paths]; [now apply H|]. apply lsum_fo_ext. intros x. apply IH. intros en A. apply H. intros k Nk.
  rewrite A by (intros [g I]; apply Nk; exists g; now right). destruct n as [n|]; [|reflexivity]. cbn [bind_value]. rewrite text_neqb; [reflexivity|]. intros ->. apply Nk. exists f. now left.
Qed.
Lemma paths_swap : forall (h : Z -> (text -> option Z) -> Z) l q env, paths q env (fun en => lsum (fo (fun x => h x en)) l) = lsum (fo (fun x => paths q env (h x))) l.
Proof.
  intros h l. induction q as [|[n f] q IH]; intros env; cbn [paths]; [reflexivity|]. rewrite (lsum_fo_ext _ _ _ (fun x => IH (bind_value env n x))).
  transitivity (lsum (fun y => lsum (fun x => fo (fun x => fo (fun y => paths q (bind_value env n y) (h x)) y) x) l) (rolled env f)).
  - apply lsum_ext. intros [y|] _; cbn [fo]; [reflexivity|]. rewrite (lsum_ext _ _ (fun _ => 0)) by (intros [x|] _; reflexivity). now rewrite lsum_zero.
  - rewrite lsum_swap. apply lsum_ext. intros [x|] _; cbn [fo]; [reflexivity | apply lsum_zero].
Qed.
Lemma paths_shift : forall e (H : list (option Z) -> Z) q kn en en', closed kn (q ++ [(None, e)]) -> (forall k, In k kn -> en k = en' k) ->
  paths q en (fun en => H (rolled en e)) = paths q en' (fun en => H (rolled en e)).
Proof.
  intros e H. induction q as [|[n f] q IH]; intros kn en en' [C1 C2] A; cbn [paths].
  - now rewrite (rolled_agree e en en') by auto.
  - rewrite (rolled_agree f en en') by auto. apply lsum_fo_ext. intros x. apply (IH _ _ _ C2). destruct n as [n|]; [|exact A]. cbn [bind_value]. intros k [<-|I]; [now rewrite text_eqb_refl | destruct (text_eqb k n); auto].
Qed.
Lemma operands_rolled : forall E e1 e2 env, operands E = Some (e1, e2) -> rolled env E = both (roll_combined E) (rolled env e1) (rolled env e2).
Proof. intros E e1 e2 env H. destruct E; cbn [operands] in H; try discriminate; injection H as -> ->; reflexivity. Qed.
Lemma rolled_split : forall E e1 e2 q1 q2 g, operands E = Some (e1, e2) -> closed [] (q1 ++ [(None, e1)]) -> closed [] (q2 ++ [(None, e2)]) -> separate q1 q2 ->
  lsum (fo g) (rolled_program no_values (q1 ++ q2 ++ [(None, E)])) =
  lsum (fo (fun x => lsum (fo (fun y => fo g (roll_combined E x y))) (rolled_program no_values (q2 ++ [(None, e2)])))) (rolled_program no_values (q1 ++ [(None, e1)])).
Proof.
  intros E e1 e2 q1 q2 g HE C1 C2 Sp. rewrite !paths_program by (try discriminate; intros X; apply app_eq_nil in X; destruct X; discriminate). apply paths_ext. intros en1 _.
  rewrite paths_program by discriminate. cbn [rolled_program].
  rewrite (lsum_fo_ext _ (fun x => paths q2 en1 (fun en => lsum (fo (fun y => fo g (roll_combined E x y))) (rolled en e2)))).
  - rewrite <- (paths_swap (fun x en => lsum (fo (fun y => fo g (roll_combined E x y))) (rolled en e2))). apply paths_ext. intros en2 A. rewrite (operands_rolled E e1 e2 en2 HE), lsum_both2.
    rewrite (rolled_agree e1 en2 en1).
    + apply lsum_ext. intros [x|] _; cbn [fo]; [apply lsum_ext; intros [y|] _; reflexivity|]. rewrite (lsum_ext _ _ (fun _ => 0)) by reflexivity. apply lsum_zero.
    + intros k I. apply A. intros Ak. destruct (closed_reads _ _ None e1 k C1 ltac:(apply in_or_app; right; now left) I) as [[]|B]. apply assigned_last in B. exact (Sp k B Ak).
  - intros x. rewrite paths_program by discriminate. cbn [rolled_program]. apply (paths_shift e2 (fun l => lsum (fo (fun y => fo g (roll_combined E x y))) l) q2 [] _ _ C2). intros k [].
Qed.
Lemma lsum_positive : forall f l, (forall x : Z, 0 <= f x) -> (0 < lsum (fo f) l <-> exists x, In (Some x) l /\ 0 < f x).
Proof.
  intros f l P. induction l as [|[x|] l IH].
  - rewrite lsum_nil. split; [lia | intros [x [[] _]]].
  - rewrite lsum_cons. cbn [fo]. assert (0 <= lsum (fo f) l) by (apply lsum_nonneg; intros [y|] _; cbn [fo]; [apply P | lia]). specialize (P x) as Px. split.
    + intros Q. destruct (Z.eq_dec (f x) 0) as [Z0|]; [|exists x; split; [now left | lia]]. destruct (proj1 IH ltac:(lia)) as [y [I Y]]. exists y. split; [now right | exact Y].
    + intros [y [[X|I] Y]]; [injection X as ->; lia|]. assert (0 < lsum (fo f) l) by (apply IH; eauto). lia.
  - rewrite lsum_cons. cbn [fo]. rewrite Z.add_0_l, IH. split; intros [y [I Y]]; exists y; (split; [|exact Y]); [now right | destruct I as [I|I]; [discriminate | exact I]].
Qed.
Lemma occurs_positive : forall v l, In (Some v) l <-> 0 < occurrences v l.
Proof.
  intros v l. rewrite occurrences_lsum, lsum_positive by (intros x; destruct (x =? v); lia). split.
  - intros I. exists v. split; [exact I|]. rewrite Z.eqb_refl. lia.
  - intros [x [I X]]. destruct (x =? v) eqn:Y; [apply Z.eqb_eq in Y; now subst | lia].
Qed.

Lemma join_runs : forall E e1 e2 q1 q2, operands E = Some (e1, e2) -> well_formed E -> no_assignment E -> runnable (q1 ++ [(None, e1)]) -> runnable (q2 ++ [(None, e2)]) ->
  drawable (q1 ++ [(None, e1)]) -> drawable (q2 ++ [(None, e2)]) -> runnable (q1 ++ q2 ++ [(None, E)]) /\ drawable (q1 ++ q2 ++ [(None, E)]).
Proof.
  intros E e1 e2 q1 q2 HE We Ne R1 R2 D1 D2. split.
  + destruct R1 as [_ [C1 G1]]. destruct R2 as [_ [C2 G2]]. split; [intros X; apply app_eq_nil in X; destruct X as [_ X]; apply app_eq_nil in X; destruct X; discriminate|]. split.
      - apply (closed_join E e1 e2 (operands_reads E e1 e2 HE) q2 q1 [] []); auto.
      - intros n f I. apply in_app_or in I. destruct I as [I|I]; [apply G1; apply in_or_app; now left|]. apply in_app_or in I. destruct I as [I|[I|[]]]; [apply G2; apply in_or_app; now left|].
        injection I as <- <-. auto.
  + intros m I. unfold drawable, program_dice in *. rewrite !flat_map_app in I. cbn [flat_map snd] in I. rewrite app_nil_r, (operands_dice E e1 e2 HE) in I.
      rewrite !in_app_iff in I. destruct I as [I|[I|[I|I]]]; [apply D1 | apply D2 | apply D1 | apply D2]; rewrite flat_map_app, in_app_iff; cbn [flat_map snd]; rewrite app_nil_r; auto.
Qed.

Section Rolls.
  Context (R : Runtime).
  Lemma split_roll : forall E e1 e2 q1 q2 s s1 s2 lines lines1 lines2, operands E = Some (e1, e2) -> well_formed E -> no_assignment E ->
    runnable (q1 ++ [(None, e1)]) -> runnable (q2 ++ [(None, e2)]) -> separate q1 q2 -> drawable (q1 ++ [(None, e1)]) -> drawable (q2 ++ [(None, e2)]) ->
    program_text lines (q1 ++ q2 ++ [(None, E)]) -> program_text lines1 (q1 ++ [(None, e1)]) -> program_text lines2 (q2 ++ [(None, e2)]) ->
    (forall v, can_roll R s lines v <-> exists x y, can_roll R s1 lines1 x /\ can_roll R s2 lines2 y /\ roll_combined E x y = Some v) /\
    (forall xs ys, NoDup xs -> NoDup ys -> (forall x, In x xs <-> can_roll R s1 lines1 x) -> (forall y, In y ys <-> can_roll R s2 lines2 y) ->
      forall v, roll_weight R s lines v = zsum (map (fun x => zsum (map (fun y => if roll_gives E x y v then roll_weight R s1 lines1 x * roll_weight R s2 lines2 y else 0) ys)) xs)).
  Proof.
    intros E e1 e2 q1 q2 s s1 s2 lines lines1 lines2 HE We Ne R1 R2 Sp D1 D2 T T1 T2.
    destruct (join_runs E e1 e2 q1 q2 HE We Ne R1 R2 D1 D2) as [Ru Dr].
    destruct (roll_semantics R s lines _ T Ru Dr) as [A [W _]]. destruct (roll_semantics R s1 lines1 _ T1 R1 D1) as [A1 [W1 _]]. destruct (roll_semantics R s2 lines2 _ T2 R2 D2) as [A2 [W2 _]].
    assert (X : forall v x y, fo (fun w => if w =? v then 1 else 0) (roll_combined E x y) = if roll_gives E x y v then 1 else 0) by (intros v x y; unfold roll_gives; destruct (roll_combined E x y); reflexivity).
    assert (K : forall v, occurrences v (rolled_program no_values (q1 ++ q2 ++ [(None, E)])) =
      lsum (fo (fun x => lsum (fo (fun y => if roll_gives E x y v then 1 else 0)) (rolled_program no_values (q2 ++ [(None, e2)])))) (rolled_program no_values (q1 ++ [(None, e1)]))).
    { intros v. rewrite occurrences_lsum, (rolled_split E e1 e2 q1 q2 _ HE (proj1 (proj2 R1)) (proj1 (proj2 R2)) Sp). apply lsum_fo_ext. intros x. apply lsum_fo_ext. intros y. apply X. }
    assert (P : forall v x y, 0 <= if roll_gives E x y v then 1 else 0) by (intros v x y; destruct (roll_gives E x y v); lia). split.
    - intros v. rewrite A, occurs_positive, K, lsum_positive by (intros x; apply lsum_nonneg; intros [y|] _; cbn [fo]; [apply P | lia]). split.
      + intros [x [Ix Y]]. apply lsum_positive in Y; [|apply P]. destruct Y as [y [Iy Y]]. exists x, y. split; [now apply A1|]. split; [now apply A2|]. unfold roll_gives in Y.
        destruct (roll_combined E x y) as [w|]; [|lia]. destruct (w =? v) eqn:Z0; [|lia]. apply Z.eqb_eq in Z0. now subst.
      + intros [x [y [Ix [Iy Y]]]]. exists x. split; [now apply A1|]. apply lsum_positive; [apply P|]. exists y. split; [now apply A2|]. unfold roll_gives. rewrite Y, Z.eqb_refl. lia.
    - intros xs ys Nx Ny Hx Hy v. rewrite W, K. rewrite <- (keys_sum xs _ _ Nx) by (intros x I; now apply Hx, A1). unfold lsum at 1. f_equal. apply map_ext. intros x.
      rewrite <- (keys_sum ys _ _ Ny) by (intros y I; now apply Hy, A2). rewrite Z.mul_comm, <- lsum_scale. unfold lsum. f_equal. apply map_ext. intros y. rewrite W1, W2. destruct (roll_gives E x y v); ring.
  Qed.
End Rolls.

(** ** Exceptions, and the values that are listed *)
Lemma both_none : forall h a b, In None (both h a b) <-> (In None a /\ b <> []) \/ (In None b /\ a <> []) \/ exists x y, In (Some x) a /\ In (Some y) b /\ h x y = None.
Proof.
  intros h a b. unfold both. rewrite in_flat_map. split.
  - intros [x [Ix H]]. apply in_map_iff in H. destruct H as [y [H Iy]]. destruct x as [x|]; [destruct y as [y|]|].
    + right. right. eauto.
    + right. left. split; [exact Iy|]. intros ->. destruct Ix.
    + left. split; [exact Ix|]. intros ->. destruct Iy.
  - intros [[Ia Nb]|[[Ib Na]|[x [y [Ia [Ib H]]]]]].
    + destruct b as [|y b]; [congruence|]. exists None. split; [exact Ia|]. now left.
    + destruct a as [|x a]; [congruence|]. exists x. split; [now left|]. apply in_map_iff. exists None. split; [now destruct x | exact Ib].
    + exists (Some x). split; [exact Ia|]. apply in_map_iff. exists (Some y). auto.
Qed.
Lemma both_some : forall h a b v, In (Some v) (both h a b) <-> exists x y, In (Some x) a /\ In (Some y) b /\ h x y = Some v.
Proof.
  intros h a b v. unfold both. rewrite in_flat_map. split.
  - intros [x [Ix H]]. apply in_map_iff in H. destruct H as [y [H Iy]]. destruct x as [x|]; [|discriminate]. destruct y as [y|]; [|discriminate]. eauto.
  - intros [x [y [Ia [Ib H]]]]. exists (Some x). split; [exact Ia|]. apply in_map_iff. exists (Some y). auto.
Qed.
Section Ends.
  Context (J : (text -> option Z) -> expr -> list (option Z)) (P : (text -> option Z) -> program -> list (option Z)).
  Context (agree : forall e env env', (forall n, In n (reads e) -> env n = env' n) -> J env e = J env' e).
  Context (P_one : forall env e, P env [(None, e)] = J env e).
  Context (P_cons : forall env n e l p, P env ((n, e) :: l :: p) = flat_map (fun x => match x with Some x => P (bind_value env n x) (l :: p) | None => [None] end) (J env e)).

  (** the lines [q] can end with the values [en] of the variables, or raise *)
  Fixpoint ends (q : program) (env en : text -> option Z) : Prop :=
    match q with [] => en = env | (n, f) :: q' => exists x, In (Some x) (J env f) /\ ends q' (bind_value env n x) en end.
  Fixpoint stuck (q : program) (env : text -> option Z) : Prop :=
    match q with [] => False | (n, f) :: q' => In None (J env f) \/ exists x, In (Some x) (J env f) /\ stuck q' (bind_value env n x) end.
  Lemma ends_some : forall v r q env, r <> [] -> (In (Some v) (P env (q ++ r)) <-> exists en, ends q env en /\ In (Some v) (P en r)).
  Proof.
    intros v r. induction q as [|[n f] q IH]; intros env Nr; cbn [ends].
    - split; [intros I; exists env; auto | intros [en [-> I]]; exact I].
    - rewrite cons_app. destruct (q ++ r) as [|l t] eqn:X; [apply app_eq_nil in X; tauto|]. rewrite P_cons, in_flat_map. split.
      + intros [[x|] [Ix I]]; [|destruct I as [I|[]]; discriminate]. apply IH in I; [|exact Nr]. destruct I as [en [En I]]. eauto.
      + intros [en [[x [Ix En]] I]]. exists (Some x). split; [exact Ix|]. apply IH; eauto.
  Qed.
  Lemma ends_none : forall r q env, r <> [] -> (In None (P env (q ++ r)) <-> stuck q env \/ exists en, ends q env en /\ In None (P en r)).
  Proof.
    intros r. induction q as [|[n f] q IH]; intros env Nr; cbn [ends stuck].
    - split; [intros I; right; exists env; auto | intros [[]|[en [-> I]]]; exact I].
    - rewrite cons_app. destruct (q ++ r) as [|l t] eqn:X; [apply app_eq_nil in X; tauto|]. rewrite P_cons, in_flat_map. split.
      + intros [[x|] [Ix I]]; [|left; now left]. apply IH in I; [|exact Nr]. destruct I as [I|[en [En I]]]; [left; right; eauto | right; eauto].
      + intros [[I|[x [Ix St]]]|[en [[x [Ix En]] I]]]; [exists None; split; [exact I | now left] | exists (Some x) | exists (Some x)]; (split; [exact Ix|]); apply IH; eauto.
  Qed.
  Lemma ends_other : forall q env en k, ends q env en -> ~ assigned q k -> en k = env k.
  Proof.
    induction q as [|[n f] q IH]; intros env en k H A; cbn [ends] in H; [now subst|]. destruct H as [x [_ H]]. rewrite (IH _ _ k H) by (intros [g I]; apply A; exists g; now right).
    destruct n as [n|]; [|reflexivity]. cbn [bind_value]. rewrite text_neqb; [reflexivity|]. intros ->. apply A. exists f. now left.
  Qed.
  Lemma ends_shift : forall e q kn env env' en, closed kn (q ++ [(None, e)]) -> (forall k, In k kn -> env k = env' k) -> ends q env en -> exists en', ends q env' en' /\ J en e = J en' e.
  Proof.
    intros e. induction q as [|[n f] q IH]; intros kn env env' en [C1 C2] A H; cbn [ends] in *.
    - exists env'. subst. split; [reflexivity|]. apply agree. auto.
    - destruct H as [x [Ix H]].
      assert (A' : forall k, In k (match n with Some n => n :: kn | None => kn end) -> bind_value env n x k = bind_value env' n x k).
      { destruct n as [n|]; [|exact A]. cbn [bind_value]. intros k [<-|I]; [now rewrite text_eqb_refl | destruct (text_eqb k n); auto]. }
      destruct (IH _ (bind_value env n x) (bind_value env' n x) en C2 A' H) as [en' [E' X]].
      exists en'. split; [|exact X]. exists x. split; [|exact E']. now rewrite <- (agree f env env') by auto.
  Qed.
  Lemma stuck_shift : forall e q kn env env', closed kn (q ++ [(None, e)]) -> (forall k, In k kn -> env k = env' k) -> stuck q env -> stuck q env'.
  Proof.
    intros e. induction q as [|[n f] q IH]; intros kn env env' [C1 C2] A H; cbn [stuck] in *; [exact H|]. rewrite <- (agree f env env') by auto. destruct H as [H|[x [Ix H]]]; [now left|].
    right. exists x. split; [exact Ix|]. apply (IH _ (bind_value env n x) (bind_value env' n x) C2); [|exact H]. destruct n as [n|]; [|exact A]. cbn [bind_value].
    intros k [<-|I]; [now rewrite text_eqb_refl | destruct (text_eqb k n); auto].
  Qed.
  Lemma ends_progress : forall q env, (forall n f env, In (n, f) q -> J env f <> []) -> stuck q env \/ exists en, ends q env en.
  Proof.
    induction q as [|[n f] q IH]; intros env N; cbn [stuck ends]; [right; eauto|]. destruct (J env f) as [|[x|] l] eqn:X; [destruct (N n f env (or_introl eq_refl) X)| |left; left; now left].
    destruct (IH (bind_value env n x)) as [H|[en H]]; [intros m g en I; apply (N m); now right | left; right; exists x; split; [now left | exact H] | right; exists en, x; split; [now left | exact H]].
  Qed.

  Section Whole.
    Context (E e1 e2 : expr) (h : Z -> Z -> option Z) (q1 q2 : program) (HJ : forall env, J env E = both h (J env e1) (J env e2)).
    Context (C1 : closed [] (q1 ++ [(None, e1)])) (C2 : closed [] (q2 ++ [(None, e2)])) (Sp : separate q1 q2).
    Lemma first_same : forall en1 en2, ends q2 en1 en2 -> J en2 e1 = J en1 e1.
    Proof.
      intros en1 en2 H. apply agree. intros k I. apply (ends_other q2 en1 en2 k H). intros A. destruct (closed_reads _ _ None e1 k C1 ltac:(apply in_or_app; right; now left) I) as [[]|B].
      apply assigned_last in B. exact (Sp k B A).
    Qed.
    Lemma ends_nil : forall q e env env' en, closed [] (q ++ [(None, e)]) -> ends q env en -> exists en', ends q env' en' /\ J en e = J en' e.
    Proof. intros q e env env' en C H. apply (ends_shift e q [] env env' en C); [intros k []|exact H]. Qed.
    Lemma stuck_nil : forall q e env env', closed [] (q ++ [(None, e)]) -> stuck q env -> stuck q env'.
    Proof. intros q e env env' C H. apply (stuck_shift e q [] env env' C); [intros k []|exact H]. Qed.
    Lemma last_not_nil : forall (q : program) e, q ++ [(None : option text, e)] <> [].
    Proof. intros q e X. apply app_eq_nil in X. destruct X. discriminate. Qed.
    Lemma whole_some : forall v, In (Some v) (P no_values (q1 ++ q2 ++ [(None, E)])) <->
      exists x y, In (Some x) (P no_values (q1 ++ [(None, e1)])) /\ In (Some y) (P no_values (q2 ++ [(None, e2)])) /\ h x y = Some v.
    Proof.
      intros v. rewrite (ends_some v _ q1) by apply last_not_nil. split.
      - intros [en1 [H1 I]]. apply ends_some in I; [|discriminate]. destruct I as [en2 [H2 I]]. rewrite P_one, HJ, both_some in I. destruct I as [x [y [Ix [Iy Hv]]]]. exists x, y.
        split; [apply ends_some; [discriminate|]; exists en1; split; [exact H1|]; rewrite P_one, <- (first_same en1 en2 H2); exact Ix|]. split; [|exact Hv].
        destruct (ends_nil q2 e2 en1 no_values en2 C2 H2) as [en' [H' X]]. apply ends_some; [discriminate|]. exists en'. split; [exact H'|]. rewrite P_one, <- X. exact Iy.
      - intros [x [y [Ix [Iy Hv]]]]. apply ends_some in Ix; [|discriminate]. destruct Ix as [en1 [H1 Ix]]. apply ends_some in Iy; [|discriminate]. destruct Iy as [en' [H' Iy]].
        destruct (ends_nil q2 e2 no_values en1 en' C2 H') as [en2 [H2 X]]. exists en1. split; [exact H1|]. apply ends_some; [discriminate|]. exists en2. split; [exact H2|].
        rewrite P_one in *. rewrite HJ, both_some. exists x, y. rewrite (first_same en1 en2 H2), <- X. auto.
    Qed.
    Context (N1 : forall n f env, In (n, f) (q1 ++ [(None, e1)]) -> J env f <> []) (N2 : forall n f env, In (n, f) (q2 ++ [(None, e2)]) -> J env f <> []).
    Lemma whole_none : In None (P no_values (q1 ++ q2 ++ [(None, E)])) <->
      In None (P no_values (q1 ++ [(None, e1)])) \/ In None (P no_values (q2 ++ [(None, e2)])) \/
      exists x y, In (Some x) (P no_values (q1 ++ [(None, e1)])) /\ In (Some y) (P no_values (q2 ++ [(None, e2)])) /\ h x y = None.
    Proof.
      assert (Le : forall (q : program) (e : expr), In (None, e) (q ++ [(None : option text, e)])) by (intros; apply in_or_app; right; now left).
      assert (Pr1 := ends_progress q1 no_values (fun n f env I => N1 n f env (in_or_app _ _ _ (or_introl I)))).
      assert (Pr2 := fun env => ends_progress q2 env (fun n f env I => N2 n f env (in_or_app _ _ _ (or_introl I)))).
      assert (W : forall en1, ends q1 no_values en1 -> forall en2, ends q2 en1 en2 -> In None (J en2 E) -> In None (P no_values (q1 ++ q2 ++ [(None, E)]))).
      { intros en1 H1 en2 H2 I. apply ends_none; [apply last_not_nil|]. right. exists en1. split; [exact H1|]. apply ends_none; [discriminate|]. right. exists en2. split; [exact H2|]. now rewrite P_one. }
      assert (S1 : stuck q1 no_values -> In None (P no_values (q1 ++ q2 ++ [(None, E)]))) by (intros H; apply ends_none; [apply last_not_nil | now left]).
      assert (S2 : forall en1, ends q1 no_values en1 -> stuck q2 en1 -> In None (P no_values (q1 ++ q2 ++ [(None, E)]))).
      { intros en1 H1 H. apply ends_none; [apply last_not_nil|]. right. exists en1. split; [exact H1|]. apply ends_none; [discriminate | now left]. }
      split.
      - intros I. apply ends_none in I; [|apply last_not_nil]. destruct I as [I|[en1 [H1 I]]]; [left; apply ends_none; [discriminate | now left]|]. apply ends_none in I; [|discriminate].
        destruct I as [I|[en2 [H2 I]]]; [right; left; apply ends_none; [discriminate|]; left; now apply (stuck_nil q2 e2 en1)|]. rewrite P_one, HJ, (first_same en1 en2 H2), both_none in I.
        destruct (ends_nil q2 e2 en1 no_values en2 C2 H2) as [en' [H' X]]. destruct I as [[I _]|[[I _]|[x [y [Ix [Iy Hn]]]]]].
        + left. apply ends_none; [discriminate|]. right. exists en1. split; [exact H1|]. now rewrite P_one.
        + right. left. apply ends_none; [discriminate|]. right. exists en'. split; [exact H'|]. now rewrite P_one, <- X.
        + right. right. exists x, y. split; [apply ends_some; [discriminate|]; exists en1; split; [exact H1|]; now rewrite P_one|]. split; [|exact Hn].
          apply ends_some; [discriminate|]. exists en'. split; [exact H'|]. now rewrite P_one, <- X.
      - intros [I|[I|[x [y [Ix [Iy Hn]]]]]].
        + apply ends_none in I; [|discriminate]. destruct I as [I|[en1 [H1 I]]]; [auto|]. rewrite P_one in I. destruct (Pr2 en1) as [H|[en2 H2]]; [eauto|].
          apply (W en1 H1 en2 H2). rewrite HJ, both_none. left. rewrite (first_same en1 en2 H2). split; [exact I | apply (N2 None), Le].
        + destruct Pr1 as [H|[en1 H1]]; [auto|]. apply ends_none in I; [|discriminate]. destruct I as [I|[en' [H' I]]]; [apply (S2 en1 H1), (stuck_nil q2 e2 no_values); auto|].
          destruct (ends_nil q2 e2 no_values en1 en' C2 H') as [en2 [H2 X]]. apply (W en1 H1 en2 H2). rewrite HJ, both_none. right. left. rewrite P_one in I. rewrite <- X. split; [exact I | apply (N1 None), Le].
        + apply ends_some in Ix; [|discriminate]. destruct Ix as [en1 [H1 Ix]]. apply ends_some in Iy; [|discriminate]. destruct Iy as [en' [H' Iy]].
          destruct (ends_nil q2 e2 no_values en1 en' C2 H') as [en2 [H2 X]]. apply (W en1 H1 en2 H2). rewrite P_one in *. rewrite HJ, both_none. right. right. exists x, y. rewrite (first_same en1 en2 H2), <- X. auto.
    Qed.
  End Whole.
End Ends.

Lemma combined_none : forall E e1 e2 x y, operands E = Some (e1, e2) -> simple E -> (combined E x y = None <-> E = EDiv e1 e2 /\ y = 0).
Proof.
  intros E e1 e2 x y H Se. destruct E; cbn [operands] in H; try discriminate; injection H as -> ->; cbn [combined]; try (split; [discriminate | intros [X _]; discriminate]).
  - destruct (Z.eqb_spec y 0); split; auto; [discriminate | intros [_ X]; contradiction].
  - cbn [simple] in Se. destruct (operator_meaning _); [split; [discriminate | intros [X _]; discriminate] | tauto].
  - cbn [simple] in Se. destruct (minmax_meaning _); [split; [discriminate | intros [X _]; discriminate] | tauto].
Qed.
Lemma roll_combined_none : forall E e1 e2 x y, operands E = Some (e1, e2) -> well_formed E -> (roll_combined E x y = None <-> E = EDiv e1 e2 /\ y = 0).
Proof.
  intros E e1 e2 x y H Se. destruct E; cbn [operands] in H; try discriminate; injection H as -> ->; cbn [roll_combined combined]; try (split; [discriminate | intros [X _]; discriminate]).
  - destruct (Z.eqb_spec y 0); split; auto; [discriminate | intros [_ X]; contradiction].
  - cbn [well_formed] in Se. unfold roll_operator. destruct (text_eqb _ $"AND"); [split; [discriminate | intros [X _]; discriminate]|].
    destruct (text_eqb _ $"OR"); [split; [discriminate | intros [X _]; discriminate]|]. destruct (operator_meaning _); [split; [discriminate | intros [X _]; discriminate] | tauto].
  - cbn [well_formed] in Se. destruct (minmax_meaning _); [split; [discriminate | intros [X _]; discriminate] | tauto].
Qed.

Section Errors.
  Context (R : Runtime).
  Lemma sided_lines : forall p, sided p -> forall n f env, In (n, f) p -> joint (map fst) env f <> [].
  Proof.
    intros p Sd n f env I. apply joint_nonempty. intros m J. apply map_nonempty, Sd. unfold program_dice. apply in_flat_map. exists (n, f). split; [exact I | exact J].
  Qed.
  Lemma split_none : forall E e1 e2 q1 q2, operands E = Some (e1, e2) -> simple E -> good_program (q1 ++ [(None, e1)]) -> good_program (q2 ++ [(None, e2)]) -> separate q1 q2 ->
    sided (q1 ++ [(None, e1)]) -> sided (q2 ++ [(None, e2)]) ->
    (In None (results (map fst) no_values (q1 ++ q2 ++ [(None, E)])) <->
     In None (results (map fst) no_values (q1 ++ [(None, e1)])) \/ In None (results (map fst) no_values (q2 ++ [(None, e2)])) \/
     exists x y, In (Some x) (results (map fst) no_values (q1 ++ [(None, e1)])) /\ In (Some y) (results (map fst) no_values (q2 ++ [(None, e2)])) /\ combined E x y = None).
  Proof.
    intros E e1 e2 q1 q2 HE Se [_ [C1 _]] [_ [C2 _]] Sp S1 S2.
    apply (whole_none (joint (map fst)) (results (map fst)) (joint_agree (map fst)) ltac:(reflexivity) (results_cons (map fst)) E e1 e2 (combined E) q1 q2 (fun env => operands_joint E e1 e2 (map fst) env HE) C1 C2 Sp); now apply sided_lines.
  Qed.
  Lemma listed_one : forall s lines p (d : dist R), reachable R s -> program_text lines p -> good_program p -> sided p -> reports R s lines d -> exists x, listed R d x.
  Proof.
    intros s lines p d Hs T G Sd H. destruct (all_listed R s lines p d Hs T G Sd H) as [N A].
    assert (Ne : results (map fst) no_values p <> []).
    { revert Sd. generalize no_values. destruct G as [G _]. clear - G. induction p as [|[n f] p IH]; intros env Sd; [congruence|].
      assert (J := sided_lines _ Sd n f env (or_introl eq_refl)). destruct p as [|l p]; [destruct n; exact J|]. rewrite results_cons. destruct (joint (map fst) env f) as [|[x|] r]; [congruence| |discriminate].
      cbn [flat_map]. intros X. apply app_eq_nil in X. destruct X as [X _]. revert X. apply IH; [discriminate|]. intros m I. apply Sd. unfold program_dice in *. cbn [flat_map]. apply in_or_app. now right. }
    destruct (results (map fst) no_values p) as [|[x|] r] eqn:X; [congruence| |destruct N; now left]. exists x. apply A. now left.
  Qed.
  Lemma split_values : forall E e1 e2 q1 q2 d d1 d2, combines R E e1 e2 q1 q2 d d1 d2 -> sided (q1 ++ [(None, e1)]) -> sided (q2 ++ [(None, e2)]) ->
    forall v, listed R d v <-> exists x y, listed R d1 x /\ listed R d2 y /\ combined E x y = Some v.
  Proof.
    intros E e1 e2 q1 q2 d d1 d2 [HE [Se [G1 [G2 [Sp [s [s1 [s2 [lines [lines1 [lines2 [Hs [Hs1 [Hs2 [T [T1 [T2 [H [H1 H2]]]]]]]]]]]]]]]]]]] S1 S2 v.
    assert (G := good_join E e1 e2 q1 q2 HE Se G1 G2). assert (Sd := sided_join E e1 e2 q1 q2 HE S1 S2). rewrite <- app_assoc in G, Sd.
    rewrite (proj2 (all_listed R s lines _ d Hs T G Sd H) v).
    rewrite (whole_some (joint (map fst)) (results (map fst)) (joint_agree (map fst)) ltac:(reflexivity) (results_cons (map fst)) E e1 e2 (combined E) q1 q2 (fun env => operands_joint E e1 e2 (map fst) env HE) (proj1 (proj2 G1)) (proj1 (proj2 G2)) Sp v).
    split; intros [x [y [Ix [Iy X]]]]; exists x, y; (split; [now apply (proj2 (all_listed R s1 lines1 _ d1 Hs1 T1 G1 S1 H1) x)|]); (split; [now apply (proj2 (all_listed R s2 lines2 _ d2 Hs2 T2 G2 S2 H2) y) | exact X]).
  Qed.
  Lemma split_errors : forall E e1 e2 q1 q2 s s1 s2 lines lines1 lines2 z, operands E = Some (e1, e2) -> simple E -> good_program (q1 ++ [(None, e1)]) -> good_program (q2 ++ [(None, e2)]) ->
    separate q1 q2 -> sided (q1 ++ [(None, e1)]) -> sided (q2 ++ [(None, e2)]) -> reachable R s -> reachable R s1 -> reachable R s2 ->
    program_text lines (q1 ++ q2 ++ [(None, E)]) -> program_text lines1 (q1 ++ [(None, e1)]) -> program_text lines2 (q2 ++ [(None, e2)]) ->
    (distribution_raises R s1 lines1 z \/ distribution_raises R s2 lines2 z -> distribution_raises R s lines z) /\
    (forall d1 d2, reports R s1 lines1 d1 -> reports R s2 lines2 d2 -> (distribution_raises R s lines z <-> z = ZeroDivisionError /\ E = EDiv e1 e2 /\ listed R d2 0)).
  Proof.
    intros E e1 e2 q1 q2 s s1 s2 lines lines1 lines2 z HE Se G1 G2 Sp S1 S2 Hs Hs1 Hs2 T T1 T2.
    assert (G := good_join E e1 e2 q1 q2 HE Se G1 G2). assert (Sd := sided_join E e1 e2 q1 q2 HE S1 S2). rewrite <- app_assoc in G, Sd.
    rewrite (raises_exactly R s lines _ z Hs T G Sd), (raises_exactly R s1 lines1 _ z Hs1 T1 G1 S1), (raises_exactly R s2 lines2 _ z Hs2 T2 G2 S2), (split_none E e1 e2 q1 q2 HE Se G1 G2 Sp S1 S2).
    split; [tauto|]. intros d1 d2 H1 H2. rewrite (raises_exactly R s lines _ z Hs T G Sd), (split_none E e1 e2 q1 q2 HE Se G1 G2 Sp S1 S2). destruct (all_listed R s1 lines1 _ d1 Hs1 T1 G1 S1 H1) as [N1 A1]. destruct (all_listed R s2 lines2 _ d2 Hs2 T2 G2 S2 H2) as [N2 A2]. split.
    - intros [-> [I|[I|[x [y [Ix [Iy X]]]]]]]; [contradiction | contradiction|]. apply (combined_none E e1 e2 x y HE Se) in X. destruct X as [X ->]. split; [reflexivity|]. split; [exact X | now apply A2].
    - intros [-> [X L]]. split; [reflexivity|]. right. right. destruct (listed_one s1 lines1 _ d1 Hs1 T1 G1 S1 H1) as [x Ix]. exists x, 0. split; [now apply A1|]. split; [now apply A2|].
      now apply (combined_none E e1 e2 x 0 HE Se).
  Qed.
  Lemma program_rolled_nonempty : forall p env, p <> [] -> (forall n f env, In (n, f) p -> rolled env f <> []) -> rolled_program env p <> [].
  Proof.
    induction p as [|[n f] p IH]; intros env Np N; [congruence|]. assert (J := N n f env (or_introl eq_refl)). destruct p as [|l p]; [destruct n; exact J|]. rewrite rolled_cons.
    destruct (rolled env f) as [|[x|] r]; [congruence| |discriminate]. cbn [flat_map]. intros X. apply app_eq_nil in X. destruct X as [X _]. revert X. apply IH; [discriminate|].
    intros m g en I. apply (N m). now right.
  Qed.
  Lemma drawable_lines : forall p, drawable p -> forall n f env, In (n, f) p -> rolled env f <> [].
  Proof. intros p D n f env I. apply RollFacts.rolled_nonempty. intros m J. apply D. unfold program_dice. apply in_flat_map. exists (n, f). split; [exact I | exact J]. Qed.
  Lemma split_roll_errors : forall E e1 e2 q1 q2 s s1 s2 lines lines1 lines2 z, operands E = Some (e1, e2) -> well_formed E -> no_assignment E ->
    runnable (q1 ++ [(None, e1)]) -> runnable (q2 ++ [(None, e2)]) -> separate q1 q2 -> drawable (q1 ++ [(None, e1)]) -> drawable (q2 ++ [(None, e2)]) ->
    program_text lines (q1 ++ q2 ++ [(None, E)]) -> program_text lines1 (q1 ++ [(None, e1)]) -> program_text lines2 (q2 ++ [(None, e2)]) ->
    (can_raise R s lines z <-> can_raise R s1 lines1 z \/ can_raise R s2 lines2 z \/ (z = ZeroDivisionError /\ E = EDiv e1 e2 /\ can_roll R s2 lines2 0)).
  Proof.
    intros E e1 e2 q1 q2 s s1 s2 lines lines1 lines2 z HE We Ne R1 R2 Sp D1 D2 T T1 T2. destruct (join_runs E e1 e2 q1 q2 HE We Ne R1 R2 D1 D2) as [Ru Dr].
    rewrite (roll_raises R s lines _ z T Ru Dr), (roll_raises R s1 lines1 _ z T1 R1 D1), (roll_raises R s2 lines2 _ z T2 R2 D2). rewrite (proj1 (roll_semantics R s2 lines2 _ T2 R2 D2) 0).
    rewrite (whole_none rolled rolled_program rolled_agree ltac:(reflexivity) rolled_cons E e1 e2 (roll_combined E) q1 q2 (fun env => operands_rolled E e1 e2 env HE) (proj1 (proj2 R1)) (proj1 (proj2 R2)) Sp
      (drawable_lines _ D1) (drawable_lines _ D2)). split.
    - intros [-> [I|[I|[x [y [Ix [Iy X]]]]]]]; [auto | auto|]. apply (roll_combined_none E e1 e2 x y HE We) in X. destruct X as [X ->]. right. right. auto.
    - intros [[-> I]|[[-> I]|[-> [X I]]]]; (split; [reflexivity|]); [auto | auto|].
      assert (N : rolled_program no_values (q1 ++ [(None, e1)]) <> []) by (apply program_rolled_nonempty; [apply R1 | exact (drawable_lines _ D1)]).
      destruct (rolled_program no_values (q1 ++ [(None, e1)])) as [|[x|] r] eqn:Y; [congruence| |left; now left]. right. right. exists x, 0. split; [now left|]. split; [exact I|].
      now apply (roll_combined_none E e1 e2 x 0 HE We).
  Qed.
End Errors.

(** For the examples: the programs [lines], [lines1] and [lines2] with the results [m], [m1] and [m2] *)
Ltac groups lines lines1 lines2 m m1 m2 :=
  let s := constr:(empty_state rt_fwd) in
  assert (T : program_text lines ltac:(let p := eval vm_compute in (program_of lines) in match p with Some ?p => exact p end)) by (apply program_of_text; vm_compute; reflexivity);
  assert (T1 : program_text lines1 ltac:(let p := eval vm_compute in (program_of lines1) in match p with Some ?p => exact p end)) by (apply program_of_text; vm_compute; reflexivity);
  assert (T2 : program_text lines2 ltac:(let p := eval vm_compute in (program_of lines2) in match p with Some ?p => exact p end)) by (apply program_of_text; vm_compute; reflexivity);
  assert (G := checked_good _ _ T ltac:(vm_compute; reflexivity)); assert (G1 := checked_good _ _ T1 ltac:(vm_compute; reflexivity)); assert (G2 := checked_good _ _ T2 ltac:(vm_compute; reflexivity));
  destruct (shown_reports rt_fwd s lines m ltac:(vm_compute; reflexivity)) as [d [H H']]; destruct (shown_reports rt_fwd s lines1 m1 ltac:(vm_compute; reflexivity)) as [d1 [H1 H1']];
  destruct (shown_reports rt_fwd s lines2 m2 ltac:(vm_compute; reflexivity)) as [d2 [H2 H2']];
  match type of T1 with program_text _ [?b1; (_, ?e1)] => match type of T2 with program_text _ [?b2; (_, ?e2)] => exists e1, e2, [b1], [b2], d, d1, d2 end end;
  split; [split; [reflexivity|]; split; [exact (proj1 (proj2 (proj2 G) None _ (or_intror (or_intror (or_introl eq_refl)))))|]; split; [exact G1|]; split; [exact G2|];
    split; [intros n [f [I|[]]] [g [J|[]]]; injection I as <- _; discriminate J|]; exists s, s, s, lines, lines1, lines2;
    split; [apply af_now|]; split; [apply af_now|]; split; [apply af_now|]; split; [exact T|]; split; [exact T1|]; split; [exact T2|]; split; [exact H|]; split; [exact H1 | exact H2]|];
  split; [apply rollableb_iff; vm_compute; reflexivity|]; split; [apply rollableb_iff; vm_compute; reflexivity|]; split; [exact H'|]; split; [exact H1' | exact H2'].
