(** * CaseProofs: C72 *)
From Coq Require Import QArith Qabs Permutation Lqa.
From Verif Require Import Py PyFacts PyFloat Constraint Distribution DistFacts DiceModel Expr Parser Interp Instances SpecDice DiceFacts DiceProofs SpecProgram SpecRoll
  SpecInterp SpecAlgebra SpecInline AlgebraFacts ExprFacts ProgramFacts JointFacts RaiseFacts WfFacts InterpRun RollFacts InlineFacts InlineProofs ProgramProofs RollProofs
  Checks SpecProb ProbProofs CostProofs SpecExchange ExchangeProofs SpecBetter BetterProofs SpecCases SpecAlgebra.
Local Open Scope Z_scope.

(** ** Joint results *)
Section Results.
  Context (J : (text -> option Z) -> expr -> list (option Z)) (P : (text -> option Z) -> program -> list (option Z)).
  Context (P1 : forall env n e, P env [(n, e)] = J env e)
    (P2 : forall env n e l p, P env ((n, e) :: l :: p) = flat_map (fun x => match x with Some x => P (bind_value env n x) (l :: p) | None => [None] end) (J env e)).
  Context (n : text) (e : expr) (l : option text * expr) (rest : program) (je : list (option Z)) (Je : forall env, J env e = je)
    (c : Z -> expr) (Jc : forall x env, In (Some x) je -> J env (c x) = [Some x]).
  Local Notation whole before := (before ++ (Some n, e) :: l :: rest).
  Local Notation part before x := (before ++ (Some n, c x) :: l :: rest).

  Lemma P_cons : forall env m f q, q <> [] -> P env ((m, f) :: q) = flat_map (fun x => match x with Some x => P (bind_value env m x) q | None => [None] end) (J env f).
  Proof. intros env m f [|k q] H; [contradiction | apply P2]. Qed.
  Lemma after_nonempty : forall (before q : program) (k : option text * expr), before ++ k :: q <> [].
  Proof. intros [|b before] q k; discriminate. Qed.

  Lemma case_sum : forall F, F None = 0 -> forall before env, lsum F (P env (whole before)) = lsum (fo (fun x => lsum F (P env (part before x)))) je.
  Proof.
    intros F F0. induction before as [|[m f] before IH]; intros env; cbn [app].
    - rewrite P2, Je, lsum_flat_map. apply lsum_ext. intros [x|] I; cbn [fo]; [|rewrite lsum_cons, lsum_nil; lia].
      rewrite P2, (Jc x env I). cbn [flat_map]. now rewrite app_nil_r.
    - rewrite P_cons by apply after_nonempty. rewrite lsum_flat_map.
      rewrite (lsum_ext _ _ (fun y => lsum (fun z => match y with Some y => fo (fun x => lsum F (P (bind_value env m y) (part before x))) z | None => 0 end) je)).
      + rewrite lsum_swap. apply lsum_ext. intros [x|] I; cbn [fo].
        * rewrite P_cons by apply after_nonempty. rewrite lsum_flat_map. apply lsum_ext. intros [y|] _; [reflexivity | rewrite lsum_cons, lsum_nil; lia].
        * rewrite (lsum_ext _ _ (fun _ => 0)); [apply lsum_zero|]. intros [y|] _; reflexivity.
      + intros [y|] _; [apply IH | rewrite lsum_cons, lsum_nil, lsum_zero; lia].
  Qed.
  Lemma case_occurrences : forall v before env, occurrences v (P env (whole before)) = lsum (fo (fun x => occurrences v (P env (part before x)))) je.
  Proof.
    intros v before env. rewrite <- lsum_occurrences, case_sum by reflexivity. apply lsum_ext. intros [x|] _; [|reflexivity]. cbn [fo]. apply lsum_occurrences.
  Qed.
  Lemma case_member : forall v before env, In (Some v) (P env (whole before)) <-> exists x, In (Some x) je /\ In (Some v) (P env (part before x)).
  Proof.
    intros v. induction before as [|[m f] before IH]; intros env; cbn [app].
    - rewrite P2, Je, in_flat_map. split.
      + intros [[x|] [I1 I2]]; [|destruct I2 as [I2|[]]; discriminate]. exists x. split; auto. rewrite P2, (Jc x env I1). cbn [flat_map]. now rewrite app_nil_r.
      + intros [x [I1 I2]]. exists (Some x). split; auto. rewrite P2, (Jc x env I1) in I2. cbn [flat_map] in I2. now rewrite app_nil_r in I2.
    - rewrite P_cons by apply after_nonempty. rewrite in_flat_map. split.
      + intros [[y|] [I1 I2]]; [|destruct I2 as [I2|[]]; discriminate]. apply IH in I2. destruct I2 as [x [X1 X2]]. exists x. split; auto.
        rewrite P_cons by apply after_nonempty. apply in_flat_map. exists (Some y). auto.
      + intros [x [X1 X2]]. rewrite P_cons in X2 by apply after_nonempty. apply in_flat_map in X2. destruct X2 as [[y|] [I1 I2]]; [|destruct I2 as [I2|[]]; discriminate].
        exists (Some y). split; auto. apply IH. exists x. auto.
  Qed.
  Lemma case_none : je <> [] -> forall before env, (forall m f env, In (m, f) before -> J env f <> []) ->
    (In None (P env (whole before)) <-> In None je \/ exists x, In (Some x) je /\ In None (P env (part before x))).
  Proof.
    intros Ne. induction before as [|[m f] before IH]; intros env Nb; cbn [app].
    - rewrite P2, Je, in_flat_map. split.
      + intros [[x|] [I1 I2]]; [right | now left]. exists x. split; auto. rewrite P2, (Jc x env I1). cbn [flat_map]. now rewrite app_nil_r.
      + intros [I|[x [I1 I2]]]; [exists None; split; [exact I | now left]|]. exists (Some x). split; auto. rewrite P2, (Jc x env I1) in I2. cbn [flat_map] in I2. now rewrite app_nil_r in I2.
    - assert (IH' := fun env => IH env (fun m' f' env' I => Nb m' f' env' (or_intror I))). assert (Nf := Nb m f env (or_introl eq_refl)).
      rewrite P_cons by apply after_nonempty. rewrite in_flat_map. split.
      + intros [[y|] [I1 I2]].
        * apply IH' in I2. destruct I2 as [I2|[x [X1 X2]]]; [now left|]. right. exists x. split; auto. rewrite P_cons by apply after_nonempty. apply in_flat_map. exists (Some y). auto.
        * destruct je as [|[x|] j] eqn:Ej; [contradiction | | left; now left]. right. exists x. split; [now left|]. rewrite P_cons by apply after_nonempty.
          apply in_flat_map. exists None. split; [exact I1 | now left].
      + intros [I|[x [X1 X2]]].
        * destruct (J env f) as [|[y|] jf] eqn:Ef; [contradiction| |]; [exists (Some y) | exists None]; (split; [now left|]); [|now left]. apply IH'. now left.
        * rewrite P_cons in X2 by apply after_nonempty. apply in_flat_map in X2. destruct X2 as [[y|] [I1 I2]]; [|exists None; auto]. exists (Some y). split; auto. apply IH'. right. eauto.
  Qed.
End Results.

(** Without failures the number of joint results is a product *)
Fixpoint sizes (p : program) : Z := match p with [] => 1 | (_, e) :: p => len (joint faces no_values e) * sizes p end.
Lemma results_size : forall p env, p <> [] -> ~ In None (results faces env p) -> len (results faces env p) = sizes p.
Proof.
  induction p as [|[n e] p IH]; intros env H N; [contradiction|]. cbn [sizes]. rewrite (joint_length faces no_values env e). destruct p as [|k p].
  - rewrite results_one. cbn [sizes]. lia.
  - rewrite results_cons in *. set (q := k :: p) in *. assert (A : forall j, incl j (joint faces env e) -> len (flat_map (fun x => match x with Some x => results faces (bind_value env n x) q | None => [None] end) j) = len j * sizes q).
    { induction j as [|x j IHj]; intros Ij; [cbn; lia|]. cbn [flat_map]. rewrite app_length, Nat2Z.inj_add, IHj by (intros y I; apply Ij; now right). cbn [length]. rewrite Nat2Z.inj_succ.
      destruct x as [x|]; [|exfalso; apply N, in_flat_map; exists None; split; [apply Ij; now left | now left]].
      rewrite IH; [lia | discriminate |]. intros C. apply N, in_flat_map. exists (Some x). split; [apply Ij; now left | exact C]. }
    apply A, incl_refl.
Qed.
Lemma sizes_app : forall p q, sizes (p ++ q) = sizes p * sizes q.
Proof. induction p as [|[n e] p IH]; intros q; cbn [app sizes]; [lia | rewrite IH; ring]. Qed.

(** ** Weighted counts *)
Section Weighted.
  Context (n : text) (e : expr) (l : option text * expr) (rest : program) (Re : reads e = []).
  Local Notation whole before := (before ++ (Some n, e) :: l :: rest).
  Local Notation part before x := (before ++ (Some n, x) :: l :: rest).

  Lemma case_uses : forall c, reads c = [] -> forall before m, uses m (whole before) = uses m (part before c).
  Proof.
    intros c Rc. induction before as [|[[k|] f] before IH]; intros m; cbn [app].
    - change (times_read m e * uses n (l :: rest) + (if text_eqb m n then 0 else uses m (l :: rest)) = times_read m c * uses n (l :: rest) + (if text_eqb m n then 0 else uses m (l :: rest))).
      unfold times_read. now rewrite Re, Rc.
    - assert (N1 := after_nonempty before (l :: rest) (Some n, e)). assert (N2 := after_nonempty before (l :: rest) (Some n, c)).
      destruct (whole before) as [|k1 q1] eqn:E1; [contradiction|]. destruct (part before c) as [|k2 q2] eqn:E2; [contradiction|].
      change (times_read m f * uses k (k1 :: q1) + (if text_eqb m k then 0 else uses m (k1 :: q1)) = times_read m f * uses k (k2 :: q2) + (if text_eqb m k then 0 else uses m (k2 :: q2))).
      now rewrite !IH.
    - assert (N1 := after_nonempty before (l :: rest) (Some n, e)). assert (N2 := after_nonempty before (l :: rest) (Some n, c)).
      destruct (whole before) as [|k1 q1] eqn:E1; [contradiction|]. destruct (part before c) as [|k2 q2] eqn:E2; [contradiction|].
      change (uses m (k1 :: q1) = uses m (k2 :: q2)). apply IH.
  Qed.
  Lemma weighted_cons : forall sides env k f q v, q <> [] -> weighted sides env ((Some k, f) :: q) v =
    if uses k q =? 0 then weighted sides env q v
    else lsum (fo (fun x => occurrences x (joint sides env f) ^ uses k q * weighted sides (bind_value env (Some k) x) q v)) (nodup oz_dec (joint sides env f)).
  Proof. intros sides env k f [|k1 q] v H; [contradiction | apply weighted_some]. Qed.
  Lemma weighted_skip : forall sides env f q v, q <> [] -> weighted sides env ((None, f) :: q) v = weighted sides env q v.
  Proof. intros sides env f [|k1 q] v H; [contradiction | reflexivity]. Qed.

  Context (c : Z -> expr) (Rc : forall x, In (Some x) (joint faces no_values e) -> reads (c x) = []) (Jc : forall x env, In (Some x) (joint faces no_values e) -> joint faces env (c x) = [Some x]).
  Lemma joint_e : forall env, joint faces env e = joint faces no_values e.
  Proof. intros env. apply joint_agree. rewrite Re. intros m []. Qed.
  Lemma occurrences_one : forall x : Z, occurrences x [Some x] = 1.
  Proof. intros x. unfold occurrences. cbn [filter]. now rewrite Z.eqb_refl. Qed.

  Lemma case_weighted : uses n (l :: rest) <> 0 -> forall v before env, weighted faces env (whole before) v =
    lsum (fo (fun x => occurrences x (joint faces no_values e) ^ uses n (l :: rest) * weighted faces env (part before (c x)) v)) (nodup oz_dec (joint faces no_values e)).
  Proof.
    intros U v. assert (U0 : uses n (l :: rest) =? 0 = false) by now apply Z.eqb_neq. induction before as [|[[k|] f] before IH]; intros env; cbn [app].
    - rewrite weighted_some, U0, joint_e. apply lsum_ext. intros [x|] I; [|reflexivity]. cbn [fo]. apply nodup_In in I. rewrite weighted_some, U0, (Jc x env I).
      change (nodup oz_dec [Some x]) with [Some x]. rewrite lsum_cons, lsum_nil. cbn [fo]. rewrite occurrences_one, Z.pow_1_l by apply uses_nonneg. lia.
    - rewrite weighted_cons by apply after_nonempty. destruct (uses k (whole before) =? 0) eqn:Uk.
      + rewrite IH. apply lsum_ext. intros [x|] I; [|reflexivity]. cbn [fo]. apply nodup_In in I. rewrite weighted_cons by apply after_nonempty. now rewrite <- (case_uses (c x) (Rc x I)), Uk.
      + rewrite (lsum_ext _ _ (fun y => lsum (fun z => fo (fun x => occurrences x (joint faces no_values e) ^ uses n (l :: rest) *
          fo (fun y => occurrences y (joint faces env f) ^ uses k (whole before) * weighted faces (bind_value env (Some k) y) (part before (c x)) v) y) z) (nodup oz_dec (joint faces no_values e)))).
        * rewrite lsum_swap. apply lsum_ext. intros [x|] I; cbn [fo]; [|rewrite lsum_zero; reflexivity]. apply nodup_In in I.
          rewrite weighted_cons by apply after_nonempty. rewrite <- (case_uses (c x) (Rc x I)), Uk, lsum_scale. reflexivity.
        * intros [y|] _; cbn [fo].
          -- rewrite IH, <- lsum_scale. apply lsum_ext. intros [x|] _; cbn [fo]; ring.
          -- rewrite (lsum_ext _ _ (fun _ => 0)); [symmetry; apply lsum_zero|]. intros [x|] _; cbn [fo]; ring.
    - rewrite weighted_skip by apply after_nonempty. rewrite IH. apply lsum_ext. intros [x|] _; [|reflexivity]. cbn [fo]. now rewrite weighted_skip by apply after_nonempty.
  Qed.
  Lemma unused_weighted : uses n (l :: rest) = 0 -> forall c', reads c' = [] -> forall v before env, weighted faces env (whole before) v = weighted faces env (part before c') v.
  Proof.
    intros U c' R' v. induction before as [|[[k|] f] before IH]; intros env; cbn [app].
    - rewrite !weighted_some, U. reflexivity.
    - rewrite !weighted_cons by apply after_nonempty. rewrite <- (case_uses c' R'). destruct (_ =? 0); [apply IH|]. apply lsum_ext. intros [x|] _; [|reflexivity]. cbn [fo]. now rewrite IH.
    - rewrite !weighted_skip by apply after_nonempty. apply IH.
  Qed.
  Lemma unused_used : uses n (l :: rest) = 0 -> forall c', reads c' = [] -> forall sides before env, used_results sides env (whole before) = used_results sides env (part before c').
  Proof.
    intros U c' R' sides. induction before as [|[[k|] f] before IH]; intros env; cbn [app].
    - rewrite !used_results_some, U. reflexivity.
    - assert (X := case_uses c' R' before k). assert (N1 := after_nonempty before (l :: rest) (Some n, e)). assert (N2 := after_nonempty before (l :: rest) (Some n, c')).
      destruct (whole before) as [|k1 q1] eqn:E1; [contradiction|]. destruct (part before c') as [|k2 q2] eqn:E2; [contradiction|].
      rewrite !used_results_some, <- X. destruct (_ =? 0); [apply IH|]. rewrite !flat_map_concat_map. f_equal. apply map_ext. intros [x|]; [apply IH | reflexivity].
    - assert (N1 := after_nonempty before (l :: rest) (Some n, e)). assert (N2 := after_nonempty before (l :: rest) (Some n, c')).
      destruct (whole before) as [|k1 q1] eqn:E1; [contradiction|]. destruct (part before c') as [|k2 q2] eqn:E2; [contradiction|]. exact (IH env).
  Qed.
End Weighted.

(** ** Programs *)
Lemma good_case : forall before n e rest t x, good_program (before ++ (Some n, e) :: rest) -> int_of_text t = Ok x -> good_program (before ++ (Some n, EInt t) :: rest).
Proof.
  intros before n e rest t x [_ [C G]] Ht. split; [apply after_nonempty|]. split.
  - clear G. revert C. generalize (@nil text). induction before as [|[m f] before IH]; intros known; cbn [app closed]; [|intros [A B]; split; auto].
    intros [_ B]. split; auto. intros m [].
  - intros m f I. apply in_app_or in I. destruct I as [I|[I|I]].
    + apply G, in_or_app. now left.
    + injection I as <- <-. split; [now exists x|]. apply (G (Some n) e), in_or_app. right. now left.
    + apply G, in_or_app. right. now right.
Qed.
Lemma runnable_case : forall before n e rest t x, runnable (before ++ (Some n, e) :: rest) -> int_of_text t = Ok x -> runnable (before ++ (Some n, EInt t) :: rest).
Proof.
  intros before n e rest t x [_ [C G]] Ht. split; [apply after_nonempty|]. split.
  - clear G. revert C. generalize (@nil text). induction before as [|[m f] before IH]; intros known; cbn [app closed]; [|intros [A B]; split; auto].
    intros [_ B]. split; auto. intros m [].
  - intros m f I. apply in_app_or in I. destruct I as [I|[I|I]].
    + apply G, in_or_app. now left.
    + injection I as <- <-. split; [now exists x|]. split; [exact Logic.I|]. apply (G (Some n) e), in_or_app. right. now left.
    + apply G, in_or_app. right. now right.
Qed.
Lemma case_dice : forall before n e rest t, incl (program_dice (before ++ (Some n, EInt t) :: rest)) (program_dice (before ++ (Some n, e) :: rest)).
Proof. intros before n e rest t m. unfold program_dice. rewrite !flat_map_app. cbn [flat_map snd dice_of app]. rewrite !in_app_iff. tauto. Qed.
Lemma case_uniform : forall before n e l rest t x, reads e = [] -> int_of_text t = Ok x -> used_once_or_uniform (before ++ (Some n, e) :: l :: rest) ->
  used_once_or_uniform (before ++ (Some n, EInt t) :: l :: rest).
Proof.
  intros before n e l rest t x Re Ht. induction before as [|[[k|] f] before IH]; cbn [app used_once_or_uniform]; auto.
  - intros [_ B]. split; auto. right. exists 1. split; [lia|]. intros env y. cbn [joint]. rewrite Ht. unfold occurrences. cbn [filter]. destruct (x =? y); auto.
  - rewrite (case_uses n e l rest Re (EInt t) eq_refl before k). intros [A B]. split; auto.
Qed.
Lemma e_in : forall before n e (rest : program), In (Some n, e) (before ++ (Some n, e) :: rest).
Proof. intros. apply in_or_app. right. now left. Qed.
Lemma e_dice : forall before n e rest, incl (program_dice [(None, e)]) (program_dice (before ++ (Some n, e) :: rest)).
Proof. intros before n e rest m. unfold program_dice. rewrite flat_map_app. cbn [flat_map snd]. rewrite app_nil_r, !in_app_iff. tauto. Qed.

Section Reported.
  Context (R : Runtime).
  Notation dist := (dist R).

  (** the number that a case sets the variable to *)
  Definition number (x : Z) (t : text) : Prop := int_of_text t = Ok x.
  Lemma number_joint : forall sides x t env, number x t -> joint sides env (EInt t) = [Some x].
  Proof. intros sides x t env H. cbn [joint]. now rewrite H. Qed.
  Lemma numbers : forall (P : Z -> text -> Prop) (xs : list Z), (forall x, In x xs -> exists t, P x t) -> exists c : Z -> text, forall x, In x xs -> P x (c x).
  Proof.
    intros P. induction xs as [|x xs IH]; intros H; [exists (fun _ => []); intros x []|].
    destruct (H x (or_introl eq_refl)) as [t Ht]. destruct (IH (fun y I => H y (or_intror I))) as [c Hc]. exists (fun y => if y =? x then t else c y).
    intros y I. destruct (y =? x) eqn:E; [apply Z.eqb_eq in E; now subst|]. destruct I as [<-|I]; [rewrite Z.eqb_refl in E; discriminate | auto].
  Qed.

  Lemma cases_ways : forall before n e rest s lines d de (dx : Z -> dist), rest <> [] -> reads e = [] -> good_program (before ++ (Some n, e) :: rest) ->
    program_text lines (before ++ (Some n, e) :: rest) -> reachable R s -> reports R s lines d -> alone R e de -> (forall x, listed R de x -> case R before n rest x (dx x)) ->
    uses n rest <> 0 -> forall v, reported R d v = zsum (map (fun xw => snd xw ^ uses n rest * reported R (dx (fst xw)) v) (get_result_map R de)).
  Proof.
    intros before n e rest s lines d de dx Nr Re G T Hs H [t [s1 [Pt [Hs1 Hd]]]] C U v. destruct rest as [|l rest]; [contradiction|].
    assert (Se : simple e) by (apply (proj2 (proj2 G) (Some n)), e_in). destruct (alone_joint R e t s1 de Se Re Pt Hs1 Hd) as [D A]. destruct (A no_values) as [_ [Nn [A1 A2]]].
    assert (Sub : forall x, In (Some x) (joint faces no_values e) -> listed R de x) by (intros x I; apply A1; revert I; apply joint_incl; intros m _ y; apply faces_sides).
    destruct (numbers (fun x t => number x t /\ exists lx sx, program_text lx (before ++ (Some n, EInt t) :: l :: rest) /\ reachable R sx /\ reports R sx lx (dx x)) (map fst (get_result_map R de))) as [c Hc].
    { intros x I. destruct (C x I) as [lx [sx [[tx [X1 X2]] [X3 X4]]]]. exists tx. split; [exact X1|]. exists lx, sx. auto. }
    assert (Hw : forall x, listed R de x -> reported R (dx x) v = weighted faces no_values (before ++ (Some n, EInt (c x)) :: l :: rest) v).
    { intros x I. destruct (Hc x I) as [X1 [lx [sx [X2 [X3 X4]]]]]. apply (weighted_counts R sx lx); auto. now apply (good_case before n e _ _ x). }
    rewrite (weighted_counts R s lines _ d Hs T G H v), (case_weighted n e l rest Re (fun x => EInt (c x))); auto; cycle 1.
    { intros x env I. apply number_joint, Hc, Sub, I. }
    transitivity (lsum (fun x => reported R de x ^ uses n (l :: rest) * reported R (dx x) v) (map fst (get_result_map R de))).
    - transitivity (lsum (fo (fun x => occurrences x (joint faces no_values e) ^ uses n (l :: rest) * weighted faces no_values (before ++ (Some n, EInt (c x)) :: l :: rest) v)) (map Some (map fst (get_result_map R de)))).
      + apply (lsum_same_support _ oz_dec); [apply NoDup_nodup | | |].
        * apply FinFun.Injective_map_NoDup; [intros a b E; congruence | apply result_map_nodup].
        * intros [x|] I X; [|destruct X; reflexivity]. apply nodup_In in I. apply in_map, Sub, I.
        * intros [x|] _ X; [|destruct X; reflexivity]. apply nodup_In. cbn [fo] in X. destruct (in_dec oz_dec (Some x) (joint faces no_values e)) as [|O]; auto. exfalso. apply X.
          rewrite <- howmany_some, howmany_out, Z.pow_0_l; auto. pose proof (uses_nonneg n (l :: rest)). lia.
      + rewrite lsum_map. apply lsum_ext. intros x I. cbn [fo]. rewrite A2, Hw by exact I. reflexivity.
    - unfold lsum. rewrite map_map. f_equal. pose proof (result_map_nodup R de) as ND. unfold reported at 1. apply map_ext_in. intros [x w] I. cbn [fst snd].
      enough (E : dget Z.eqb (get_result_map R de) x = Some w) by now rewrite E. clear - ND I. induction (get_result_map R de) as [|[k y] r IH]; [destruct I|]. cbn [dget map fst] in *.
      inversion ND; subst. destruct I as [E|I]; [injection E as -> ->; now rewrite Z.eqb_refl|]. destruct (k =? x) eqn:E; [|auto]. apply Z.eqb_eq in E. subst k. exfalso. apply H1.
      apply (in_map fst) in I. exact I.
  Qed.

  Lemma cases_unused : forall before n e rest s lines d x dx, rest <> [] -> reads e = [] -> good_program (before ++ (Some n, e) :: rest) ->
    program_text lines (before ++ (Some n, e) :: rest) -> reachable R s -> reports R s lines d -> case R before n rest x dx -> uses n rest = 0 -> same_results R d dx.
  Proof.
    intros before n e rest s lines d x dx Nr Re G T Hs H [lx [sx [[tx [X1 X2]] [X3 X4]]]] U v. destruct rest as [|l rest]; [contradiction|].
    assert (G' := good_case before n e _ tx x G X1). destruct (program_run R s lines _ d Hs T G H) as [s1 [E1 I1]]. destruct (program_run R sx lx _ dx X3 X2 G' X4) as [s2 [E2 I2]]. split.
    - rewrite (run_listed R true _ s s1 d I1 G E1 v), (run_listed R true _ sx s2 dx I2 G' E2 v), (unused_used n e l rest Re U (EInt tx) eq_refl). reflexivity.
    - rewrite (run_reported R true _ s s1 d I1 G E1 v), (run_reported R true _ sx s2 dx I2 G' E2 v). now apply unused_weighted.
  Qed.

  Lemma cases_values : forall before n e rest s lines d de (dx : Z -> dist), rest <> [] -> reads e = [] -> good_program (before ++ (Some n, e) :: rest) -> rollable (before ++ (Some n, e) :: rest) ->
    program_text lines (before ++ (Some n, e) :: rest) -> reachable R s -> reports R s lines d -> alone R e de -> (forall x, listed R de x -> case R before n rest x (dx x)) ->
    forall v, (listed R d v <-> exists x, listed R de x /\ listed R (dx x) v) /\
      (reported R d v <> 0 <-> exists x, listed R de x /\ reported R de x <> 0 /\ reported R (dx x) v <> 0).
  Proof.
    intros before n e rest s lines d de dx Nr Re G Rp T Hs H [t [s1 [Pt [Hs1 Hd]]]] C v. destruct rest as [|l rest]; [contradiction|].
    assert (Se : simple e) by (apply (proj2 (proj2 G) (Some n)), e_in). destruct (alone_joint R e t s1 de Se Re Pt Hs1 Hd) as [D A]. destruct (A no_values) as [_ [Nn [A1 A2]]].
    assert (Sub : forall x, In (Some x) (joint faces no_values e) -> listed R de x) by (intros x I; apply A1; revert I; apply joint_incl; intros m _ y; apply faces_sides).
    destruct (numbers (fun x t => number x t /\ exists lx sx, program_text lx (before ++ (Some n, EInt t) :: l :: rest) /\ reachable R sx /\ reports R sx lx (dx x)) (map fst (get_result_map R de))) as [c Hc].
    { intros x I. destruct (C x I) as [lx [sx [[tx [X1 X2]] [X3 X4]]]]. exists tx. split; [exact X1|]. exists lx, sx. auto. }
    assert (Hp : forall x, listed R de x -> (reported R (dx x) v <> 0 <-> In (Some v) (results faces no_values (before ++ (Some n, EInt (c x)) :: l :: rest))) /\
      (listed R (dx x) v <-> In (Some v) (results (map fst) no_values (before ++ (Some n, EInt (c x)) :: l :: rest)))).
    { intros x I. destruct (Hc x I) as [X1 [lx [sx [X2 [X3 X4]]]]]. apply (results_possible R sx lx); auto; [now apply (good_case before n e _ _ x)|].
      intros m J. apply Rp. revert J. apply case_dice. }
    destruct (results_possible R s lines _ d Hs T G Rp H v) as [B1 B2]. rewrite B1, B2. split.
    - rewrite (case_member (joint (map fst)) (results (map fst)) (results_cons (map fst)) n e l rest (joint (map fst) no_values e) ltac:(intros env; apply joint_agree; rewrite Re; intros m [])
        (fun x => EInt (c x)) ltac:(intros x env I; apply number_joint, Hc, A1, I)).
      split; intros [x [I1 I2]]; exists x; (split; [now apply A1|]); apply Hp; auto. now apply A1.
    - rewrite (case_member (joint faces) (results faces) (results_cons faces) n e l rest (joint faces no_values e) ltac:(intros env; apply joint_agree; rewrite Re; intros m [])
        (fun x => EInt (c x)) ltac:(intros x env I; apply number_joint, Hc, Sub, I)).
      assert (O : forall x, reported R de x <> 0 <-> In (Some x) (joint faces no_values e)).
      { intros x. rewrite A2, <- howmany_some. split; [intros X; destruct (in_dec oz_dec (Some x) (joint faces no_values e)) as [|O]; auto; exfalso; apply X; now apply howmany_out|].
        intros I. unfold howmany. intros X. assert (Y : In (Some x) (filter (fun y => if oz_dec y (Some x) then true else false) (joint faces no_values e))) by (apply filter_In; split; auto; now destruct (oz_dec (Some x) (Some x))).
        revert X Y. destruct (filter _ _); [intros _ [] | cbn [length]; lia]. }
      split.
      + intros [x [I1 I2]]. exists x. split; [auto|]. split; [now apply O|]. apply Hp; auto.
      + intros [x [I0 [I1 I2]]]. exists x. split; [now apply O|]. now apply Hp.
  Qed.

  Lemma cases_raise : forall before n e rest s lines de s' (lx : Z -> list text) y, rest <> [] -> reads e = [] -> good_program (before ++ (Some n, e) :: rest) -> sided (before ++ (Some n, e) :: rest) ->
    program_text lines (before ++ (Some n, e) :: rest) -> reachable R s -> reachable R s' -> alone R e de -> (forall x, listed R de x -> case_lines before n rest x (lx x)) ->
    (distribution_raises R s lines y <-> exists x, listed R de x /\ distribution_raises R s' (lx x) y).
  Proof.
    intros before n e rest s lines de s' lx y Nr Re G Sd T Hs Hs' [t [s1 [Pt [Hs1 Hd]]]] C. destruct rest as [|l rest]; [contradiction|].
    assert (Se : simple e) by (apply (proj2 (proj2 G) (Some n)), e_in). destruct (alone_joint R e t s1 de Se Re Pt Hs1 Hd) as [D A]. destruct (A no_values) as [Nn [_ [A1 A2]]].
    destruct (numbers (fun x t => number x t /\ program_text (lx x) (before ++ (Some n, EInt t) :: l :: rest)) (map fst (get_result_map R de))) as [c Hc].
    { intros x I. destruct (C x I) as [tx [X1 X2]]. exists tx. split; [exact X1 | exact X2]. }
    rewrite (raises_exactly R s lines _ y Hs T G Sd).
    rewrite (case_none (joint (map fst)) (results (map fst)) (results_cons (map fst)) n e l rest (joint (map fst) no_values e) ltac:(intros env; apply joint_agree; rewrite Re; intros m [])
        (fun x => EInt (c x)) ltac:(intros x env I; apply number_joint, Hc, A1, I)).
    - assert (Q : forall x, listed R de x -> (distribution_raises R s' (lx x) y <-> y = ZeroDivisionError /\ In None (results (map fst) no_values (before ++ (Some n, EInt (c x)) :: l :: rest)))).
      { intros x I. destruct (Hc x I) as [X1 X2]. apply raises_exactly; auto; [now apply (good_case before n e _ _ x)|]. intros m J. apply Sd. revert J. apply case_dice. }
      split.
      + intros [E [I|[x [I1 I2]]]]; [contradiction|]. exists x. apply A1 in I1. split; auto. apply Q; auto.
      + intros [x [I1 I2]]. apply Q in I2; auto. destruct I2 as [E I2]. split; auto. right. exists x. split; auto. now apply A1.
    - apply joint_nonempty. intros m I. apply map_nonempty, Sd. apply (e_dice before n e (l :: rest)). unfold program_dice. cbn [flat_map snd]. now rewrite app_nil_r.
    - intros m f env I. apply joint_nonempty. intros m' I'. apply map_nonempty, Sd. unfold program_dice. apply in_flat_map. exists (m, f). split; [apply in_or_app; now left | exact I'].
  Qed.
  Lemma first_raises : forall before n e rest s lines t s' y, rest <> [] -> reads e = [] -> good_program (before ++ (Some n, e) :: rest) -> sided (before ++ (Some n, e) :: rest) ->
    program_text lines (before ++ (Some n, e) :: rest) -> reachable R s -> reachable R s' -> parse t = Ok e -> distribution_raises R s' [t] y -> distribution_raises R s lines y.
  Proof.
    intros before n e rest s lines t s' y Nr Re G Sd T Hs Hs' Pt H. destruct rest as [|l rest]; [contradiction|].
    assert (Se : simple e) by (apply (proj2 (proj2 G) (Some n)), e_in).
    apply (raises_exactly R s' [t] [(None, e)] y Hs' (alone_text t e Pt) (alone_program e Se Re)) in H; [|intros m I; apply Sd; revert I; apply e_dice].
    destruct H as [-> H]. rewrite results_one in H. apply (raises_exactly R s lines _ _ Hs T G Sd). split; auto. clear T.
    assert (Q : forall before env, (forall m f env, In (m, f) before -> joint (map fst) env f <> []) -> In None (results (map fst) env (before ++ (Some n, e) :: l :: rest))).
    { clear - Re H. induction before as [|[m f] before IH]; intros env Nb; cbn [app].
      - rewrite results_cons. apply in_flat_map. exists None. split; [|now left]. rewrite (joint_agree (map fst) e env no_values); [exact H | rewrite Re; intros m []].
      - rewrite (P_cons (joint (map fst)) (results (map fst)) (results_cons (map fst))) by apply after_nonempty. apply in_flat_map.
        specialize (IH) with (1 := fun m' f' env' I => Nb m' f' env' (or_intror I)). assert (Nf := Nb m f env (or_introl eq_refl)).
        destruct (joint (map fst) env f) as [|[y|] jf]; [contradiction| |]; [exists (Some y) | exists None]; (split; [now left|]); [apply IH | now left]. }
    apply Q. intros m f env I. apply joint_nonempty. intros m' I'. apply map_nonempty, Sd. unfold program_dice. apply in_flat_map. exists (m, f). split; [apply in_or_app; now left | exact I'].
  Qed.
End Reported.

(** ** Probabilities *)
Lemma qtotal_scaled : forall (A : Type) (f : A -> Q) (g : A -> Z) (K : Q) l, (forall x, In x l -> (f x == inject_Z (g x) * K)%Q) -> (qtotal (map f l) == inject_Z (lsum g l) * K)%Q.
Proof.
  intros A f g K. induction l as [|x l IH]; intros H; [cbn; ring|]. cbn [map qtotal fold_right]. rewrite lsum_cons, inject_Z_plus. fold (qtotal (map f l)).
  rewrite IH by (intros y I; apply H; now right). rewrite (H x (or_introl eq_refl)). ring.
Qed.
Section Probabilities.
  Context (R : Runtime).
  Notation dist := (dist R).
  Notation keys d := (map fst (get_result_map R d)).
  Definition expected (d : dist) (g : Z -> Z) : Q := (inject_Z (lsum (fun v => g v * reported R d v)%Z (keys d)) / inject_Z (total_ways R d))%Q.

  Lemma cases_expected : forall before n e rest s lines d de (dx : Z -> dist), rest <> [] -> reads e = [] -> good_program (before ++ (Some n, e) :: rest) -> rollable (before ++ (Some n, e) :: rest) ->
    used_once_or_uniform (before ++ (Some n, e) :: rest) ->
    program_text lines (before ++ (Some n, e) :: rest) -> reachable R s -> reports R s lines d -> alone R e de -> (forall x, listed R de x -> case R before n rest x (dx x)) ->
    forall g, (expected d g == qtotal (map (fun x => probability R de x * expected (dx x) g) (map fst (get_result_map R de))))%Q.
  Proof.
    intros before n e rest s lines d de dx Nr Re G Rp U T Hs H [t [s1 [Pt [Hs1 Hd]]]] C g. destruct rest as [|l rest]; [contradiction|].
    assert (Se : simple e) by (apply (proj2 (proj2 G) (Some n)), e_in). destruct (alone_joint R e t s1 de Se Re Pt Hs1 Hd) as [D A]. destruct (A no_values) as [_ [Nn [A1 A2]]].
    assert (Sub : forall x, In (Some x) (joint faces no_values e) -> listed R de x) by (intros x I; apply A1; revert I; apply joint_incl; intros m _ y; apply faces_sides).
    destruct (numbers (fun x t => number x t /\ exists lx sx, program_text lx (before ++ (Some n, EInt t) :: l :: rest) /\ reachable R sx /\ reports R sx lx (dx x)) (map fst (get_result_map R de))) as [c Hc].
    { intros x I. destruct (C x I) as [lx [sx [[tx [X1 X2]] [X3 X4]]]]. exists tx. split; [exact X1|]. exists lx, sx. auto. }
    set (je := joint faces no_values e) in *. set (S x := lsum (fo g) (results faces no_values (before ++ (Some n, EInt (c x)) :: l :: rest))). set (L := sizes before * sizes (l :: rest)).
    destruct (uniform_sum R s lines _ d g Hs T G Rp U H) as [Pd [Nd [NEd Ed]]].
    assert (Ld : len (results faces no_values (before ++ (Some n, e) :: l :: rest)) = len je * L).
    { rewrite results_size; auto; [|apply after_nonempty]. rewrite sizes_app. cbn [sizes]. unfold L. fold je. cbn [sizes]. ring. }
    assert (Sd : lsum (fo g) (results faces no_values (before ++ (Some n, e) :: l :: rest)) = lsum (fun x => occurrences x je * S x) (map fst (get_result_map R de))).
    { rewrite (case_sum (joint faces) (results faces) (results_cons faces) n e l rest je ltac:(intros env; apply joint_agree; rewrite Re; intros m []) (fun x => EInt (c x))
        ltac:(intros x env I; apply number_joint, Hc, Sub, I)) by reflexivity.
      transitivity (lsum (fo S) je); [reflexivity|]. rewrite <- (keys_sum (map fst (get_result_map R de)) S je (result_map_nodup R de) Sub). apply lsum_ext. intros; ring. }
    assert (Ex : forall x, listed R de x -> (expected (dx x) g == inject_Z (S x) / inject_Z L)%Q).
    { intros x I. destruct (Hc x I) as [X1 [lx [sx [X2 [X3 X4]]]]]. assert (G' := good_case before n e _ _ x G X1).
      destruct (uniform_sum R sx lx _ (dx x) g X3 X2 G' ltac:(intros m J; apply Rp; revert J; apply case_dice) (case_uniform before n e l rest (c x) x Re X1 U) X4) as [Px [Nx [NEx Ex]]].
      assert (Lx : len (results faces no_values (before ++ (Some n, EInt (c x)) :: l :: rest)) = L).
      { rewrite results_size; auto; [|apply after_nonempty]. rewrite sizes_app. cbn [sizes]. unfold L. cbn [joint length sizes]. ring. }
      rewrite Lx in Ex. fold (S x) in Ex. assert (PL : 0 < L) by (rewrite <- Lx; clear - NEx; destruct (results faces no_values _); [congruence | cbn [length]; lia]).
      unfold expected. assert (Z1 : ~ (inject_Z (total_ways R (dx x)) == 0)%Q) by (unfold Qeq, inject_Z; cbn [Qnum Qden]; lia). assert (Z2 : ~ (inject_Z L == 0)%Q) by (unfold Qeq, inject_Z; cbn [Qnum Qden]; lia).
      apply (Qmult_inj_r _ _ (inject_Z (total_ways R (dx x)) * inject_Z L)); [intros Z0; apply Qmult_integral in Z0; tauto|].
      transitivity (inject_Z (lsum (fun v => g v * reported R (dx x) v) (keys (dx x)) * L)); [rewrite inject_Z_mult; field; assumption|]. rewrite Ex, inject_Z_mult. field. assumption. }
    assert (Te : total_ways R de = len je).
    { rewrite (total_count R de D), <- (reported_sum R de D), (lsum_ext _ _ (fun v => (fun _ => 1) v * occurrences v je)) by (intros v _; rewrite A2; lia).
      rewrite (keys_sum (map fst (get_result_map R de)) (fun _ => 1) je (result_map_nodup R de) Sub), (lsum_ext _ _ (fun _ => 1)); [rewrite lsum_const; lia|]. intros [y|] Iy; [reflexivity | contradiction]. }
    assert (PL : 0 < len je * L) by (rewrite <- Ld; destruct (results faces no_values _); [congruence | cbn [length]; lia]).
    assert (Pe : 0 < len je) by (destruct je; cbn [length] in *; lia). assert (PL' : 0 < L) by nia.
    assert (Q1 : ~ (inject_Z (len je) == 0)%Q) by (unfold Qeq, inject_Z; cbn [Qnum Qden]; lia). assert (Q2 : ~ (inject_Z L == 0)%Q) by (unfold Qeq, inject_Z; cbn [Qnum Qden]; lia).
    assert (Q3 : ~ (inject_Z (total_ways R d) == 0)%Q) by (unfold Qeq, inject_Z; cbn [Qnum Qden]; lia).
    rewrite (qtotal_scaled _ _ (fun x => occurrences x je * S x) (/ (inject_Z (len je) * inject_Z L))).
    - rewrite <- Sd. unfold expected. rewrite Ld in Ed.
      apply (Qmult_inj_r _ _ (inject_Z (total_ways R d) * (inject_Z (len je) * inject_Z L))); [intros Z0; apply Qmult_integral in Z0; destruct Z0 as [Z0|Z0]; [tauto|]; apply Qmult_integral in Z0; tauto|].
      transitivity (inject_Z (lsum (fun v => g v * reported R d v) (keys d) * (len je * L))); [rewrite !inject_Z_mult; field; assumption|]. rewrite Ed, inject_Z_mult. field. auto.
    - intros x I. rewrite (Ex x I). unfold probability. rewrite Te, A2, inject_Z_mult. field. auto.
  Qed.

  Lemma expected_probability : forall d v, (expected d (fun w => if (w =? v)%Z then 1 else 0)%Z == probability R d v)%Q.
  Proof.
    intros d v. unfold expected, probability. assert (E : lsum (fun w => (if w =? v then 1 else 0) * reported R d w) (keys d) = reported R d v); [|now rewrite E].
    destruct (in_dec Z.eq_dec v (keys d)) as [I|I].
    - rewrite (lsum_ext _ _ (fun w => if w =? v then reported R d v else 0)) by (intros w _; destruct (w =? v) eqn:X; [apply Z.eqb_eq in X; subst|]; lia).
      apply (lsum_indicator _ v (fun _ => reported R d v)); [apply result_map_nodup | exact I].
    - rewrite (lsum_ext _ _ (fun _ => 0)).
      + rewrite lsum_zero. symmetry. unfold reported. destruct (dget Z.eqb (get_result_map R d) v) as [c|] eqn:X; auto. exfalso. apply I. clear I. 
        induction (get_result_map R d) as [|[k y] r IH]; [discriminate|]. cbn [dget] in X. cbn [map fst]. destruct (k =? v) eqn:K; [apply Z.eqb_eq in K; now left | right; auto].
      + intros w Iw. destruct (w =? v) eqn:X; [apply Z.eqb_eq in X; subst; contradiction | lia].
  Qed.
  Lemma expected_mean : forall d, dinv R d -> (expected d (fun v => v) == mean R d)%Q.
  Proof. intros d D. unfold expected, mean. now rewrite (sum_reported R d D). Qed.
  Lemma expected_at_least : forall d v, (expected d (fun w => if (v <=? w)%Z then 1 else 0)%Z == probability_at_least R d v)%Q.
  Proof. intros d v. unfold expected, probability_at_least. now rewrite ways_where_reported. Qed.
  Lemma qtotal_ext : forall (A : Type) (f g : A -> Q) l, (forall x, In x l -> (f x == g x)%Q) -> (qtotal (map f l) == qtotal (map g l))%Q.
  Proof.
    intros A f g. induction l as [|x l IH]; intros H; [reflexivity|]. cbn [map qtotal fold_right]. fold (qtotal (map f l)) (qtotal (map g l)).
    rewrite IH by (intros y I; apply H; now right). now rewrite (H x (or_introl eq_refl)).
  Qed.

  Lemma cases_probability : forall before n e rest s lines d de (dx : Z -> dist), rest <> [] -> reads e = [] -> good_program (before ++ (Some n, e) :: rest) -> rollable (before ++ (Some n, e) :: rest) ->
    used_once_or_uniform (before ++ (Some n, e) :: rest) ->
    program_text lines (before ++ (Some n, e) :: rest) -> reachable R s -> reports R s lines d -> alone R e de -> (forall x, listed R de x -> case R before n rest x (dx x)) ->
    let average f := qtotal (map (fun x => probability R de x * f (dx x))%Q (map fst (get_result_map R de))) in
    (forall v, (probability R d v == average (fun d => probability R d v))%Q) /\ (forall v, (probability_at_least R d v == average (fun d => probability_at_least R d v))%Q) /\
    (mean R d == average (mean R))%Q.
  Proof.
    intros before n e rest s lines d de dx Nr Re G Rp U T Hs H He C average. assert (X := cases_expected before n e rest s lines d de dx Nr Re G Rp U T Hs H He C).
    assert (Ave : forall f g, (forall d', (exists p lx sx, d' = d' /\ program_text lx p /\ good_program p /\ reachable R sx /\ reports R sx lx d') -> (expected d' g == f d')%Q) -> (f d == average f)%Q).
    { intros f g E. rewrite <- E, X.
      - apply qtotal_ext. intros x I. rewrite E; [reflexivity|]. destruct (C x I) as [lx [sx [[tx [X1 X2]] [X3 X4]]]]. eexists _, lx, sx. split; auto. split; [exact X2|].
        split; [now apply (good_case before n e _ _ x) | auto].
      - exists (before ++ (Some n, e) :: rest), lines, s. auto. }
    split; [|split].
    - intros v. apply (Ave (fun d => probability R d v) _ (fun d' _ => expected_probability d' v)).
    - intros v. apply (Ave (fun d => probability_at_least R d v) _ (fun d' _ => expected_at_least d' v)).
    - apply (Ave (mean R) (fun v => v)). intros d' [p [lx [sx [_ [A1 [A2 [A3 A4]]]]]]]. apply expected_mean. destruct (program_run R sx lx p d' A3 A1 A2 A4) as [s2 [E2 I2]].
      exact (run_dinv R true p sx s2 d' I2 A2 E2).
  Qed.
End Probabilities.

(** ** Rolls *)
Section Rolls.
  Context (R : Runtime).
  Lemma rolled_cons : forall env n e l p, rolled_program env ((n, e) :: l :: p) = flat_map (fun x => match x with Some x => rolled_program (bind_value env n x) (l :: p) | None => [None] end) (rolled env e).
  Proof. intros. destruct n; reflexivity. Qed.
  Lemma alone_runnable : forall before n e rest, runnable (before ++ (Some n, e) :: rest) -> reads e = [] -> runnable [(None, e)].
  Proof.
    intros before n e rest [_ [_ G]] Re. split; [discriminate|]. split; [split; [rewrite Re; intros m []|exact Logic.I]|].
    intros m f [I|[]]. injection I as <- <-. destruct (G (Some n) e (e_in before n e rest)) as [A [B _]]. auto.
  Qed.
  Lemma cases_rolls : forall before n e rest s lines t s' sx (lx : Z -> list text), rest <> [] -> reads e = [] -> runnable (before ++ (Some n, e) :: rest) -> drawable (before ++ (Some n, e) :: rest) ->
    program_text lines (before ++ (Some n, e) :: rest) -> parse t = Ok e -> (forall x, can_roll R s' [t] x -> case_lines before n rest x (lx x)) ->
    (forall v, can_roll R s lines v <-> exists x, can_roll R s' [t] x /\ can_roll R sx (lx x) v) /\
    (forall y, can_raise R s lines y <-> can_raise R s' [t] y \/ exists x, can_roll R s' [t] x /\ can_raise R sx (lx x) y) /\
    (forall xs, NoDup xs -> (forall x, In x xs <-> can_roll R s' [t] x) -> forall v, roll_weight R s lines v = zsum (map (fun x => roll_weight R s' [t] x * roll_weight R sx (lx x) v) xs)).
  Proof.
    intros before n e rest s lines t s' sx lx Nr Re Ru Dr T Pt C. destruct rest as [|l rest]; [contradiction|].
    assert (Rue := alone_runnable before n e _ Ru Re). assert (Dre : drawable [(None, e)]) by (intros m I; apply Dr; revert I; apply e_dice).
    destruct (roll_semantics R s' [t] _ (alone_text t e Pt) Rue Dre) as [A1 [A2 _]]. cbn [rolled_program] in A1, A2.
    assert (A3 := fun y => roll_raises R s' [t] _ y (alone_text t e Pt) Rue Dre). cbn [rolled_program] in A3.
    set (je := rolled no_values e) in *. assert (Je : forall env, rolled env e = je) by (intros env; apply rolled_agree; rewrite Re; intros m []).
    destruct (numbers (fun x t => In (Some x) je -> number x t /\ program_text (lx x) (before ++ (Some n, EInt t) :: l :: rest))
      (map (fun x => match x with Some x => x | None => 0 end) je)) as [c0 Hc0].
    { intros x I. destruct (in_dec oz_dec (Some x) je) as [J|J]; [|exists []; intros; contradiction]. destruct (C x (proj2 (A1 x) J)) as [tx [X1 X2]]. exists tx. intros _. split; [exact X1 | exact X2]. }
    assert (Hc : forall x, In (Some x) je -> number x (c0 x) /\ program_text (lx x) (before ++ (Some n, EInt (c0 x)) :: l :: rest)).
    { intros x I. apply Hc0; auto. apply in_map_iff. exists (Some x). auto. }
    assert (Jc : forall x env, In (Some x) je -> rolled env (EInt (c0 x)) = [Some x]) by (intros x env I; cbn [rolled]; now rewrite (proj1 (Hc x I))).
    assert (Q : forall x, In (Some x) je -> let q := before ++ (Some n, EInt (c0 x)) :: l :: rest in program_text (lx x) q /\ runnable q /\ drawable q).
    { intros x I. destruct (Hc x I) as [X1 X2]. split; [exact X2|]. split; [now apply (runnable_case before n e _ _ x)|]. intros m J. apply Dr. revert J. apply case_dice. }
    destruct (roll_semantics R s lines _ T Ru Dr) as [B1 [B2 _]].
    split; [|split].
    - intros v. rewrite B1, (case_member rolled rolled_program rolled_cons n e l rest je Je (fun x => EInt (c0 x)) Jc).
      split; intros [x [I1 I2]].
      + exists x. split; [now apply A1|]. destruct (Q x I1) as [Q1 [Q2 Q3]]. now apply (roll_semantics R sx (lx x) _ Q1 Q2 Q3).
      + apply A1 in I1. exists x. split; auto. destruct (Q x I1) as [Q1 [Q2 Q3]]. now apply (roll_semantics R sx (lx x) _ Q1 Q2 Q3).
    - intros y. rewrite (roll_raises R s lines _ y T Ru Dr), A3.
      rewrite (case_none rolled rolled_program rolled_cons n e l rest je Je (fun x => EInt (c0 x)) Jc).
      + split.
        * intros [E [I|[x [I1 I2]]]]; [left; auto|]. right. exists x. split; [now apply A1|]. destruct (Q x I1) as [Q1 [Q2 Q3]]. apply (roll_raises R sx (lx x) _ y Q1 Q2 Q3). auto.
        * intros [[E I]|[x [I1 I2]]]; [auto|]. apply A1 in I1. destruct (Q x I1) as [Q1 [Q2 Q3]]. apply (roll_raises R sx (lx x) _ y Q1 Q2 Q3) in I2. destruct I2 as [E I2]. split; auto. right. eauto.
      + apply RollFacts.rolled_nonempty. intros m I. apply Dre. unfold program_dice. cbn [flat_map snd]. now rewrite app_nil_r.
      + intros m f env I. apply RollFacts.rolled_nonempty. intros m' I'. apply Dr. unfold program_dice. apply in_flat_map. exists (m, f). split; [apply in_or_app; now left | exact I'].
    - intros xs Nd Hx v. rewrite B2, (case_occurrences rolled rolled_program rolled_cons n e l rest je Je (fun x => EInt (c0 x)) Jc).
      rewrite <- (keys_sum xs _ je Nd) by (intros x I; apply Hx, A1, I). unfold lsum. f_equal. apply map_ext_in. intros x I. apply Hx, A1 in I. destruct (Q x I) as [Q1 [Q2 Q3]].
      rewrite A2. destruct (roll_semantics R sx (lx x) _ Q1 Q2 Q3) as [_ [-> _]]. ring.
  Qed.
End Rolls.
