(** * MomentProofs: C81 *)
From Coq Require Import QArith Permutation Lqa Qfield.
From Verif Require Import Py PyFacts PyFloat Constraint Distribution DistFacts DiceModel Expr Parser Interp Instances SpecDice DropKeepFacts DiceFacts DiceProofs SpecProgram SpecRoll
  SpecInterp SpecAlgebra AlgebraFacts ExprFacts SpecProb BetterProofs SpecCases CaseProofs SpecSame SameProofs SpecSplit SplitProofs SpecPool PoolProofs CountProofs SpecAlgebra.
Local Open Scope Z_scope.

(** ** Sums and squares over all rolls *)
Lemma sum_rolls : forall fs n, len fs * lsum total (tuples n fs) = Z.of_nat n * len fs ^ Z.of_nat n * lsum (fun x => x) fs.
Proof.
  intros fs n. induction n as [|n IH]; [unfold lsum; cbn [tuples map]; rewrite zsum_cons; change (total []) with 0; change (zsum []) with 0; change (Z.of_nat 0) with 0; lia|].
  rewrite lsum_tuples. rewrite (lsum_ext _ _ (fun x => len fs ^ Z.of_nat n * x + lsum total (tuples n fs))).
  - rewrite lsum_plus, lsum_scale, lsum_const, Nat2Z.inj_succ, Z.pow_succ_r by lia. nia.
  - intros x _. rewrite (lsum_ext _ _ (fun t => x + total t)) by (intros t _; apply total_cons). rewrite lsum_plus, lsum_const, tuples_count. ring.
Qed.
Lemma square_rolls : forall fs n, len fs * len fs * lsum (fun t => total t * total t) (tuples n fs) =
  len fs ^ Z.of_nat n * (Z.of_nat n * len fs * lsum (fun x => x * x) fs + Z.of_nat n * (Z.of_nat n - 1) * (lsum (fun x => x) fs * lsum (fun x => x) fs)).
Proof.
  intros fs n. induction n as [|n IH]; [unfold lsum; cbn [tuples map]; rewrite zsum_cons; change (total []) with 0; change (zsum []) with 0; change (Z.of_nat 0) with 0; lia|].
  rewrite lsum_tuples. rewrite (lsum_ext _ _ (fun x => len fs ^ Z.of_nat n * (x * x) + (2 * lsum total (tuples n fs)) * x + lsum (fun t => total t * total t) (tuples n fs))).
  - rewrite !lsum_plus, !lsum_scale, lsum_const, Nat2Z.inj_succ, Z.pow_succ_r by lia. assert (A := sum_rolls fs n).
    set (L := len fs) in *. set (P := L ^ Z.of_nat n) in *. set (s1 := lsum (fun x => x) fs) in *. set (s2 := lsum (fun x => x * x) fs) in *. set (T := lsum total (tuples n fs)) in *.
    set (Q := lsum (fun t => total t * total t) (tuples n fs)) in *. set (k := Z.of_nat n) in *.
    replace (L * L * (P * s2 + 2 * T * s1 + Q * L)) with (L * L * P * s2 + 2 * L * s1 * (L * T) + L * (L * L * Q)) by ring. rewrite A, IH. unfold Z.succ. ring.
  - intros x _. rewrite (lsum_ext _ _ (fun t => x * x + 2 * x * total t + total t * total t)) by (intros t _; rewrite total_cons; ring).
    rewrite !lsum_plus, (lsum_scale _ total (2 * x)), lsum_const, tuples_count. ring.
Qed.

Section Moments.
  Context (R : Runtime).
  Notation dist := (Distribution.dist R).
  Notation keys d := (map fst (get_result_map R d)).
  Notation fq x := (inject_Z x).

  Lemma len_pos : forall (fs : list Z), fs <> [] -> 0 < len fs.
  Proof. intros [|x l] H; [congruence|]. cbn [length]. lia. Qed.
  Lemma dice_moments : forall m n (d : dist), faces m <> [] -> dice_report R m n d ->
    (mean R d == fq n * (fq (lsum (fun x => x) (faces m)) / fq (len (faces m))))%Q /\
    (variance R d == fq n * (fq (lsum (fun x => x * x)%Z (faces m)) / fq (len (faces m)) - (fq (lsum (fun x => x) (faces m)) / fq (len (faces m))) * (fq (lsum (fun x => x) (faces m)) / fq (len (faces m)))))%Q.
  Proof.
    intros m n d F H. destruct (dice_scored R m n d H) as [N [D [T E]]]. assert (L := len_pos _ F).
    assert (P : 0 < len (faces m) ^ n) by (apply Z.pow_pos_nonneg; lia).
    assert (A := sum_rolls (faces m) (Z.to_nat n)). assert (B := square_rolls (faces m) (Z.to_nat n)). rewrite Z2Nat.id in A, B by lia.
    assert (E2 := E (fun v => v * v)). assert (E1 := E (fun v => v)). cbv beta in E1, E2.
    assert (Z1 : ~ (fq (len (faces m)) == 0)%Q) by (unfold Qeq, inject_Z; cbn [Qnum Qden]; lia). assert (Z2 : ~ (fq (len (faces m) ^ n) == 0)%Q) by (unfold Qeq, inject_Z; cbn [Qnum Qden]; lia).
    set (l := len (faces m)) in *. set (p := l ^ n) in *. set (s1 := lsum (fun x => x) (faces m)) in *. set (s2 := lsum (fun x => x * x) (faces m)) in *.
    set (a := lsum (fun t => total t) (tuples (Z.to_nat n) (faces m))) in *. set (b := lsum (fun t => total t * total t) (tuples (Z.to_nat n) (faces m))) in *.
    assert (A' : (fq a == fq n * fq p * fq s1 / fq l)%Q).
    { apply (Qmult_inj_l _ _ (fq l) Z1). rewrite <- inject_Z_mult. change (lsum total (tuples (Z.to_nat n) (faces m))) with a in A. rewrite A, !inject_Z_mult. field. exact Z1. }
    assert (B' : (fq b == fq p * (fq n * fq l * fq s2 + fq n * (fq n - 1) * (fq s1 * fq s1)) / (fq l * fq l))%Q).
    { assert (Z3 : ~ (fq l * fq l == 0)%Q) by (intros X; apply Qmult_integral in X; tauto). apply (Qmult_inj_l _ _ (fq l * fq l) Z3). rewrite <- !inject_Z_mult, B, !inject_Z_mult, inject_Z_plus, !inject_Z_mult.
      unfold Z.sub. rewrite inject_Z_plus. change (fq (- (1))) with (-1)%Q. field. exact Z1. }
    assert (M : (mean R d == fq n * (fq s1 / fq l))%Q).
    { rewrite <- (expected_mean R d D). unfold expected. rewrite T, E1, A'. field. split; assumption. }
    split; [exact M|]. rewrite (moment_variance R d D) by (rewrite T; exact P). unfold expected. rewrite T, E2, B', M. field. split; assumption.
  Qed.
  Theorem dice_scale : forall m n (d d1 : dist), faces m <> [] -> dice_report R m n d -> dice_report R m 1 d1 -> (mean R d == fq n * mean R d1)%Q /\ (variance R d == fq n * variance R d1)%Q.
  Proof.
    intros m n d d1 F H H1. destruct (dice_moments m n d F H) as [A B]. destruct (dice_moments m 1 d1 F H1) as [A1 B1]. rewrite A, B, A1, B1. change (fq 1) with 1%Q. split; ring.
  Qed.
  Lemma sum_consecutive : forall s, 2 * lsum (fun x => x) (consecutive 1 s) = Z.of_nat s * (Z.of_nat s + 1) /\ 6 * lsum (fun x => x * x) (consecutive 1 s) = Z.of_nat s * (Z.of_nat s + 1) * (2 * Z.of_nat s + 1).
  Proof.
    induction s as [|s [I1 I2]]; [split; reflexivity|]. rewrite !consecutive_S, !lsum_app, !lsum_cons. change (lsum ?g []) with 0. split; lia.
  Qed.
  Lemma len_consecutive : forall s, len (consecutive 1 s) = Z.of_nat s.
  Proof. intros s. unfold consecutive. rewrite map_length, seq_length. reflexivity. Qed.
  Theorem dice_moments_numbered : forall m n s (d : dist), (1 <= s)%nat -> Permutation (faces m) (consecutive 1 s) -> dice_report R m n d ->
    (mean R d == fq n * (fq (Z.of_nat s) + 1) / 2)%Q /\ (variance R d == fq n * (fq (Z.of_nat s) * fq (Z.of_nat s) - 1) / 12)%Q.
  Proof.
    intros m n s d S P H. assert (Lp := Permutation_length P). assert (Ls := len_consecutive s).
    assert (F : faces m <> []) by (intros X; rewrite X in Lp; cbn [length] in Lp; lia). destruct (dice_moments m n d F H) as [A B]. rewrite Lp, !(lsum_perm _ _ _ _ P), Ls in A. rewrite Lp, !(lsum_perm _ _ _ _ P), Ls in B.
    destruct (sum_consecutive s) as [S1 S2]. assert (Z1 : ~ (fq (Z.of_nat s) == 0)%Q) by (unfold Qeq, inject_Z; cbn [Qnum Qden]; lia).
    set (k := Z.of_nat s) in *. set (s1 := lsum (fun x => x) (consecutive 1 s)) in *. set (s2 := lsum (fun x => x * x) (consecutive 1 s)) in *.
    assert (S1' : (fq s1 == fq k * (fq k + 1) / 2)%Q) by (apply (Qmult_inj_l _ _ (fq 2)); [discriminate|]; rewrite <- inject_Z_mult, S1, inject_Z_mult, inject_Z_plus; change (fq 1) with 1%Q; change (fq 2) with 2%Q; field).
    assert (S2' : (fq s2 == fq k * (fq k + 1) * (2 * fq k + 1) / 6)%Q)
      by (apply (Qmult_inj_l _ _ (fq 6)); [discriminate|]; rewrite <- inject_Z_mult, S2, !inject_Z_mult, !inject_Z_plus, inject_Z_mult; change (fq 1) with 1%Q; change (fq 2) with 2%Q; change (fq 6) with 6%Q; field).
    rewrite A, B, S1', S2'. split; field; exact Z1.
  Qed.
  Theorem dice_moments_successes : forall m n no yes (d : dist), (1 <= no + yes)%nat -> Permutation (faces m) (repeat 0 no ++ repeat 1 yes) -> dice_report R m n d ->
    let p := (fq (Z.of_nat yes) / fq (Z.of_nat (no + yes)))%Q in (mean R d == fq n * p)%Q /\ (variance R d == fq n * (p * (1 - p)))%Q.
  Proof.
    intros m n no yes d S P H p. assert (Lp := Permutation_length P). rewrite app_length, !repeat_length in Lp.
    assert (F : faces m <> []) by (intros X; rewrite X in Lp; cbn [length] in Lp; lia). destruct (dice_moments m n d F H) as [A B]. rewrite Lp, !(lsum_perm _ _ _ _ P), !lsum_app, !lsum_repeat, !Z.mul_0_r, !Z.mul_1_r, !Z.add_0_l in A.
    rewrite Lp, !(lsum_perm _ _ _ _ P), !lsum_app, !lsum_repeat, !Z.mul_0_r, !Z.mul_1_r, !Z.add_0_l in B. fold p in A, B. split; [exact A|]. rewrite B. ring.
  Qed.
End Moments.
