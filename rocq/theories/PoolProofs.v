(** * PoolProofs: C78 *)
From Coq Require Import QArith Qabs Qpower Permutation Lqa.
From Verif Require Import Py PyFacts PyFloat Constraint Distribution DistFacts DiceModel Expr Parser Interp Instances SpecDice DropKeepFacts ExtFacts DiceFacts DiceProofs SpecProgram SpecRoll
  SpecInterp SpecAlgebra AlgebraFacts ExprFacts ProgramFacts JointFacts RaiseFacts WfFacts InterpRun ProgramProofs
  Checks SpecProb ProbProofs SpecExchange ExchangeProofs SpecBetter BetterProofs SpecFormula SpecSame SameProofs SpecCases CaseProofs SplitProofs SpecPool SpecAlgebra.
Local Open Scope Z_scope.

(** ** Sorted dice *)
Lemma sort_length : forall t, length (sort_desc t) = length t.
Proof. intros t. apply Permutation_length, sort_desc_perm. Qed.
Lemma keep_drop_total : forall k t, keep_highest k t + drop_highest k t = total t.
Proof.
  intros k t. unfold keep_highest, drop_highest. rewrite <- (total_perm _ _ (sort_desc_perm t)). rewrite <- (firstn_skipn k (sort_desc t)) at 3. change total with zsum. now rewrite zsum_app.
Qed.
Lemma first_step : forall k s, desc s -> (S (S k) <= length s)%nat -> total (firstn (S (S k)) s) + total (firstn k s) <= 2 * total (firstn (S k) s).
Proof.
  induction k as [|k IH]; intros s D L.
  - destruct s as [|x [|y r]]; cbn [length] in L; try lia. destruct D as [D _]. cbn [firstn]. rewrite !total_cons. specialize (D y (or_introl eq_refl)). cbn [total fold_right]. lia.
  - destruct s as [|x r]; cbn [length] in L; [lia|]. destruct D as [_ D]. specialize (IH r D ltac:(lia)).
    change (firstn (S (S (S k))) (x :: r)) with (x :: firstn (S (S k)) r). change (firstn (S k) (x :: r)) with (x :: firstn k r). change (firstn (S (S k)) (x :: r)) with (x :: firstn (S k) r). rewrite !total_cons. lia.
Qed.
Lemma total_bound : forall x r, (forall y, In y r -> y <= x) -> total r <= Z.of_nat (length r) * x.
Proof.
  intros x r. induction r as [|y r IH]; intros H; [cbn; lia|]. rewrite total_cons. cbn [length]. specialize (IH (fun z I => H z (or_intror I))). specialize (H y (or_introl eq_refl)). lia.
Qed.
Lemma first_share : forall s k, desc s -> (k <= length s)%nat -> Z.of_nat k * total s <= Z.of_nat (length s) * total (firstn k s).
Proof.
  induction s as [|x r IH]; intros k D L; [destruct k; cbn; lia|]. destruct k as [|k]; [cbn [firstn]; cbn; lia|]. destruct D as [D1 D2]. cbn [length] in L. specialize (IH k D2 ltac:(lia)).
  cbn [firstn]. rewrite !total_cons. cbn [length]. assert (T : total r = total (firstn k r) + total (skipn k r)) by (rewrite <- (firstn_skipn k r) at 1; change total with zsum; apply zsum_app).
  assert (B := total_bound x (skipn k r) (fun y I => D1 y (skipn_in _ k r y I))). rewrite skipn_length in B. rewrite !Nat2Z.inj_succ. rewrite Nat2Z.inj_sub in B by lia. nia.
Qed.

(** ** Sums over the rolls *)
Lemma tuples_power : forall p N fs, lsum (fun t => if forallb p t then 1 else 0) (tuples N fs) = lsum (fun x => if p x then 1 else 0) fs ^ Z.of_nat N.
Proof.
  intros p N fs. induction N as [|N IH]; [reflexivity|]. rewrite lsum_tuples, Nat2Z.inj_succ, Z.pow_succ_r by lia. rewrite <- IH.
  rewrite (lsum_ext _ _ (fun x => lsum (fun t => if forallb p t then 1 else 0) (tuples N fs) * (if p x then 1 else 0))).
  - rewrite lsum_scale. ring.
  - intros x _. cbn [forallb]. destruct (p x); cbn [andb]; [lia|]. rewrite lsum_zero. ring.
Qed.
Lemma tuples_count : forall N fs, len (tuples N fs) = len fs ^ Z.of_nat N.
Proof.
  intros N fs. assert (H := tuples_power (fun _ => true) N fs). rewrite (lsum_ext _ _ (fun _ => 1)) in H.
  - rewrite !lsum_const, !Z.mul_1_l in H. exact H.
  - intros t _. replace (forallb (fun _ => true) t) with true; [reflexivity|]. symmetry. apply forallb_forall. reflexivity.
Qed.
Lemma lsum_plus : forall A (f g : A -> Z) l, lsum (fun x => f x + g x) l = lsum f l + lsum g l.
Proof. intros A f g. induction l as [|x l IH]; [reflexivity|]. rewrite !lsum_cons, IH. lia. Qed.

Section Pools.
  Context (R : Runtime).
  Notation dist := (Distribution.dist R).
  Notation keys d := (map fst (get_result_map R d)).

  Lemma alone_sum : forall e (d : dist) (sc : list Z -> Z) N fs, simple e -> reads e = [] -> alone R e d -> joint faces no_values e = map (fun t => Some (sc t)) (tuples N fs) ->
    dinv R d /\ total_ways R d = len fs ^ Z.of_nat N /\ forall g, lsum (fun v => g v * reported R d v) (keys d) = lsum (fun t => g (sc t)) (tuples N fs).
  Proof.
    intros e d sc N fs S N0 [t [s [P [Hs H]]]] J. destruct (alone_joint R e t s d S N0 P Hs H) as [D A]. destruct (A no_values) as [A1 [A2 [A3 A4]]].
    assert (E : forall g, lsum (fun v => g v * reported R d v) (keys d) = lsum (fun t => g (sc t)) (tuples N fs)).
    { intros g. rewrite (lsum_ext _ _ (fun v => g v * occurrences v (joint faces no_values e))) by (intros v _; now rewrite A4). rewrite keys_sum; [|apply result_map_nodup|].
      - now rewrite J, lsum_map.
      - intros x I. apply A3. revert I. apply joint_incl. intros m _ z. apply faces_sides. }
    split; [exact D|]. split; [|exact E]. rewrite (total_sum R d D), E, lsum_const, tuples_count. lia.
  Qed.

  Definition scored (sc : list Z -> Z) (m : list (Z * Z)) (n : Z) (d : dist) : Prop :=
    dinv R d /\ total_ways R d = len (faces m) ^ n /\ forall g, lsum (fun v => g v * reported R d v) (keys d) = lsum (fun t => g (sc t)) (tuples (Z.to_nat n) (faces m)).
  Lemma dice_scored : forall m n d, dice_report R m n d -> 1 <= n /\ scored total m n d.
  Proof.
    intros m n d [e [[x [-> [E1 E2]]] [S A]]]. assert (S' := S). destruct S' as [_ S1]. rewrite E2 in S1. split; [exact S1|].
    assert (H := alone_sum _ d total (Z.to_nat n) (faces m) S eq_refl A). rewrite Z2Nat.id in H by lia. apply H. cbn [joint]. now rewrite E1, E2.
  Qed.
  Lemma keep_scored : forall m n k d, keep_report R m n k d -> 1 <= n /\ 0 <= k /\ (0 < k -> scored (keep_highest (Z.to_nat k)) m n d).
  Proof.
    intros m n k d [e [[x [-> [E1 [E2 [E3 E4]]]]] [S A]]]. assert (S' := S). destruct S' as [_ [S1 S2]]. rewrite E2 in S1. rewrite E3 in S2. split; [exact S1|]. split; [exact S2|]. intros K.
    assert (H := alone_sum _ d (keep_highest (Z.to_nat k)) (Z.to_nat n) (faces m) S eq_refl A). rewrite Z2Nat.id in H by lia. apply H. cbn [joint]. unfold pool_results. rewrite E1, E2, E3, E4.
    destruct (k =? 0) eqn:X; [apply Z.eqb_eq in X; lia|]. now rewrite map_map.
  Qed.
  Lemma drop_scored : forall m n k d, drop_report R m n k d -> 1 <= n /\ 0 <= k /\ (k < n -> scored (drop_highest (Z.to_nat k)) m n d).
  Proof.
    intros m n k d [e [[x [-> [E1 [E2 [E3 E4]]]]] [S A]]]. assert (S' := S). destruct S' as [_ [S1 S2]]. rewrite E2 in S1. rewrite E3 in S2. split; [exact S1|]. split; [exact S2|]. intros K.
    assert (H := alone_sum _ d (drop_highest (Z.to_nat k)) (Z.to_nat n) (faces m) S eq_refl A). rewrite Z2Nat.id in H by lia. apply H. cbn [joint]. unfold pool_results. rewrite E1, E2, E3, E4.
    destruct (n <=? k) eqn:X; [apply Z.leb_le in X; lia|]. now rewrite map_map.
  Qed.
  (** No dice: 0 *)
  Lemma zero_mean : forall e (d : dist), simple e -> reads e = [] -> alone R e d -> joint faces no_values e = [Some 0] -> (mean R d == 0)%Q.
  Proof.
    intros e d S N0 A J. destruct (alone_sum e d (fun _ => 0) 0 [] S N0 A ltac:(rewrite J; reflexivity)) as [D [_ E]]. rewrite <- (expected_mean R d D). unfold expected.
    rewrite (E (fun v => v)), lsum_zero. unfold Qdiv. ring.
  Qed.
  Lemma keep_none : forall m n d, keep_report R m n 0 d -> (mean R d == 0)%Q.
  Proof.
    intros m n d [e [[x [-> [E1 [E2 [E3 E4]]]]] [S A]]]. apply (zero_mean _ d S eq_refl A). cbn [joint]. unfold pool_results. now rewrite E3, E4.
  Qed.
  Lemma drop_every : forall m n k d, n <= k -> drop_report R m n k d -> (mean R d == 0)%Q.
  Proof.
    intros m n k d L [e [[x [-> [E1 [E2 [E3 E4]]]]] [S A]]]. apply (zero_mean _ d S eq_refl A). cbn [joint]. unfold pool_results. rewrite E2, E3, E4.
    destruct (Z.leb_spec n k); [reflexivity | lia].
  Qed.
  Lemma scored_mean : forall sc m n d, scored sc m n d -> (mean R d == inject_Z (lsum sc (tuples (Z.to_nat n) (faces m))) / inject_Z (len (faces m) ^ n))%Q.
  Proof. intros sc m n d [D [T E]]. rewrite <- (expected_mean R d D). unfold expected. now rewrite T, (E (fun v => v)). Qed.
  Lemma keep_mean : forall m n k d, keep_report R m n k d -> (mean R d == inject_Z (lsum (keep_highest (Z.to_nat k)) (tuples (Z.to_nat n) (faces m))) / inject_Z (len (faces m) ^ n))%Q.
  Proof.
    intros m n k d H. destruct (keep_scored m n k d H) as [_ [K0 K]]. destruct (Z.eq_dec k 0) as [->|N].
    - rewrite (keep_none m n d H). change (Z.to_nat 0) with 0%nat. unfold keep_highest. cbn [firstn]. change (total []) with 0. rewrite lsum_zero. unfold Qdiv. ring.
    - apply scored_mean, K. lia.
  Qed.
  Lemma drop_mean : forall m n k d, drop_report R m n k d -> (mean R d == inject_Z (lsum (drop_highest (Z.to_nat k)) (tuples (Z.to_nat n) (faces m))) / inject_Z (len (faces m) ^ n))%Q.
  Proof.
    intros m n k d H. destruct (drop_scored m n k d H) as [N [K0 K]]. destruct (Z_le_gt_dec n k) as [L|L].
    - rewrite (drop_every m n k d L H). rewrite (lsum_ext _ _ (fun _ => 0)); [rewrite lsum_zero; unfold Qdiv; ring|]. intros t I. apply in_tuples in I. destruct I as [I _].
      unfold drop_highest. rewrite skipn_all2; [reflexivity|]. rewrite sort_length. lia.
    - apply scored_mean, K. lia.
  Qed.
  Lemma dice_mean : forall m n d, dice_report R m n d -> (mean R d == inject_Z (lsum total (tuples (Z.to_nat n) (faces m))) / inject_Z (len (faces m) ^ n))%Q.
  Proof. intros m n d H. apply scored_mean, dice_scored, H. Qed.

  Theorem pool_parts : forall m n k da dk dd, dice_report R m n da -> keep_report R m n k dk -> drop_report R m n k dd -> (mean R dk + mean R dd == mean R da)%Q.
  Proof.
    intros m n k da dk dd Ha Hk Hd. rewrite (dice_mean _ _ _ Ha), (keep_mean _ _ _ _ Hk), (drop_mean _ _ _ _ Hd). rewrite (lsum_ext _ total (fun t => keep_highest (Z.to_nat k) t + drop_highest (Z.to_nat k) t)).
    - rewrite lsum_plus, inject_Z_plus. unfold Qdiv. ring.
    - intros t _. symmetry. apply keep_drop_total.
  Qed.
  Lemma div_le : forall a b c, a <= b -> 0 <= c -> (inject_Z a / inject_Z c <= inject_Z b / inject_Z c)%Q.
  Proof.
    intros a b c L C. unfold Qdiv. apply Qmult_le_compat_r; [rewrite <- Zle_Qle; exact L|]. apply Qinv_le_0_compat. change 0%Q with (inject_Z 0). rewrite <- Zle_Qle. exact C.
  Qed.
  Theorem pool_share : forall m n k da dk, k <= n -> dice_report R m n da -> keep_report R m n k dk -> (inject_Z k * mean R da <= inject_Z n * mean R dk)%Q.
  Proof.
    intros m n k da dk L Ha Hk. destruct (keep_scored _ _ _ _ Hk) as [N [K0 _]]. rewrite (dice_mean _ _ _ Ha), (keep_mean _ _ _ _ Hk). unfold Qdiv. rewrite !Qmult_assoc, <- !inject_Z_mult, <- !lsum_scale.
    apply (div_le _ _ (len (faces m) ^ n)); [|apply Z.pow_nonneg; lia]. apply lsum_le. intros t I. apply in_tuples in I. destruct I as [I _].
    assert (S := first_share (sort_desc t) (Z.to_nat k) (desc_sort t)). rewrite sort_length, I in S. specialize (S ltac:(lia)). rewrite !Z2Nat.id in S by lia.
    rewrite (total_perm _ _ (sort_desc_perm t)) in S. exact S.
  Qed.
  Theorem pool_diminishing : forall m n k d0 d1 d2, k + 2 <= n -> keep_report R m n k d0 -> keep_report R m n (k + 1) d1 -> keep_report R m n (k + 2) d2 ->
    (mean R d2 - mean R d1 <= mean R d1 - mean R d0)%Q.
  Proof.
    intros m n k d0 d1 d2 L H0 H1 H2. destruct (keep_scored _ _ _ _ H0) as [N [K0 _]]. rewrite (keep_mean _ _ _ _ H0), (keep_mean _ _ _ _ H1), (keep_mean _ _ _ _ H2).
    replace (Z.to_nat (k + 1)) with (S (Z.to_nat k)) by lia. replace (Z.to_nat (k + 2)) with (S (S (Z.to_nat k))) by lia. set (T := tuples (Z.to_nat n) (faces m)).
    assert (A : lsum (keep_highest (S (S (Z.to_nat k)))) T + lsum (keep_highest (Z.to_nat k)) T <= 2 * lsum (keep_highest (S (Z.to_nat k))) T).
    { rewrite <- lsum_plus, <- lsum_scale. apply lsum_le. intros t I. apply in_tuples in I. destruct I as [I _]. unfold keep_highest. apply first_step; [apply desc_sort | rewrite sort_length; lia]. }
    assert (B := div_le _ _ (len (faces m) ^ n) A ltac:(apply Z.pow_nonneg; lia)). rewrite inject_Z_plus, inject_Z_mult in B. unfold Qdiv in *. rewrite Qmult_plus_distr_l, <- Qmult_assoc in B. change (inject_Z 2) with 2%Q in B. lra.
  Qed.

  Lemma power_ratio : forall a c n, 0 <= n -> (inject_Z (a ^ n) / inject_Z (c ^ n) == (inject_Z a / inject_Z c) ^ n)%Q.
  Proof.
    intros a c n N. pattern n. apply natlike_ind; [reflexivity| |exact N]. intros x X E. rewrite !Z.pow_succ_r, !inject_Z_mult by exact X.
    unfold Z.succ. unfold Qdiv in *. rewrite Qinv_mult_distr.
    assert (P : forall q, (q ^ (x + 1) == q ^ x * q)%Q).
    { intros q. destruct (Qeq_dec q 0) as [Z0|Z0]; [|rewrite Qpower_plus by exact Z0; reflexivity].
      destruct x as [|p|p]; [cbn [Z.add Qpower Qpower_positive]; now rewrite Qmult_1_l | | lia]. rewrite Z0. rewrite !Qpower_0 by lia. ring. }
    rewrite P, <- E. ring.
  Qed.

  Lemma die_count : forall m d (p : Z -> bool), dice_report R m 1 d -> lsum (fun v => (if p v then 1 else 0) * reported R d v) (keys d) = lsum (fun x => if p x then 1 else 0) (faces m) /\ total_ways R d = len (faces m).
  Proof.
    intros m d p H. destruct (dice_scored m 1 d H) as [_ [_ [T E]]]. rewrite Z.pow_1_r in T. split; [|exact T]. rewrite (E (fun v => if p v then 1 else 0)). change (Z.to_nat 1) with 1%nat.
    rewrite lsum_tuples. apply lsum_ext. intros x _. unfold lsum. cbn [tuples map]. unfold total. cbn [fold_right]. rewrite Z.add_0_r. cbn [zsum fold_right]. lia.
  Qed.
  Lemma best_power : forall mx sc m n d (p : Z -> bool), 1 <= n -> scored sc m n d -> (forall t, length t = Z.to_nat n -> sc t = best mx t) ->
    (forall t, t <> [] -> p (best mx t) = forallb p t) ->
    lsum (fun v => (if p v then 1 else 0) * reported R d v) (keys d) = lsum (fun x => if p x then 1 else 0) (faces m) ^ n.
  Proof.
    intros mx sc m n d p N [D [T E]] B P. rewrite (E (fun v => if p v then 1 else 0)).
    rewrite <- (Z2Nat.id n) at 2 by lia. rewrite <- tuples_power. apply lsum_ext. intros t I. apply in_tuples in I. destruct I as [I _]. rewrite (B t I), P; [reflexivity|].
    destruct t; [cbn [length] in I; lia | discriminate].
  Qed.
  Theorem pool_highest : forall m n d d1, keep_report R m n 1 d -> dice_report R m 1 d1 -> forall v, (probability_at_most R d v == probability_at_most R d1 v ^ n)%Q.
  Proof.
    intros m n d d1 H H1 v. destruct (keep_scored m n 1 d H) as [N [_ S]]. specialize (S ltac:(lia)). rewrite <- !expected_at_most. unfold expected.
    destruct (die_count m d1 (fun w => w <=? v) H1) as [E1 ->]. rewrite E1. rewrite (best_power true _ m n d (fun w => w <=? v) N S).
    - destruct S as [_ [-> _]]. apply power_ratio. lia.
    - reflexivity.
    - intros t Nt. destruct (best_spec true t Nt) as [B1 B2]. apply eq_true_iff_eq. rewrite forallb_forall, Z.leb_le. split; [|intros A; now apply Z.leb_le, A]. intros L x I. specialize (B2 x I). cbn [within] in B2.
      apply Z.leb_le. lia.
  Qed.
  Theorem pool_lowest : forall m n d d1, drop_report R m n (n - 1) d -> dice_report R m 1 d1 -> forall v, (probability_at_least R d v == probability_at_least R d1 v ^ n)%Q.
  Proof.
    intros m n d d1 H H1 v. destruct (drop_scored m n (n - 1) d H) as [N [_ S]]. specialize (S ltac:(lia)). rewrite <- !expected_at_least. unfold expected.
    destruct (die_count m d1 (fun w => v <=? w) H1) as [E1 ->]. rewrite E1. rewrite (best_power false _ m n d (fun w => v <=? w) N S).
    - destruct S as [_ [-> _]]. apply power_ratio. lia.
    - intros t L. unfold best. rewrite L. f_equal. lia.
    - intros t Nt. destruct (best_spec false t Nt) as [B1 B2]. apply eq_true_iff_eq. rewrite forallb_forall, Z.leb_le. split; [|intros A; now apply Z.leb_le, A]. intros L x I. specialize (B2 x I). cbn [within] in B2.
      apply Z.leb_le. lia.
  Qed.
End Pools.

(** ** Showing the reports of a line *)
Lemma shown_dice : forall R t form x m n s d, parse t = Ok (EDice x) -> mk_dice form = Ok x -> dice_map x = m -> dice_num x = n -> 1 <= n -> reachable R s -> reports R s [t] d -> dice_report R m n d.
Proof. intros R t form x m n s d P F M N L Hs H. exists (EDice x). split; [now exists x|]. split; [split; [now exists form | now rewrite N]|]. now exists t, s. Qed.
Lemma shown_keep : forall R t form x m n k s d, parse t = Ok (EDropKeep x) -> mk_dropkeep form = Ok x -> dk_map x = m -> dk_num x = n -> dk_k x = k -> dk_keep x = true -> 1 <= n -> 0 <= k ->
  reachable R s -> reports R s [t] d -> keep_report R m n k d.
Proof.
  intros R t form x m n k s d P F M N K E L L' Hs H. exists (EDropKeep x). split; [now exists x|]. split; [split; [now exists form | now rewrite N, K]|]. now exists t, s.
Qed.
Lemma shown_drop : forall R t form x m n k s d, parse t = Ok (EDropKeep x) -> mk_dropkeep form = Ok x -> dk_map x = m -> dk_num x = n -> dk_k x = k -> dk_keep x = false -> 1 <= n -> 0 <= k ->
  reachable R s -> reports R s [t] d -> drop_report R m n k d.
Proof.
  intros R t form x m n k s d P F M N K E L L' Hs H. exists (EDropKeep x). split; [now exists x|]. split; [split; [now exists form | now rewrite N, K]|]. now exists t, s.
Qed.

Ltac show_dice t H :=
  let r := eval vm_compute in (parse t) in match r with Ok (EDice ?x) =>
    refine (shown_dice _ t t x _ _ _ _ _ _ eq_refl eq_refl _ (af_now _ _) H); [vm_compute; reflexivity | vm_compute; reflexivity | vm_compute; discriminate] end.
Ltac show_pool lemma t H :=
  let r := eval vm_compute in (parse t) in match r with Ok (EDropKeep ?x) =>
    refine (lemma _ t t x _ _ _ _ _ _ _ eq_refl eq_refl eq_refl eq_refl _ _ (af_now _ _) H); [vm_compute; reflexivity | vm_compute; reflexivity | vm_compute; discriminate | vm_compute; discriminate] end.
