(** * CountProofs: C80 *)
From Coq Require Import QArith Permutation.
From Verif Require Import Py PyFacts PyFloat Constraint Distribution DistFacts DiceModel Expr Lexer Parser Interp Instances SpecDice SpecNotation SpecText TextProofs DropKeepFacts DiceFacts DiceProofs SpecProgram SpecRoll
  SpecInterp SpecAlgebra AlgebraFacts ExprFacts BetterProofs SpecSame SameProofs SplitProofs SpecPool PoolProofs SpecCount SpecAlgebra.
Local Open Scope Z_scope.

(** ** Pascal's triangle *)
Lemma choose_0 : forall n, choose n 0 = 1.
Proof. now intros [|n]. Qed.
Lemma choose_step : forall n k, choose (S n) (S k) = choose n k + choose n (S k).
Proof. reflexivity. Qed.
Lemma choose_big : forall n k, (n < k)%nat -> choose n k = 0.
Proof. induction n as [|n IH]; intros [|k] H; try lia; [reflexivity|]. rewrite choose_step, !IH by lia. reflexivity. Qed.
Lemma choose_z_step : forall m k, choose_z m (S k) - choose_z (m - 1) (S k) = choose_z (m - 1) k.
Proof.
  intros m k. unfold choose_z. destruct (Z.ltb_spec m 0), (Z.ltb_spec (m - 1) 0); try lia.
  - replace m with 0 by lia. reflexivity.
  - replace (Z.to_nat m) with (S (Z.to_nat (m - 1))) by lia. rewrite choose_step. lia.
Qed.
Lemma choose_z_neg : forall m k, m < 0 -> choose_z m k = 0.
Proof. intros m k H. unfold choose_z. destruct (Z.ltb_spec m 0); [reflexivity | lia]. Qed.

(** ** Dice with the sides 1, ..., s *)
Definition sg (j : nat) : Z := if Nat.even j then 1 else -1.
Lemma sg_step : forall j, sg (S j) = - sg j.
Proof. intros j. unfold sg. rewrite Nat.even_succ, <- Nat.negb_even. destruct (Nat.even j); reflexivity. Qed.
Lemma roll_ways_neg : forall s n v, v <= 0 -> ways_to_roll s n v = 0.
Proof.
  intros s n v H. unfold ways_to_roll. change (zsum (map ?f ?l)) with (lsum f l). rewrite (lsum_ext _ _ (fun _ => 0)); [apply lsum_zero|]. intros j _. rewrite choose_z_neg; nia.
Qed.
Lemma lsum_app : forall A (f : A -> Z) l l', lsum f (l ++ l') = lsum f l + lsum f l'.
Proof. intros A f l l'. unfold lsum. now rewrite map_app, zsum_app. Qed.
Lemma lsum_minus : forall A (f g : A -> Z) l, lsum (fun x => f x - g x) l = lsum f l - lsum g l.
Proof. intros A f g. induction l as [|x l IH]; [reflexivity|]. rewrite !lsum_cons, IH. lia. Qed.
Lemma roll_ways_step : forall s n v, ways_to_roll s (S (S n)) v - ways_to_roll s (S (S n)) (v - 1) = ways_to_roll s (S n) (v - 1) - ways_to_roll s (S n) (v - 1 - Z.of_nat s).
Proof.
  intros s n v. unfold ways_to_roll. replace (S (S n) - 1)%nat with (S n) by lia. replace (S n - 1)%nat with n by lia.
  set (B := fun j => choose_z (v - 1 - Z.of_nat s * Z.of_nat j - 1) n).
  change (lsum (fun j => sg j * choose (S (S n)) j * choose_z (v - Z.of_nat s * Z.of_nat j - 1) (S n)) (seq 0 (S (S (S n)))) -
          lsum (fun j => sg j * choose (S (S n)) j * choose_z (v - 1 - Z.of_nat s * Z.of_nat j - 1) (S n)) (seq 0 (S (S (S n)))) =
          lsum (fun j => sg j * choose (S n) j * B j) (seq 0 (S (S n))) -
          lsum (fun j => sg j * choose (S n) j * choose_z (v - 1 - Z.of_nat s - Z.of_nat s * Z.of_nat j - 1) n) (seq 0 (S (S n)))).
  rewrite <- lsum_minus. rewrite (lsum_ext _ _ (fun j => sg j * choose (S (S n)) j * B j)).
  - assert (L : lsum (fun j => sg j * choose (S n) j * B j) (seq 0 (S (S n))) = lsum (fun j => sg j * choose (S n) j * B j) (seq 0 (S (S (S n))))).
    { rewrite (seq_S (S (S n)) 0), lsum_app, lsum_cons, (choose_big (S n) (0 + S (S n))) by lia. change (lsum ?f []) with 0. lia. }
    rewrite L. change (seq 0 (S (S (S n)))) with (0%nat :: seq 1 (S (S n))). rewrite !lsum_cons, <- seq_shift, !lsum_map, !choose_0.
    rewrite (lsum_ext _ (fun x => sg (S x) * choose (S (S n)) (S x) * B (S x))
      (fun j => sg (S j) * choose (S n) (S j) * B (S j) - sg j * choose (S n) j * choose_z (v - 1 - Z.of_nat s - Z.of_nat s * Z.of_nat j - 1) n)).
    + rewrite lsum_minus. lia.
    + intros j _. rewrite (choose_step (S n) j), sg_step. unfold B. rewrite Nat2Z.inj_succ. replace (v - 1 - Z.of_nat s * Z.succ (Z.of_nat j) - 1) with (v - 1 - Z.of_nat s - Z.of_nat s * Z.of_nat j - 1) by lia. ring.
  - intros j _. rewrite <- Z.mul_sub_distr_l. f_equal. unfold B.
    replace (v - 1 - Z.of_nat s * Z.of_nat j - 1) with (v - Z.of_nat s * Z.of_nat j - 1 - 1) by lia. apply choose_z_step.
Qed.

Definition hits (fs : list Z) (n : nat) (v : Z) : Z := lsum (fun t => if total t =? v then 1 else 0) (tuples n fs).
Lemma hits_step : forall fs n v, hits fs (S n) v = lsum (fun x => hits fs n (v - x)) fs.
Proof.
  intros fs n v. unfold hits. rewrite lsum_tuples. apply lsum_ext. intros x _. apply lsum_ext. intros t _. rewrite total_cons. destruct (Z.eqb_spec (x + total t) v), (Z.eqb_spec (total t) (v - x)); lia.
Qed.
Lemma consecutive_S : forall a k, consecutive a (S k) = consecutive a k ++ [a + Z.of_nat k].
Proof. intros a k. unfold consecutive. rewrite seq_S, map_app. reflexivity. Qed.
Lemma telescope : forall (f : Z -> Z) s, lsum f (consecutive 1 s) - lsum (fun x => f (x + 1)) (consecutive 1 s) = f 1 - f (1 + Z.of_nat s).
Proof.
  intros f. induction s as [|s IH]; [change (1 + Z.of_nat 0) with 1; change (lsum ?g (consecutive 1 0)) with 0; lia|]. rewrite !consecutive_S, !lsum_app, !lsum_cons. change (lsum ?g []) with 0.
  replace (1 + Z.of_nat (S s)) with (1 + Z.of_nat s + 1) by lia. lia.
Qed.
Lemma hits_1 : forall fs v, hits fs 1 v = lsum (fun x => if x =? v then 1 else 0) fs.
Proof.
  intros fs v. rewrite hits_step. apply lsum_ext. intros x _. unfold hits, lsum. cbn [tuples map]. rewrite zsum_cons. change (total []) with 0. change (zsum []) with 0. destruct (Z.eqb_spec 0 (v - x)), (Z.eqb_spec x v); lia.
Qed.
Lemma hits_neg : forall s n v, v <= 0 -> hits (consecutive 1 s) (S n) v = 0.
Proof.
  intros s n. assert (P : forall x, In x (consecutive 1 s) -> 1 <= x) by (intros x I; unfold consecutive in I; apply in_map_iff in I; destruct I as [i [<- _]]; lia).
  induction n as [|n IH]; intros v H.
  - rewrite hits_1, (lsum_ext _ _ (fun _ => 0)); [apply lsum_zero|]. intros x I. specialize (P x I). destruct (Z.eqb_spec x v); lia.
  - rewrite hits_step, (lsum_ext _ _ (fun _ => 0)); [apply lsum_zero|]. intros x I. specialize (P x I). apply IH. lia.
Qed.
Lemma roll_ways_1 : forall s v, hits (consecutive 1 s) 1 v = ways_to_roll s 1 v.
Proof.
  intros s v. rewrite hits_1. unfold ways_to_roll. cbn [seq map Nat.sub]. rewrite !zsum_cons. change (zsum []) with 0. change (Nat.even 0) with true. change (Nat.even 1) with false. cbn [choose]. unfold choose_z. rewrite !choose_0.
  induction s as [|s IH]; [change (lsum ?f (consecutive 1 0)) with 0|rewrite consecutive_S, lsum_app, lsum_cons; change (lsum ?g []) with 0; rewrite IH];
    repeat match goal with |- context [?x <? ?y] => destruct (Z.ltb_spec x y) | |- context [?x =? ?y] => destruct (Z.eqb_spec x y) end; lia.
Qed.
Lemma roll_ways : forall s n v, hits (consecutive 1 s) (S n) v = ways_to_roll s (S n) v.
Proof.
  intros s. induction n as [|n IH]; [apply roll_ways_1|].
  assert (St : forall v, hits (consecutive 1 s) (S (S n)) v - hits (consecutive 1 s) (S (S n)) (v - 1) = ways_to_roll s (S (S n)) v - ways_to_roll s (S (S n)) (v - 1)).
  { intros v. rewrite roll_ways_step, <- !IH, !(hits_step _ (S n)). rewrite (lsum_ext _ (fun x => hits (consecutive 1 s) (S n) (v - 1 - x)) (fun x => hits (consecutive 1 s) (S n) (v - (x + 1)))) by (intros x _; f_equal; lia).
    rewrite (telescope (fun x => hits (consecutive 1 s) (S n) (v - x)) s). f_equal. f_equal. lia. }
  assert (P : forall k, 0 <= k -> hits (consecutive 1 s) (S (S n)) k = ways_to_roll s (S (S n)) k).
  { apply natlike_ind; [rewrite hits_neg, roll_ways_neg by lia; reflexivity|]. intros k K E. specialize (St (Z.succ k)). replace (Z.succ k - 1) with k in St by lia. lia. }
  intros v. destruct (Z_le_gt_dec v 0) as [L|L]; [now rewrite hits_neg, roll_ways_neg by lia|]. apply P. lia.
Qed.

(** ** Successes *)
Lemma lsum_repeat : forall (f : Z -> Z) x k, lsum f (repeat x k) = Z.of_nat k * f x.
Proof. intros f x. induction k as [|k IH]; [reflexivity|]. cbn [repeat]. rewrite lsum_cons, IH. lia. Qed.
Lemma succeed_step : forall no yes n v, ways_to_succeed no yes (S n) v = Z.of_nat no * ways_to_succeed no yes n v + Z.of_nat yes * ways_to_succeed no yes n (v - 1).
Proof.
  intros no yes n v. unfold ways_to_succeed. destruct (Z.leb_spec 0 v) as [V|V].
  - destruct (Z.eq_dec v 0) as [->|N].
    + destruct (Z.leb_spec 0 (Z.of_nat (S n))); [|lia]. destruct (Z.leb_spec 0 (Z.of_nat n)); [|lia]. change (0 <=? 0 - 1) with false. cbn [andb]. change (Z.to_nat 0) with 0%nat. rewrite !choose_0, Z.pow_0_r, !Z.sub_0_r.
      rewrite Nat2Z.inj_succ, Z.pow_succ_r by lia. ring.
    + destruct (Z.leb_spec 0 (v - 1)); [|lia]. cbn [andb]. replace (Z.to_nat v) with (S (Z.to_nat (v - 1))) by lia. rewrite choose_step.
      assert (Py : Z.of_nat yes ^ v = Z.of_nat yes * Z.of_nat yes ^ (v - 1)) by (rewrite <- Z.pow_succ_r by lia; f_equal; lia).
      destruct (Z.leb_spec v (Z.of_nat (S n))), (Z.leb_spec v (Z.of_nat n)), (Z.leb_spec (v - 1) (Z.of_nat n)); try lia.
      * assert (Pn : Z.of_nat no ^ (Z.of_nat (S n) - v) = Z.of_nat no * Z.of_nat no ^ (Z.of_nat n - v)) by (rewrite <- Z.pow_succ_r by lia; f_equal; lia).
        replace (Z.of_nat n - (v - 1)) with (Z.of_nat (S n) - v) by lia. rewrite Pn, Py. ring.
      * rewrite (choose_big n (S (Z.to_nat (v - 1)))) by lia. replace (Z.of_nat n - (v - 1)) with (Z.of_nat (S n) - v) by lia. rewrite Py. ring.
  - destruct (Z.leb_spec 0 (v - 1)); [lia|]. cbn [andb]. ring.
Qed.
Lemma succeed_ways : forall no yes n v, hits (repeat 0 no ++ repeat 1 yes) n v = ways_to_succeed no yes n v.
Proof.
  intros no yes. induction n as [|n IH]; intros v.
  - unfold hits, lsum, ways_to_succeed. cbn [tuples map]. rewrite zsum_cons. change (total []) with 0. change (zsum []) with 0.
    destruct (Z.eqb_spec 0 v) as [<-|N]; [reflexivity|]. destruct (Z.leb_spec 0 v), (Z.leb_spec v (Z.of_nat 0)); cbn [andb]; lia.
  - rewrite hits_step, lsum_app, !lsum_repeat, !IH, succeed_step, Z.sub_0_r. reflexivity.
Qed.

(** ** Highest and lowest *)
Lemma count_at_most : forall s v, lsum (fun x => if x <=? v then 1 else 0) (consecutive 1 s) = Z.max 0 (Z.min v (Z.of_nat s)).
Proof.
  induction s as [|s IH]; intros v; [change (lsum ?f (consecutive 1 0)) with 0; lia|]. rewrite consecutive_S, lsum_app, lsum_cons, IH. change (lsum ?g []) with 0. destruct (Z.leb_spec (1 + Z.of_nat s) v); lia.
Qed.
Lemma count_at_least : forall s v, lsum (fun x => if v <=? x then 1 else 0) (consecutive 1 s) = Z.max 0 (Z.min (Z.of_nat s) (Z.of_nat s - v + 1)).
Proof.
  induction s as [|s IH]; intros v; [change (lsum ?f (consecutive 1 0)) with 0; lia|]. rewrite consecutive_S, lsum_app, lsum_cons, IH. change (lsum ?g []) with 0. destruct (Z.leb_spec v (1 + Z.of_nat s)); lia.
Qed.
Lemma best_at_most : forall v t, t <> [] -> (best true t <=? v) = forallb (fun w => w <=? v) t.
Proof.
  intros v t Nt. destruct (best_spec true t Nt) as [B1 B2]. apply eq_true_iff_eq. rewrite forallb_forall, Z.leb_le. split; [|intros A; now apply Z.leb_le, A]. intros L x I. specialize (B2 x I). cbn [within] in B2. apply Z.leb_le. lia.
Qed.
Lemma best_at_least : forall v t, t <> [] -> (v <=? best false t) = forallb (fun w => v <=? w) t.
Proof.
  intros v t Nt. destruct (best_spec false t Nt) as [B1 B2]. apply eq_true_iff_eq. rewrite forallb_forall, Z.leb_le. split; [|intros A; now apply Z.leb_le, A]. intros L x I. specialize (B2 x I). cbn [within] in B2. apply Z.leb_le. lia.
Qed.

Section Reports.
  Context (R : Runtime).
  Notation dist := (Distribution.dist R).
  Notation keys d := (map fst (get_result_map R d)).

  Lemma hits_perm : forall fs fs' n v, Permutation fs fs' -> hits fs n v = hits fs' n v.
  Proof.
    intros fs fs' n v P. revert v. induction n as [|n IH]; intros v; [reflexivity|]. rewrite !hits_step. rewrite (lsum_perm _ _ _ _ P). apply lsum_ext. intros x _. apply IH.
  Qed.
  Lemma dice_hits : forall m n (d : dist), dice_report R m n d -> 1 <= n /\ forall v, reported R d v = hits (faces m) (Z.to_nat n) v.
  Proof.
    intros m n d H. destruct (dice_scored R m n d H) as [N [_ [_ E]]]. split; [exact N|]. intros v. rewrite <- (reported_indicator R d v). exact (E (fun w => if w =? v then 1 else 0)).
  Qed.
  Theorem count_roll : forall m n s (d : dist), Permutation (faces m) (consecutive 1 s) -> dice_report R m n d -> forall v, reported R d v = ways_to_roll s (Z.to_nat n) v.
  Proof.
    intros m n s d P H v. destruct (dice_hits m n d H) as [N E]. rewrite E, (hits_perm _ _ _ _ P). replace (Z.to_nat n) with (S (Z.to_nat (n - 1))) by lia. apply roll_ways.
  Qed.
  Theorem count_succeed : forall m n no yes (d : dist), Permutation (faces m) (repeat 0 no ++ repeat 1 yes) -> dice_report R m n d -> forall v, reported R d v = ways_to_succeed no yes (Z.to_nat n) v.
  Proof. intros m n no yes d P H v. destruct (dice_hits m n d H) as [N E]. rewrite E, (hits_perm _ _ _ _ P). apply succeed_ways. Qed.
  Lemma clamp_power : forall s n v, 1 <= n -> Z.max 0 (Z.min v (Z.of_nat s)) ^ n - Z.max 0 (Z.min (v - 1) (Z.of_nat s)) ^ n = ways_highest s n v.
  Proof.
    intros s n v N. unfold ways_highest. destruct (Z.leb_spec 1 v), (Z.leb_spec v (Z.of_nat s)); cbn [andb].
    - f_equal; f_equal; lia.
    - replace (Z.max 0 (Z.min (v - 1) (Z.of_nat s))) with (Z.max 0 (Z.min v (Z.of_nat s))) by lia. lia.
    - replace (Z.max 0 (Z.min (v - 1) (Z.of_nat s))) with (Z.max 0 (Z.min v (Z.of_nat s))) by lia. lia.
    - replace (Z.max 0 (Z.min (v - 1) (Z.of_nat s))) with (Z.max 0 (Z.min v (Z.of_nat s))) by lia. lia.
  Qed.
  Theorem count_highest : forall m n s (d : dist), Permutation (faces m) (consecutive 1 s) -> keep_report R m n 1 d -> forall v, reported R d v = ways_highest s n v.
  Proof.
    intros m n s d P H v. destruct (keep_scored R m n 1 d H) as [N [_ S]]. specialize (S ltac:(lia)). rewrite <- (clamp_power s n v N), <- !count_at_most, <- !(lsum_perm _ _ _ _ P).
    rewrite <- !(best_power R true _ m n d _ N S (fun t _ => eq_refl) (best_at_most _)). rewrite <- lsum_minus, <- (reported_indicator R d v). apply lsum_ext. intros w _.
    destruct (Z.eqb_spec w v), (Z.leb_spec w v), (Z.leb_spec w (v - 1)); lia.
  Qed.
  Theorem count_lowest : forall m n s (d : dist), Permutation (faces m) (consecutive 1 s) -> drop_report R m n (n - 1) d -> forall v, reported R d v = ways_lowest s n v.
  Proof.
    intros m n s d P H v. destruct (drop_scored R m n (n - 1) d H) as [N [_ S]]. specialize (S ltac:(lia)).
    assert (L : forall t, length t = Z.to_nat n -> drop_highest (Z.to_nat (n - 1)) t = best false t) by (intros t L; unfold best; rewrite L; f_equal; lia).
    assert (C : ways_lowest s n v = Z.max 0 (Z.min (Z.of_nat s) (Z.of_nat s - v + 1)) ^ n - Z.max 0 (Z.min (Z.of_nat s) (Z.of_nat s - (v + 1) + 1)) ^ n).
    { unfold ways_lowest. destruct (Z.leb_spec 1 v), (Z.leb_spec v (Z.of_nat s)); cbn [andb];
        try (replace (Z.max 0 (Z.min (Z.of_nat s) (Z.of_nat s - (v + 1) + 1))) with (Z.max 0 (Z.min (Z.of_nat s) (Z.of_nat s - v + 1))) by lia; lia). f_equal; f_equal; lia. }
    rewrite C, <- !count_at_least, <- !(lsum_perm _ _ _ _ P).
    rewrite <- !(best_power R false _ m n d _ N S L (best_at_least _)). rewrite <- lsum_minus, <- (reported_indicator R d v). apply lsum_ext. intros w _.
    destruct (Z.eqb_spec w v), (Z.leb_spec v w), (Z.leb_spec (v + 1) w); lia.
  Qed.
End Reports.

(** ** From the text *)
Lemma ways_hits : forall n fs v, ways total n fs v = hits fs n v.
Proof.
  intros n fs v. unfold ways, hits. induction (tuples n fs) as [|t l IH]; [reflexivity|]. rewrite lsum_cons, <- IH. cbn [filter]. destruct (total t =? v); cbn [length]; lia.
Qed.
Lemma numbered_consecutive : forall k, map Z.of_nat (seq 1 k) = consecutive 1 k.
Proof. intros k. unfold consecutive. rewrite <- seq_shift, map_map. apply map_ext. intros i. lia. Qed.
Theorem count_text : forall (R : Runtime) s t ct n st, count_notation ct n -> 1 <= n -> is_digits st -> SpecText.alone (ct ++ $"d" ++ st) t ->
  exists d, reports R s [t] d /\ forall v, reported R d v = ways_to_roll (Z.to_nat (decimal st)) (Z.to_nat n) v.
Proof.
  intros R s t ct n st C N D A. destruct (dice_program R s t ct n st _ _ C N (dt_numbered st D) A) as [d [H [E _]]]. exists d. split; [exact H|]. intros v. rewrite E, ways_hits, numbered_consecutive.
  replace (Z.to_nat n) with (S (Z.to_nat (n - 1))) by lia. apply roll_ways.
Qed.
