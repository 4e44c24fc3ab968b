(** * NearFacts: weighted lists that agree with counts of sequences of random numbers up to a relative error (C57) *)
From Verif Require Import Py PyFacts DiceModel SpecNear.

Section Near.
  Context (numbers : list Z).
  Notation B := (Z.of_nat (length numbers)).
  Definition valid (n : nat) (l : list Z) : Prop := length l = n /\ forall r, In r l -> In r numbers.

  Fixpoint dsum (n : nat) (h : list Z -> Z) : Z :=
    match n with O => h [] | S n' => zsum (map (fun r => dsum n' (fun l => h (r :: l))) numbers) end.

  Lemma valid_cons : forall n r l, In r numbers -> valid n l -> valid (S n) (r :: l).
  Proof. intros n r l H [L V]. split; [cbn; now rewrite L|]. intros x [<-|X]; auto. Qed.
  Lemma valid_app : forall n1 n2 l1 l2, valid n1 l1 -> valid n2 l2 -> valid (n1 + n2) (l1 ++ l2).
  Proof. intros n1 n2 l1 l2 [L1 V1] [L2 V2]. split; [rewrite app_length; lia|]. intros r H. apply in_app_or in H. destruct H; auto. Qed.
  Lemma valid_split : forall n1 n2 l, valid (n1 + n2) l -> exists l1 l2, l = l1 ++ l2 /\ valid n1 l1 /\ valid n2 l2.
  Proof.
    intros n1 n2 l [L V]. exists (firstn n1 l), (skipn n1 l). split; [now rewrite firstn_skipn|]. split; split.
    - rewrite firstn_length. lia.
    - intros r H. apply V. rewrite <- (firstn_skipn n1 l). apply in_or_app. now left.
    - rewrite skipn_length. lia.
    - intros r H. apply V. rewrite <- (firstn_skipn n1 l). apply in_or_app. now right.
  Qed.
  Lemma dsum_ext : forall n h k, (forall l, valid n l -> h l = k l) -> dsum n h = dsum n k.
  Proof.
    induction n as [|n IH]; intros h k H; cbn [dsum]; [apply H; split; [reflexivity|intros r []]|]. apply zsum_map_ext_in. intros r Hr. apply IH.
    intros l V. apply H. now apply valid_cons.
  Qed.
  Lemma dsum_app : forall n1 n2 h, dsum (n1 + n2) h = dsum n1 (fun l1 => dsum n2 (fun l2 => h (l1 ++ l2))).
  Proof. induction n1 as [|n IH]; intros n2 h; [reflexivity|]. cbn [dsum Nat.add]. apply zsum_map_ext_in. intros r _. rewrite IH. reflexivity. Qed.
  Lemma dsum_const : forall n c, dsum n (fun _ => c) = c * B ^ Z.of_nat n.
  Proof.
    induction n as [|n IH]; intros c; [cbn; lia|]. cbn [dsum]. rewrite (zsum_map_ext_in _ _ (fun _ => c * B ^ Z.of_nat n) numbers) by (intros; apply IH).
    rewrite Nat2Z.inj_succ, Z.pow_succ_r by lia. clear IH. set (x := c * B ^ Z.of_nat n). replace (c * (B * B ^ Z.of_nat n)) with (x * B) by (unfold x; ring).
    clearbody x. induction numbers as [|r l IH]; [cbn; lia|]. cbn [map length]. rewrite zsum_cons, IH. lia.
  Qed.
  Lemma dsum_mono : forall n h k, (forall l, valid n l -> h l <= k l) -> dsum n h <= dsum n k.
  Proof.
    induction n as [|n IH]; intros h k H; cbn [dsum]; [apply H; split; [reflexivity|intros r []]|].
    assert (G : forall l, (forall r, In r l -> In r numbers) -> zsum (map (fun r => dsum n (fun x => h (r :: x))) l) <= zsum (map (fun r => dsum n (fun x => k (r :: x))) l)).
    { induction l as [|r l IHl]; intros Hl; [cbn; lia|]. cbn [map]. rewrite !zsum_cons. specialize (IHl (fun x X => Hl x (or_intror X))).
      assert (dsum n (fun x => h (r :: x)) <= dsum n (fun x => k (r :: x))); [|lia]. apply IH. intros x V. apply H. apply valid_cons; [apply Hl; now left|exact V]. }
    apply G. auto.
  Qed.
  Lemma dsum_bounds : forall n h H, (forall l, valid n l -> 0 <= h l <= H) -> 0 <= dsum n h <= H * B ^ Z.of_nat n.
  Proof.
    intros n h H Hh. split.
    - transitivity (dsum n (fun _ => 0)); [rewrite dsum_const; lia|]. apply dsum_mono. intros l V. now apply Hh.
    - rewrite <- dsum_const. apply dsum_mono. intros l V. now apply Hh.
  Qed.
  Lemma dsum_mul : forall n h c, dsum n (fun l => h l * c) = dsum n h * c.
  Proof.
    induction n as [|n IH]; intros h c; [reflexivity|]. cbn [dsum]. rewrite <- zsum_map_mul_r. apply zsum_map_ext_in. intros r _. apply (IH (fun l => h (r :: l))).
  Qed.
  Lemma count_dsum : forall n P, count_lists numbers n P = dsum n (fun l => if P l then 1 else 0).
  Proof. induction n as [|n IH]; intros P; [reflexivity|]. cbn [count_lists dsum]. apply zsum_map_ext_in. intros r _. apply IH. Qed.

  (** ** Weighted lists *)
  Definition wsum {A} (L : list (Z * A)) (h : A -> Z) : Z := zsum (map (fun wa => fst wa * h (snd wa)) L).
  Definition nearly {A} (n : nat) (E T : Z) (L : list (Z * A)) (run : list Z -> A) : Prop :=
    (forall w a, In (w, a) L -> 0 <= w) /\ zsum (map fst L) = T /\ (forall l, valid n l -> exists w, In (w, run l) L /\ w <> 0) /\
    forall h H, (forall w a, In (w, a) L -> w <> 0 -> 0 <= h a <= H) ->
      B * Z.abs (wsum L h * B ^ Z.of_nat n - dsum n (fun l => h (run l)) * T) <= E * H * T * B ^ Z.of_nat n.

  Lemma wsum_abs : forall A (L : list (Z * A)) g M, (forall w a, In (w, a) L -> 0 <= w) -> (forall w a, In (w, a) L -> w <> 0 -> Z.abs (g a) <= M) ->
    Z.abs (wsum L g) <= zsum (map fst L) * M.
  Proof.
    intros A L g M. induction L as [|[w a] L IH]; intros P H; [cbn; lia|]. unfold wsum in *. cbn [map fst snd]. rewrite !zsum_cons.
    specialize (IH (fun w' a' I => P w' a' (or_intror I)) (fun w' a' I => H w' a' (or_intror I))). pose proof (P w a (or_introl eq_refl)) as W.
    assert (Z.abs (w * g a) <= w * M).
    { destruct (Z.eq_dec w 0) as [->|X]; [cbn; lia|]. specialize (H w a (or_introl eq_refl) X). rewrite Z.abs_mul, (Z.abs_eq w) by lia. nia. }
    lia.
  Qed.
  Lemma wsum_ext : forall A (L : list (Z * A)) g h, (forall w a, In (w, a) L -> w <> 0 -> g a = h a) -> wsum L g = wsum L h.
  Proof.
    intros A L g h H. unfold wsum. apply zsum_map_ext_in. intros [w a] I. cbn [fst snd]. destruct (Z.eq_dec w 0) as [->|X]; [lia|]. now rewrite (H w a I X).
  Qed.
  Lemma wsum_linear : forall A (L : list (Z * A)) g h x y, wsum L (fun a => g a * x - h a * y) = wsum L g * x - wsum L h * y.
  Proof. intros A L g h x y. unfold wsum. induction L as [|[w a] L IH]; [reflexivity|]. cbn [map fst snd]. rewrite !zsum_cons, IH. ring. Qed.
  Lemma wsum_bind : forall A A2 (L : list (Z * A)) (K : A -> list (Z * A2)) h,
    wsum (flat_map (fun wa => map (fun wb => (fst wa * fst wb, snd wb)) (K (snd wa))) L) h = wsum L (fun a => wsum (K a) h).
  Proof.
    intros A A2 L K h. unfold wsum at 1 2. rewrite zsum_flat_map. apply zsum_map_ext_in. intros [w a] _. cbn [fst snd]. rewrite map_map. cbn [fst snd].
    unfold wsum. rewrite <- zsum_map_mul_l. apply zsum_map_ext_in. intros [w2 b] _. cbn [fst snd]. ring.
  Qed.
  Lemma wsum_one : forall A (L : list (Z * A)), wsum L (fun _ => 1) = zsum (map fst L).
  Proof. intros A L. unfold wsum. apply zsum_map_ext_in. intros; lia. Qed.

  Lemma nearly_bind : forall A A2 n1 n2 E1 E2 T1 T2 (L : list (Z * A)) run1 (K : A -> list (Z * A2)) run2 run, 0 <= E1 -> 0 <= E2 -> 0 <= T2 ->
    nearly n1 E1 T1 L run1 -> (forall w a, In (w, a) L -> w <> 0 -> nearly n2 E2 T2 (K a) (run2 a)) ->
    (forall l1 l2, valid n1 l1 -> valid n2 l2 -> run (l1 ++ l2) = run2 (run1 l1) l2) ->
    nearly (n1 + n2) (E1 + E2) (T1 * T2) (flat_map (fun wa => map (fun wb => (fst wa * fst wb, snd wb)) (K (snd wa))) L) run.
  Proof.
    intros A A2 n1 n2 E1 E2 T1 T2 L run1 K run2 run P1 P2 P3 [W1 [S1 [V1 H1]]] HK HR.
    assert (T0 : 0 <= T1) by (rewrite <- S1; apply zsum_map_nonneg; intros [w a] I; now apply (W1 w a)).
    split; [|split; [|split]].
    - intros w b I. apply in_flat_map in I. destruct I as [[w1 a] [I J]]. cbn [fst snd] in J. apply in_map_iff in J. destruct J as [[w2 b'] [E J]]. cbn [fst snd] in E. injection E as <- <-.
      destruct (Z.eq_dec w1 0) as [->|X]; [lia|]. destruct (HK w1 a I X) as [W2 _]. specialize (W2 w2 b' J). specialize (W1 w1 a I). nia.
    - rewrite <- wsum_one, wsum_bind. rewrite (wsum_ext _ _ _ (fun _ => T2)).
      + unfold wsum. rewrite zsum_map_mul_r, S1. reflexivity.
      + intros w a I X. destruct (HK w a I X) as [_ [S2 _]]. now rewrite wsum_one.
    - intros l V. destruct (valid_split n1 n2 l V) as [l1 [l2 [-> [Va Vb]]]]. destruct (V1 l1 Va) as [w1 [I1 X1]]. destruct (HK w1 _ I1 X1) as [_ [_ [V2 _]]].
      destruct (V2 l2 Vb) as [w2 [I2 X2]]. exists (w1 * w2). split; [|nia]. rewrite HR by assumption. apply in_flat_map. exists (w1, run1 l1). split; [exact I1|]. cbn [fst snd].
      apply in_map_iff. exists (w2, run2 (run1 l1) l2). split; [reflexivity|exact I2].
    - intros h H Hh. rewrite wsum_bind. set (D1 := fun a => dsum n2 (fun l => h (run2 a l))).
      assert (Hin : forall w a, In (w, a) L -> w <> 0 -> forall w2 b, In (w2, b) (K a) -> w2 <> 0 -> 0 <= h b <= H).
      { intros w a I X w2 b J Y. apply (Hh (w * w2)); [|nia]. apply in_flat_map. exists (w, a). split; [exact I|]. cbn [fst snd]. apply in_map_iff. exists (w2, b). auto. }
      assert (HD : forall w a, In (w, a) L -> w <> 0 -> 0 <= D1 a <= H * B ^ Z.of_nat n2).
      { intros w a I X. apply dsum_bounds. intros l V. destruct (HK w a I X) as [_ [_ [V2 _]]]. destruct (V2 l V) as [w2 [J Y]]. now apply (Hin w a I X w2). }
      specialize (H1 D1 (H * B ^ Z.of_nat n2) HD).
      assert (ED : dsum (n1 + n2) (fun l => h (run l)) = dsum n1 (fun l => D1 (run1 l))).
      { rewrite dsum_app. apply dsum_ext. intros l1 Va. unfold D1. apply dsum_ext. intros l2 Vb. now rewrite HR. }
      rewrite ED. rewrite Nat2Z.inj_add, Z.pow_add_r by lia. set (b1 := B ^ Z.of_nat n1) in *. set (b2 := B ^ Z.of_nat n2) in *.
      assert (b1P : 0 <= b1) by (unfold b1; apply Z.pow_nonneg; lia). assert (b2P : 0 <= b2) by (unfold b2; apply Z.pow_nonneg; lia).
      assert (Hg : B * Z.abs (wsum L (fun a => wsum (K a) h * b2 - D1 a * T2)) <= T1 * (E2 * H * T2 * b2)).
      { rewrite <- S1. rewrite <- (Z.abs_eq B) at 1 by lia. rewrite <- Z.abs_mul.
        replace (B * wsum L (fun a => wsum (K a) h * b2 - D1 a * T2)) with (wsum L (fun a => B * (wsum (K a) h * b2 - D1 a * T2))).
        - apply wsum_abs; [exact W1|]. intros w a I X. destruct (HK w a I X) as [_ [_ [_ H2]]]. specialize (H2 h H (Hin w a I X)). fold b2 in H2.
          rewrite Z.abs_mul, (Z.abs_eq B) by lia. exact H2.
        - unfold wsum. rewrite <- zsum_map_mul_l. apply zsum_map_ext_in. intros; ring. }
      rewrite wsum_linear in Hg. set (X := wsum L (fun a => wsum (K a) h)) in *. set (Y := wsum L D1) in *. set (D := dsum n1 _) in *.
      replace (X * (b1 * b2) - D * (T1 * T2)) with (b1 * (X * b2 - Y * T2) + T2 * (Y * b1 - D * T1)) by ring.
      pose proof (Z.abs_triangle (b1 * (X * b2 - Y * T2)) (T2 * (Y * b1 - D * T1))) as TR. rewrite !Z.abs_mul, (Z.abs_eq b1), (Z.abs_eq T2) in TR by lia.
      set (u := Z.abs (X * b2 - Y * T2)) in *. set (v := Z.abs (Y * b1 - D * T1)) in *. clearbody u v. set (c := B) in *. assert (0 <= c) by (unfold c; lia). clearbody c.
      transitivity (c * (b1 * u + T2 * v)); [now apply Z.mul_le_mono_nonneg_l|].
      replace (c * (b1 * u + T2 * v)) with (b1 * (c * u) + T2 * (c * v)) by ring.
      transitivity (b1 * (T1 * (E2 * H * T2 * b2)) + T2 * (E1 * (H * b2) * T1 * b1)); [apply Z.add_le_mono; apply Z.mul_le_mono_nonneg_l; assumption|].
      apply Z.eq_le_incl. ring.
  Qed.
  Lemma nearly_map : forall A A2 n E T (L : list (Z * A)) run (f : A -> A2), nearly n E T L run -> nearly n E T (map (fun wa => (fst wa, f (snd wa))) L) (fun l => f (run l)).
  Proof.
    intros A A2 n E T L run f [W [S [V H]]]. split; [|split; [|split]].
    - intros w b I. apply in_map_iff in I. destruct I as [[w' a] [X I]]. cbn [fst snd] in X. injection X as -> <-. now apply (W w a).
    - rewrite map_map. exact S.
    - intros l Hl. destruct (V l Hl) as [w [I X]]. exists w. split; [|exact X]. apply in_map_iff. now exists (w, run l).
    - intros h M Hh. specialize (H (fun a => h (f a)) M). replace (wsum (map (fun wa => (fst wa, f (snd wa))) L) h) with (wsum L (fun a => h (f a))).
      + apply H. intros w a I. apply Hh. apply in_map_iff. now exists (w, a).
      + unfold wsum. now rewrite map_map.
  Qed.
  Lemma nearly_one : forall A (a : A), nearly 0 0 1 [(1, a)] (fun _ => a).
  Proof.
    intros A a. split; [|split; [|split]].
    - intros w x [E|[]]. injection E as <- _. lia.
    - reflexivity.
    - intros l _. exists 1. split; [now left|lia].
    - intros h H Hh. cbn [dsum]. replace (wsum [(1, a)] h) with (h a) by (unfold wsum; cbn [map fst snd]; rewrite zsum_cons; change (zsum []) with 0; ring).
      change (B ^ Z.of_nat 0) with 1. replace (h a * 1 - h a * 1) with 0 by ring. cbn [Z.abs]. lia.
  Qed.
  Lemma nearly_ext : forall A n E T (L : list (Z * A)) run run', (forall l, valid n l -> run l = run' l) -> nearly n E T L run -> nearly n E T L run'.
  Proof.
    intros A n E T L run run' X [W [S [V H]]]. split; [exact W|]. split; [exact S|]. split.
    - intros l Hl. rewrite <- X by exact Hl. now apply V.
    - intros h M Hh. rewrite (dsum_ext n (fun l => h (run' l)) (fun l => h (run l))); [now apply H|]. intros l Hl. now rewrite X.
  Qed.
End Near.

(** ** One die *)
Section Die.
  Context (numbers : list Z) (m : list (Z * Z)) (pick : Z -> Z).
  Notation B := (Z.of_nat (length numbers)).
  Notation T := (zsum (map snd m)).
  Definition picked (l : list Z) (v : Z) : Z := Z.of_nat (length (filter (fun r => pick r =? v) l)).
  Hypothesis weights : forall v w, In (v, w) m -> 0 <= w.
  Hypothesis positive : 0 < T.
  Hypothesis keys : NoDup (map fst m).
  Hypothesis picks : forall r, In r numbers -> exists c, In (pick r, c) m /\ 0 < c.
  Hypothesis shares : forall v w, In (v, w) m -> Z.abs (picked numbers v * T - w * B) <= 7 * T.

  Lemma key_sum : forall (l : list (Z * Z)) x c (h : Z -> Z), NoDup (map fst l) -> In (x, c) l -> zsum (map (fun vw => (if x =? fst vw then 1 else 0) * h (fst vw)) l) = h x.
  Proof.
    induction l as [|[v w] l IH]; intros x c h N I; [destruct I|]. cbn [map fst] in *. inversion N as [|? ? F N']; subst. rewrite zsum_cons. destruct I as [I|I].
    - injection I as -> ->. rewrite Z.eqb_refl. rewrite zsum_map_zero; [lia|]. intros [v w] J. cbn [fst]. destruct (x =? v) eqn:X; [|reflexivity].
      apply Z.eqb_eq in X. subst v. exfalso. apply F. apply in_map_iff. now exists (x, w).
    - rewrite (IH x c h N' I). destruct (x =? v) eqn:X; [|lia]. apply Z.eqb_eq in X. subst v. exfalso. apply F. apply in_map_iff. now exists (x, c).
  Qed.
  Lemma picked_sum : forall h l, (forall r, In r l -> In r numbers) -> zsum (map (fun r => h (pick r)) l) = zsum (map (fun vw => picked l (fst vw) * h (fst vw)) m).
  Proof.
    intros h l. induction l as [|r l IH]; intros Hl.
    - symmetry. apply zsum_map_zero. intros vw _. reflexivity.
    - cbn [map]. rewrite zsum_cons, IH by (intros x X; apply Hl; now right). destruct (picks r (Hl r (or_introl eq_refl))) as [c [I _]].
      rewrite <- (key_sum m (pick r) c h keys I). rewrite <- zsum_map_add. apply zsum_map_ext_in. intros [v w] _. cbn [fst]. unfold picked. cbn [filter].
      destruct (pick r =? v); [|ring]. cbn [length]. rewrite Nat2Z.inj_succ. ring.
  Qed.
  Lemma picked_zero : forall v, In (v, 0) m -> picked numbers v = 0.
  Proof.
    intros v I. unfold picked. destruct (filter _ numbers) as [|r l] eqn:F; [reflexivity|]. exfalso. assert (J : In r (filter (fun r => pick r =? v) numbers)) by (rewrite F; now left).
    apply filter_In in J. destruct J as [J X]. apply Z.eqb_eq in X. destruct (picks r J) as [c [K P]]. rewrite X in K.
    clear - keys I K P. induction m as [|[x k] l IH]; [destruct I|]. cbn [map fst] in keys. inversion keys as [|? ? F N']; subst. destruct I as [I|I], K as [K|K].
    - injection I as -> ->. injection K as K. lia.
    - injection I as -> ->. apply F. apply in_map_iff. now exists (v, c).
    - injection K as -> ->. apply F. apply in_map_iff. now exists (v, 0).
    - now apply IH.
  Qed.
  Lemma die_nearly : nearly numbers 1 (7 * Z.of_nat (length m)) T (map (fun vw => (snd vw, fst vw)) m) (fun l => pick (nth 0 l 0)).
  Proof.
    split; [|split; [|split]].
    - intros w v I. apply in_map_iff in I. destruct I as [[v' w'] [E I]]. cbn [fst snd] in E. injection E as -> ->. now apply (weights v).
    - now rewrite map_map.
    - intros l [L V]. destruct l as [|r [|? ?]]; try discriminate. cbn [nth]. destruct (picks r (V r (or_introl eq_refl))) as [c [I P]]. exists c. split; [|lia].
      apply in_map_iff. now exists (pick r, c).
    - intros h H Hh. unfold wsum. rewrite map_map. cbn [fst snd dsum nth]. rewrite picked_sum by auto. change (Z.of_nat 1) with 1. rewrite Z.pow_1_r.
      assert (HH : 0 <= H).
      { destruct (zsum_pos_in _ snd m) as [[v w] [I P]]; [intros [v w]; apply weights|exact positive|]. cbn [snd] in P.
        assert (0 <= h v <= H); [|lia]. apply (Hh w v); [apply in_map_iff; now exists (v, w)|lia]. }
      set (t := T) in *. assert (t0 : 0 <= t) by (unfold t; lia). clearbody t. set (c := B) in *. assert (c0 : 0 <= c) by (unfold c; lia). clearbody c.
      replace (zsum (map (fun x => snd x * h (fst x)) m) * c - zsum (map (fun x => picked numbers (fst x) * h (fst x)) m) * t)
        with (zsum (map (fun x => (snd x * c - picked numbers (fst x) * t) * h (fst x)) m)).
      + assert (G : forall l, (forall x, In x l -> In x m) -> Z.abs (zsum (map (fun x => (snd x * c - picked numbers (fst x) * t) * h (fst x)) l)) <= 7 * Z.of_nat (length l) * H * t).
        { induction l as [|[v w] l IH]; intros Hl; [cbn; lia|]. cbn [map fst snd length]. rewrite zsum_cons, Nat2Z.inj_succ. specialize (IH (fun x X => Hl x (or_intror X))).
          assert (I : In (v, w) m) by (apply Hl; now left). assert (Z.abs ((w * c - picked numbers v * t) * h v) <= 7 * H * t); [|lia].
          destruct (Z.eq_dec w 0) as [->|X].
          - rewrite picked_zero by exact I. replace ((0 * c - 0 * t) * h v) with 0 by ring. cbn [Z.abs]. nia.
          - specialize (shares v w I). assert (Q : 0 <= h v <= H). { apply (Hh w v); [|exact X]. apply in_map_iff. now exists (v, w). }
            rewrite Z.abs_mul, (Z.abs_eq (h v)) by lia. replace (w * c - picked numbers v * t) with (- (picked numbers v * t - w * c)) by ring. rewrite Z.abs_opp.
            set (u := Z.abs (picked numbers v * t - w * c)) in *. assert (0 <= u) by (unfold u; lia). clearbody u. nia. }
        specialize (G m (fun x X => X)). nia.
      + rewrite <- !zsum_map_mul_r. clear. induction m as [|[v w] l IH]; [reflexivity|]. cbn [map fst snd]. rewrite !zsum_cons, IH. ring.
  Qed.

  Lemma dice_nearly : forall k, nearly numbers k (7 * (Z.of_nat k * Z.of_nat (length m))) (T ^ Z.of_nat k)
    (map (fun tw => (snd tw, fst tw)) (weighted_tuples m k)) (map pick).
  Proof.
    induction k as [|k IH].
    - replace (7 * (Z.of_nat 0 * Z.of_nat (length m))) with 0 by (cbn; ring). apply (nearly_ext numbers _ _ _ _ _ (fun _ => [])); [|apply (nearly_one numbers (list Z) [])].
      intros l [L _]. now destruct l.
    - replace (S k) with (1 + k)%nat by reflexivity. rewrite Nat2Z.inj_add, Z.pow_add_r, Z.pow_1_r by lia.
      replace (7 * ((Z.of_nat 1 + Z.of_nat k) * Z.of_nat (length m))) with (7 * Z.of_nat (length m) + 7 * (Z.of_nat k * Z.of_nat (length m))) by ring.
      set (K := fun v : Z => map (fun tw => (fst tw, v :: snd tw)) (map (fun tw : list Z * Z => (snd tw, fst tw)) (weighted_tuples m k))).
      replace (map (fun tw => (snd tw, fst tw)) (weighted_tuples m (1 + k)))
        with (flat_map (fun wa => map (fun wb => (fst wa * fst wb, snd wb)) (K (snd wa))) (map (fun vw => (snd vw, fst vw)) m)).
      + apply (nearly_bind numbers Z (list Z) 1 k _ _ _ _ _ (fun l => pick (nth 0 l 0)) K (fun v l => v :: map pick l)); [lia|lia|apply Z.pow_nonneg; lia|apply die_nearly| |].
        * intros w v _ _. apply (nearly_map numbers _ _ k _ _ _ (map pick) (cons v)). exact IH.
        * intros l1 l2 [L1 _] _. destruct l1 as [|r [|? ?]]; try discriminate. reflexivity.
      + unfold K. cbn [Nat.add weighted_tuples]. generalize (weighted_tuples m k). intros ts. clear. induction m as [|[v w] l IH]; [reflexivity|]. cbn [map flat_map fst snd].
        rewrite map_app, <- IH. f_equal. rewrite !map_map. reflexivity.
  Qed.
End Die.
