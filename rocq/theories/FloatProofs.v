(** * FloatProofs: what the reported floats say about the exact probabilities *)
From Coq Require Import QArith Qabs Qpower Sorted Permutation Floats.SpecFloat.
From Verif Require Import Py PyFacts PyFloat Constraint Distribution DistFacts FloatFacts SpecDice SpecAlgebra SpecProb.
Local Open Scope Z_scope.

(** ** From units of 2^-1074 to rational numbers *)
Definition K : Z := 2 ^ 1074.
Lemma K_pos : 0 < K.
Proof. apply Z.pow_pos_nonneg; lia. Qed.
Lemma K_big : 2 ^ 60 <= K.
Proof. apply Z.pow_le_mono_r; lia. Qed.
Definition Kp : positive := Z.to_pos K.
Lemma Kp_eq : Z.pos Kp = K.
Proof. unfold Kp. apply Z2Pos.id. exact K_pos. Qed.
Lemma K_eq : 2 ^ 1074 = K.
Proof. reflexivity. Qed.
Global Opaque K Kp.

Lemma pow_units : forall m e, -1074 <= e -> (inject_Z m * 2 ^ e == (m * 2 ^ (e - -1074)) # Kp)%Q.
Proof.
  intros m e E.
  assert (X : (2 ^ e == inject_Z (2 ^ (e - -1074)) * 2 ^ (-1074))%Q).
  { rewrite Zpower_Qpower by lia. rewrite <- Qpower_plus by discriminate. replace (e - -1074 + -1074) with e by lia. reflexivity. }
  assert (Y : (2 ^ (-1074) == 1 # Kp)%Q).
  { change (-1074) with (- (1074)). rewrite Qpower_opp. rewrite <- (Zpower_Qpower 2 1074) by lia. rewrite K_eq, <- Kp_eq. reflexivity. }
  rewrite X, Y. unfold Qeq. cbn [Qnum Qden inject_Z Qmult]. rewrite !Pos.mul_1_l. ring.
Qed.

Lemma fvalue_units : forall f, finite_float f -> exists y, fvalue f = Some y /\ (y == units (-1074) f # Kp)%Q.
Proof.
  intros [s|s| |s m e] F; cbn in F; try contradiction; cbn [fvalue units].
  - eexists. split; [reflexivity|]. reflexivity.
  - eexists. split; [reflexivity|]. rewrite pow_units by lia. destruct s; reflexivity.
Qed.

Lemma double_units : forall y, is_double y <-> exists w, udouble (-1074) w /\ (y == w # Kp)%Q.
Proof.
  intros y. split.
  - intros [m [e [M [E H]]]]. exists (m * 2 ^ (e - -1074)). split; [exists m, e; auto|]. rewrite H. apply pow_units. lia.
  - intros [w [[m [e [E [M ->]]]] H]]. exists m, e. split; [exact M|]. split; [exact E|]. rewrite H. symmetry. apply pow_units. lia.
Qed.

Lemma even_units : forall f y, finite_float f -> Z.even (mantissa f) = true -> (y == units (-1074) f # Kp)%Q -> is_even_double y.
Proof.
  intros [s|s| |s m e] y F E H; cbn in F; try contradiction; cbn [mantissa] in E; cbn [units] in H.
  - exists 0, (-1074). split; [reflexivity|]. split; [lia|]. split; [auto|]. split; [reflexivity|]. rewrite H. reflexivity.
  - exists (if s then - Z.pos m else Z.pos m), e. split; [destruct s; lia|]. split; [lia|]. split; [destruct s; lia|]. split; [destruct s; exact E|].
    rewrite H. symmetry. apply pow_units. lia.
Qed.

Lemma frac_pos : forall a c, 0 < c -> (inject_Z a / inject_Z c == a # Z.to_pos c)%Q.
Proof.
  intros a c C. rewrite (Qmake_Qdiv a (Z.to_pos c)), Z2Pos.id by exact C. reflexivity.
Qed.

(** Differences over a common denominator *)
Lemma diff_frac : forall (v x : Q) u p q, 0 < q -> (v == u # Kp)%Q -> (x == p # (Z.to_pos q * Kp))%Q ->
  (v - x == (u * q - p) # (Z.to_pos q * Kp))%Q.
Proof.
  intros v x u p q Q Hv Hx. rewrite Hv, Hx. unfold Qeq, Qminus, Qplus, Qopp. cbn [Qnum Qden]. rewrite !Pos2Z.inj_mul, Z2Pos.id by exact Q. ring.
Qed.
Lemma frac_le : forall a b c, (a # c <= b # c)%Q <-> a <= b.
Proof. intros a b c. unfold Qle. cbn [Qnum Qden]. nia. Qed.
Lemma frac_eq : forall a b c, (a # c == b # c)%Q <-> a = b.
Proof. intros a b c. unfold Qeq. cbn [Qnum Qden]. nia. Qed.

Lemma nearest_of : forall p q f x, 0 < q -> unearest (-1074) p q f -> (x == p # (Z.to_pos q * Kp))%Q -> nearest x f.
Proof.
  intros p q f x Q [F [N _]] Hx. destruct (fvalue_units f F) as [v [Ev Hv]]. exists v. split; [exact Ev|]. split.
  - apply double_units. exists (units (-1074) f). split; [now apply units_udouble|exact Hv].
  - intros y Y. apply double_units in Y. destruct Y as [w [W Hy]]. destruct (N w W) as [A T].
    rewrite (diff_frac v x _ p q Q Hv Hx), (diff_frac y x w p q Q Hy Hx). cbn [Qabs]. rewrite frac_le, frac_eq. split; [exact A|].
    intros Eq. destruct (T Eq) as [->|Ve]; [left; rewrite Hy, Hv; reflexivity|right]. exact (even_units f v F Ve Hv).
Qed.

(** n / d in units *)
Lemma ratio_units : forall n d, 0 < d -> (inject_Z n / inject_Z d == (n * K) # (Z.to_pos d * Kp))%Q.
Proof.
  intros n d D. rewrite frac_pos by exact D. unfold Qeq. cbn [Qnum Qden]. rewrite Pos2Z.inj_mul, Kp_eq. ring.
Qed.

(** ** get_dict_form *)
Definition zeqb_iff := Z.eqb_eq.

Lemma no_overflow_small : forall p q, 0 < q -> Z.abs p <= 2 ^ 60 * K * q -> ~ overflows (-1074) p q.
Proof.
  intros p q Q H O. unfold overflows in O. replace (971 - -1074) with (1074 + 971) in O by lia. rewrite Z.pow_add_r, K_eq in O by lia.
  pose proof K_pos. assert (X : 2 ^ 70 <= 2 ^ 971) by (apply Z.pow_le_mono_r; lia). set (T := 2 ^ 971) in *. clearbody T.
  assert (2 ^ 70 * (K * q) <= T * (K * q)) by nia. nia.
Qed.

Lemma divide_counts_ok : forall N m, 0 < N -> (forall v c, In (v, c) m -> 0 <= c <= N) ->
  exists fs, divide_counts m N = Ok fs /\ map fst fs = map fst m /\
    forall v f, In (v, f) fs -> exists c, In (v, c) m /\ unearest (-1074) (c * K) N f.
Proof.
  intros N m HN. induction m as [|[v c] m IH]; intros H.
  - exists []. split; [reflexivity|]. split; [reflexivity|]. intros v f [].
  - destruct IH as [fs [E [Ek Ev]]]; [intros; eapply H; right; eassumption|].
    destruct (int_truediv_spec (-1074) c N ltac:(lia) HN) as [[f [E1 [U _]]]|[_ O]].
    + cbn [divide_counts]. rewrite E1, E. cbn [rbind rmap]. eexists. split; [reflexivity|]. cbn [map fst]. rewrite Ek. split; [reflexivity|].
      intros v' f' [X|X].
      * injection X as <- <-. exists c. split; [now left|]. exact U.
      * destruct (Ev v' f' X) as [c' [I1 U1]]. exists c'. split; [now right|exact U1].
    + exfalso. revert O. apply no_overflow_small; [exact HN|]. change (2 ^ - -1074) with (2 ^ 1074). rewrite K_eq. specialize (H v c (or_introl eq_refl)).
      pose proof K_pos. rewrite Z.abs_eq by nia. nia.
Qed.

Lemma divide_counts_zero : forall m, m <> [] -> divide_counts m 0 = Raise ZeroDivisionError.
Proof. intros [|[v c] m] H; [congruence|reflexivity]. Qed.

(** ** _get_histogram_form *)
Lemma fill_spec : forall vs (d : list (Z * pyfloat)), NoDup (map fst d) ->
  let r := fold_left (fun d v => if dmem Z.eqb d v then d else dset Z.eqb d v fzero) vs d in
  NoDup (map fst r) /\ (forall v, In v (map fst r) <-> In v (map fst d) \/ In v vs) /\ (forall v, fget r v = fget d v).
Proof.
  induction vs as [|x vs IH]; intros d N; cbn [fold_left].
  - split; [exact N|]. split; [|reflexivity]. intros v. cbn. tauto.
  - destruct (dmem Z.eqb d x) eqn:M.
    + apply (dmem_in Z.eqb zeqb_iff) in M. destruct (IH d N) as [A [B C]]. split; [exact A|]. split; [|exact C].
      intros v. rewrite B. cbn. intuition congruence.
    + assert (M' : ~ In x (map fst d)) by (intros X; apply (dmem_in Z.eqb zeqb_iff) in X; congruence).
      destruct (IH (dset Z.eqb d x fzero) (dset_nodup Z.eqb zeqb_iff d x fzero N)) as [A [B C]]. split; [exact A|]. split.
      * intros v. rewrite B. rewrite (dset_keys Z.eqb zeqb_iff). cbn. intuition congruence.
      * intros v. rewrite C. unfold fget. destruct (Z.eq_dec v x) as [->|Nv].
        -- rewrite (dget_dset_same Z.eqb zeqb_iff). apply (dget_none Z.eqb zeqb_iff) in M'. now rewrite M'.
        -- now rewrite (dget_dset_other Z.eqb zeqb_iff) by auto.
Qed.

Lemma zrange_strong : forall n a b, Z.to_nat (b - a) = n -> StronglySorted Z.lt (zrange a b).
Proof.
  induction n as [|n IH]; intros a b H.
  - rewrite zrange_nil by lia. constructor.
  - rewrite zrange_cons by lia. constructor; [apply IH; lia|]. apply Forall_forall. intros x X. apply in_zrange in X. lia.
Qed.
Lemma strong_lt_le : forall l, StronglySorted Z.lt l -> Sorted Z.le l.
Proof.
  intros l H. apply StronglySorted_Sorted. induction H as [|x l H IH F]; constructor; auto.
  eapply Forall_impl; [|exact F]. cbv beta. intros; lia.
Qed.

Lemma histogram_form_ok : forall fs lo hi, NoDup (map fst fs) -> In lo (map fst fs) -> In hi (map fst fs) -> (forall v, In v (map fst fs) -> lo <= v <= hi) ->
  exists h, histogram_form fs = Ok h /\ NoDup (map fst h) /\ (forall v, In v (map fst h) <-> lo <= v <= hi) /\ (forall v, fget h v = fget fs v) /\
    zsort (map fst h) = zrange lo (hi + 1).
Proof.
  intros fs lo hi N Hl Hh B. unfold histogram_form.
  assert (E1 : pymin (map fst fs) = Ok lo) by (apply pymin_ok; split; [exact Hl|]; intros; now apply B).
  assert (E2 : pymax (map fst fs) = Ok hi) by (apply pymax_ok; split; [exact Hh|]; intros; now apply B).
  rewrite E1, E2. destruct (fill_spec (zrange lo (hi + 1)) fs N) as [A [M G]].
  eexists. split; [reflexivity|]. split; [exact A|].
  assert (M' : forall v, In v (map fst (fold_left (fun d v => if dmem Z.eqb d v then d else dset Z.eqb d v fzero) (zrange lo (hi + 1)) fs)) <-> lo <= v <= hi).
  { intros v. rewrite M, in_zrange. split; [|lia]. intros [X|X]; [now apply B|lia]. }
  split; [exact M'|]. split; [exact G|].
  apply sorted_perm_eq; [apply zsort_sorted|apply strong_lt_le; now eapply zrange_strong|].
  etransitivity; [apply zsort_perm|]. apply NoDup_Permutation; [exact A|apply zrange_nodup|]. intros v. rewrite M', in_zrange. lia.
Qed.

(** ** Counts *)
Definition count_at (m : list (Z * Z)) (v : Z) : Z := match dget Z.eqb m v with Some c => c | None => 0 end.
Definition count_where (t : Z -> bool) (m : list (Z * Z)) : Z := zsum (map snd (filter (fun vc => t (fst vc)) m)).

Lemma count_where_cons : forall t v c m, count_where t ((v, c) :: m) = (if t v then c else 0) + count_where t m.
Proof. intros t v c m. unfold count_where. cbn [filter fst]. destruct (t v); cbn [map snd]; [apply zsum_cons|lia]. Qed.
Lemma count_at_cons : forall v c m x, count_at ((v, c) :: m) x = if x =? v then c else count_at m x.
Proof. intros v c m x. unfold count_at. cbn [dget]. rewrite (Z.eqb_sym v x). now destruct (x =? v). Qed.
Lemma count_at_none : forall m x, ~ In x (map fst m) -> count_at m x = 0.
Proof. intros m x H. unfold count_at. apply (dget_none Z.eqb zeqb_iff) in H. now rewrite H. Qed.

Lemma count_where_step : forall m (t t' : Z -> bool) x, NoDup (map fst m) -> t x = false -> t' x = true -> (forall v, v <> x -> t v = t' v) ->
  count_where t' m = count_where t m + count_at m x.
Proof.
  intros m t t' x N F T H. induction m as [|[v c] m IH]; [reflexivity|]. inversion N as [|? ? Nv Nm]; subst.
  rewrite !count_where_cons, count_at_cons. specialize (IH Nm). destruct (Z.eqb_spec x v) as [->|Ne].
  - rewrite F, T. rewrite (count_at_none m v Nv) in IH. lia.
  - rewrite (H v) by auto. lia.
Qed.
Lemma count_where_split : forall m (t : Z -> bool), count_where t m + count_where (fun v => negb (t v)) m = zsum (map snd m).
Proof.
  intros m t. induction m as [|[v c] m IH]; [reflexivity|]. rewrite !count_where_cons. cbn [map snd]. rewrite zsum_cons.
  destruct (t v); cbn [negb]; lia.
Qed.
Lemma count_where_ext : forall m (t t' : Z -> bool), (forall v, In v (map fst m) -> t v = t' v) -> count_where t m = count_where t' m.
Proof.
  intros m t t'. induction m as [|[v c] m IH]; intros H; [reflexivity|]. rewrite !count_where_cons. rewrite (H v) by now left.
  rewrite IH; [reflexivity|]. intros; apply H; now right.
Qed.
Lemma count_where_nonneg : forall m t, (forall v c, In (v, c) m -> 0 <= c) -> 0 <= count_where t m.
Proof.
  intros m t. induction m as [|[v c] m IH]; intros H; [unfold count_where; cbn; lia|]. rewrite count_where_cons.
  specialize (IH (fun v c I => H v c (or_intror I))). specialize (H v c (or_introl eq_refl)). destruct (t v); lia.
Qed.
Lemma count_at_in : forall m v c, NoDup (map fst m) -> In (v, c) m -> count_at m v = c.
Proof. intros m v c N I. unfold count_at. apply (dget_nodup Z.eqb zeqb_iff m v c N) in I. now rewrite I. Qed.
Lemma count_at_nonneg : forall m v, (forall v c, In (v, c) m -> 0 <= c) -> 0 <= count_at m v.
Proof.
  intros m v H. unfold count_at. destruct (dget Z.eqb m v) eqn:E; [|lia]. apply (dget_some_in Z.eqb zeqb_iff) in E. eapply H, E.
Qed.
Lemma count_le_total : forall (m : list (Z * Z)) v c, (forall v c, In (v, c) m -> 0 <= c) -> In (v, c) m -> c <= zsum (map snd m).
Proof.
  intros m v c. induction m as [|[v' c'] m IH]; [intros _ []|]; intros H [X|X]; cbn [map snd]; rewrite zsum_cons.
  - injection X as -> ->. assert (0 <= zsum (map snd m)); [|lia].
    rewrite <- (count_where_split m (fun _ => true)).
    pose proof (fun t => count_where_nonneg m t (fun v c I => H v c (or_intror I))) as P.
    pose proof (P (fun _ => true)). pose proof (P (fun v => negb ((fun _ => true) v))). lia.
  - specialize (IH (fun v c I => H v c (or_intror I)) X). specialize (H v' c' (or_introl eq_refl)). lia.
Qed.

(** ** Running sums of rounded probabilities *)

(** What is known about a rounded probability c / N *)
Lemma rounded_probability : forall c N f, 0 < N -> 0 <= c <= N -> unearest (-1074) (c * K) N f ->
  let u := units (-1074) f in 0 <= u /\ u <= K /\ u * N <= 2 * (c * K) /\ 2 ^ 53 * Z.abs (u * N - c * K) <= K * N.
Proof.
  intros c N f HN C U u. pose proof K_pos as Kp0. pose proof K_big as Kb.
  assert (G : 0 <= u) by (apply (unearest_ge (-1074) (c * K) N f 0 HN U (udouble_0 _)); nia).
  assert (One : udouble (-1074) K).
  { exists 1, 0. split; [lia|]. split; [reflexivity|]. rewrite Z.mul_1_l. replace (0 - -1074) with 1074 by lia. symmetry. apply K_eq. }
  assert (L : u <= K) by (apply (unearest_le (-1074) (c * K) N f K HN U One); nia).
  split; [exact G|]. split; [exact L|]. destruct U as [_ [Nr Er]]. fold u in Nr, Er. split.
  - destruct (Nr 0 (udouble_0 _)) as [A _]. assert (0 <= c * K) by nia. lia.
  - assert (0 <= c * K <= K * N) by nia. replace (-1074 - -1074) with 0 in Er by lia. rewrite Z.pow_0_r, Z.mul_1_r in Er.
    destruct Er as [Er|Er]; [lia|]. assert (2 ^ 60 * N <= K * N) by nia. lia.
Qed.

(** Adding or subtracting doubles that stay small *)
Lemma small_sum : forall f p, Z.abs p <= 5 * K -> unearest (-1074) p 1 f ->
  2 ^ 53 * Z.abs (units (-1074) f - p) <= Z.abs p.
Proof.
  intros f p H [_ [_ Er]]. change (1 * 2 ^ (-1074 - -1074)) with 1 in Er. rewrite !Z.mul_1_r in Er. lia.
Qed.

Section Loops.
  Context (N : Z) (m : list (Z * Z)) (h : list (Z * pyfloat)) (lo : Z).
  Context (HN : 0 < N) (Nd : NoDup (map fst m)) (Nn : forall v c, In (v, c) m -> 0 <= c) (Tot : zsum (map snd m) = N)
    (Hlo : forall v, In v (map fst m) -> lo <= v) (Hf : forall v, unearest (-1074) (count_at m v * K) N (fget h v)).
  Notation U := (units (-1074)).
  Notation below v := (count_where (fun w => w <? v) m).

  Lemma below_step : forall v, below (v + 1) = below v + count_at m v.
  Proof using Nd.
    intros v. apply count_where_step; [exact Nd|apply Z.ltb_ge; lia|apply Z.ltb_lt; lia|].
    intros x X. destruct (Z.ltb_spec x v), (Z.ltb_spec x (v + 1)); auto; lia.
  Qed.
  Lemma below_lo : below lo = 0.
  Proof using Hlo.
    rewrite (count_where_ext m _ (fun _ => false)); [|intros v V; apply Z.ltb_ge; auto]. clear. induction m as [|[v c] l IH]; [reflexivity|].
    rewrite count_where_cons. lia.
  Qed.
  Lemma below_range : forall v, 0 <= below v <= N.
  Proof using Nn Tot.
    intros v. pose proof (count_where_split m (fun w => w <? v)). pose proof (count_where_nonneg m (fun w => w <? v) Nn).
    pose proof (count_where_nonneg m (fun w => negb (w <? v)) Nn). cbv beta in *. lia.
  Qed.

  (** at_least: what is left after subtracting the first n probabilities *)
  Fixpoint left_after (n : nat) : pyfloat :=
    match n with O => fone | Datatypes.S n' => fsub (left_after n') (fget h (lo + Z.of_nat n')) end.
  Fixpoint added_up (n : nat) : pyfloat :=
    match n with O => fzero | Datatypes.S n' => fadd (added_up n') (fget h (lo + Z.of_nat n')) end.

  Lemma one_units : finite_float fone /\ U fone = K.
  Proof using.
    rewrite fone_eq. split; [cbn [finite_float]; lia|]. cbn [units]. change (Z.pos (2 ^ 52)) with (2 ^ 52).
    rewrite <- Z.pow_add_r by lia. replace (52 + (-52 - -1074)) with 1074 by lia. apply K_eq.
  Qed.

  Definition E50 : Z := 2 ^ 1024.
  Lemma E50_eq : 2 ^ 53 * E50 = 8 * K.
  Proof using. unfold E50. rewrite <- K_eq, <- Z.pow_add_r by lia. change 8 with (2 ^ 3). rewrite <- Z.pow_add_r by lia. reflexivity. Qed.
  Opaque E50.

  Lemma left_after_inv : forall n, let v := lo + Z.of_nat n in
    finite_float (left_after n) /\ U (left_after n) <= K /\ K * N - 4 * K * below v <= U (left_after n) * N /\
    Z.abs (U (left_after n) * N - K * (N - below v)) <= Z.of_nat n * E50 * N.
  Proof using HN Nd Nn Tot Hlo Hf.
    pose proof K_pos as Kp0. pose proof K_big as Kb. pose proof E50_eq as EE.
    induction n as [|n IH]; intros v.
    - destruct one_units as [F1 U1]. cbn [left_after]. rewrite U1. unfold v. cbn [Z.of_nat]. rewrite Z.add_0_r, below_lo.
      split; [exact F1|]. split; [lia|]. split; [lia|]. replace (K * N - K * (N - 0)) with 0 by ring. cbn [Z.abs]. lia.
    - set (w := lo + Z.of_nat n) in *. assert (Ev : v = w + 1) by (unfold v, w; lia). rewrite Ev, below_step. clear v Ev.
      destruct IH as [F [Up [Dn Er]]]. cbn [left_after]. fold w.
      pose proof (below_range w) as B1. pose proof (below_range (w + 1)) as B2. rewrite below_step in B2.
      pose proof (count_at_nonneg m w Nn) as C0. set (c := count_at m w) in *. set (B := below w) in *. clearbody B.
      destruct (rounded_probability c N (fget h w) HN ltac:(lia) (Hf w)) as [P1 [P2 [P3 P4]]].
      pose proof (proj1 (Hf w)) as Fp. fold c in P1, P2, P3, P4. set (u := U (fget h w)) in *. set (t := U (left_after n)) in *.
      assert (Rp : - (3 * K) <= t - u <= K).
      { split; [|lia]. assert (- (3 * K) * N <= (t - u) * N); [|now apply (Z.mul_le_mono_pos_r _ _ N ltac:(lia))].
        assert (4 * K * (B + c) <= 4 * K * N) by (apply Z.mul_le_mono_nonneg_l; lia). assert (0 <= c * K) by (apply Z.mul_nonneg_nonneg; lia). lia. }
      destruct (fsub_spec (-1074) (left_after n) (fget h w) ltac:(lia) F Fp) as [[Un _]|[s [_ O]]].
      2: { exfalso. revert O. apply no_overflow_small; [lia|]. fold t. fold u. nia. }
      fold t u in Un. pose proof (small_sum _ (t - u) ltac:(lia) Un) as Sm.
      pose proof (proj1 Un) as F'. set (t' := U (fsub (left_after n) (fget h w))) in *.
      split; [exact F'|].
      assert (D1 : t' <= t) by (apply (unearest_le (-1074) (t - u) 1 _ t ltac:(lia) Un); [now apply units_udouble|lia]).
      assert (D2 : t - 2 * u <= t').
      { destruct Un as [_ [Nr _]]. destruct (Nr t (units_udouble _ _ F)) as [A _]. rewrite !Z.mul_1_r in A. fold t' in A. lia. }
      split; [lia|]. split.
      + assert ((t - 2 * u) * N <= t' * N) by (apply Z.mul_le_mono_nonneg_r; lia). assert (2 * (u * N) <= 4 * (c * K)) by lia. lia.
      + assert (S1 : 2 ^ 53 * (Z.abs (t' - (t - u)) * N) <= 3 * K * N) by (rewrite Z.mul_assoc; apply Z.mul_le_mono_nonneg_r; lia).
        assert (S2 : Z.abs (t' * N - K * (N - (B + c))) <= Z.abs (t' - (t - u)) * N + Z.abs (t * N - K * (N - B)) + Z.abs (u * N - c * K)).
        { replace (t' * N - K * (N - (B + c))) with ((t' - (t - u)) * N + (t * N - K * (N - B)) - (u * N - c * K)) by ring.
          assert (Z.abs (t' - (t - u)) * N = Z.abs ((t' - (t - u)) * N)) by (rewrite Z.abs_mul, (Z.abs_eq N) by lia; reflexivity). lia. }
        rewrite Nat2Z.inj_succ. unfold Z.succ. replace ((Z.of_nat n + 1) * E50 * N) with (Z.of_nat n * E50 * N + E50 * N) by ring.
        assert (S3 : 2 ^ 53 * (E50 * N) = 8 * (K * N)) by (replace (2 ^ 53 * (E50 * N)) with (2 ^ 53 * E50 * N) by ring; rewrite EE; ring). lia.
  Qed.

  Lemma left_after_step : forall n, U (left_after (Datatypes.S n)) <= U (left_after n).
  Proof using HN Nd Nn Tot Hlo Hf.
    intros n. pose proof K_pos. destruct (left_after_inv n) as [F [Up [Dn _]]]. cbn [left_after]. set (w := lo + Z.of_nat n) in *.
    pose proof (below_range w) as B1. pose proof (below_range (w + 1)) as B2. rewrite below_step in B2. pose proof (count_at_nonneg m w Nn) as C0.
    destruct (rounded_probability (count_at m w) N (fget h w) HN ltac:(lia) (Hf w)) as [P1 [P2 [P3 _]]]. pose proof (proj1 (Hf w)) as Fp.
    destruct (fsub_spec (-1074) (left_after n) (fget h w) ltac:(lia) F Fp) as [[Un _]|[s [_ O]]].
    - refine (unearest_le (-1074) _ 1 _ _ ltac:(lia) Un (units_udouble _ _ F) _). lia.
    - exfalso. revert O. apply no_overflow_small; [lia|].
      assert (- (3 * K) <= U (left_after n)); [|lia]. assert (- (3 * K) * N <= U (left_after n) * N); [|nia]. nia.
  Qed.

  Lemma added_up_inv : forall n, let v := lo + Z.of_nat n in
    finite_float (added_up n) /\ 0 <= U (added_up n) /\ U (added_up n) * N <= 4 * K * below v /\
    Z.abs (U (added_up n) * N - K * below v) <= Z.of_nat n * E50 * N.
  Proof using HN Nd Nn Tot Hlo Hf.
    pose proof K_pos as Kp0. pose proof K_big as Kb. pose proof E50_eq as EE.
    induction n as [|n IH]; intros v.
    - cbn [added_up]. unfold v. cbn [Z.of_nat]. rewrite Z.add_0_r, below_lo. change (U fzero) with 0.
      split; [exact Logic.I|]. split; [lia|]. split; [lia|]. rewrite Z.mul_0_r. cbn [Z.mul Z.sub Z.abs Z.add Z.opp]. lia.
    - set (w := lo + Z.of_nat n) in *. assert (Ev : v = w + 1) by (unfold v, w; lia). rewrite Ev, below_step. clear v Ev.
      destruct IH as [F [Up [Dn Er]]]. cbn [added_up]. fold w.
      pose proof (below_range w) as B1. pose proof (below_range (w + 1)) as B2. rewrite below_step in B2.
      pose proof (count_at_nonneg m w Nn) as C0. set (c := count_at m w) in *. set (B := below w) in *. clearbody B.
      destruct (rounded_probability c N (fget h w) HN ltac:(lia) (Hf w)) as [P1 [P2 [P3 P4]]].
      pose proof (proj1 (Hf w)) as Fp. fold c in P1, P2, P3, P4. set (u := U (fget h w)) in *. set (t := U (added_up n)) in *.
      assert (Rp : 0 <= t + u <= 4 * K).
      { split; [lia|]. assert ((t + u) * N <= 4 * K * N); [|now apply (Z.mul_le_mono_pos_r _ _ N ltac:(lia))].
        assert (4 * K * (B + c) <= 4 * K * N) by (apply Z.mul_le_mono_nonneg_l; lia). assert (0 <= c * K) by (apply Z.mul_nonneg_nonneg; lia). lia. }
      destruct (fadd_spec (-1074) (added_up n) (fget h w) ltac:(lia) F Fp) as [[Un _]|[s [_ O]]].
      2: { exfalso. revert O. apply no_overflow_small; [lia|]. fold t. fold u. nia. }
      fold t u in Un. pose proof (small_sum _ (t + u) ltac:(lia) Un) as Sm.
      pose proof (proj1 Un) as F'. set (t' := U (fadd (added_up n) (fget h w))) in *.
      split; [exact F'|].
      assert (D1 : t <= t') by (apply (unearest_ge (-1074) (t + u) 1 _ t ltac:(lia) Un); [now apply units_udouble|lia]).
      assert (D2 : t' <= t + 2 * u).
      { destruct Un as [_ [Nr _]]. destruct (Nr t (units_udouble _ _ F)) as [A _]. rewrite !Z.mul_1_r in A. fold t' in A. lia. }
      split; [lia|]. split.
      + assert (t' * N <= (t + 2 * u) * N) by (apply Z.mul_le_mono_nonneg_r; lia). assert (2 * (u * N) <= 4 * (c * K)) by lia. lia.
      + assert (S1 : 2 ^ 53 * (Z.abs (t' - (t + u)) * N) <= 4 * K * N) by (rewrite Z.mul_assoc; apply Z.mul_le_mono_nonneg_r; lia).
        assert (S2 : Z.abs (t' * N - K * (B + c)) <= Z.abs (t' - (t + u)) * N + Z.abs (t * N - K * B) + Z.abs (u * N - c * K)).
        { replace (t' * N - K * (B + c)) with ((t' - (t + u)) * N + (t * N - K * B) + (u * N - c * K)) by ring.
          assert (Z.abs (t' - (t + u)) * N = Z.abs ((t' - (t + u)) * N)) by (rewrite Z.abs_mul, (Z.abs_eq N) by lia; reflexivity). lia. }
        rewrite Nat2Z.inj_succ. unfold Z.succ. replace ((Z.of_nat n + 1) * E50 * N) with (Z.of_nat n * E50 * N + E50 * N) by ring.
        assert (S3 : 2 ^ 53 * (E50 * N) = 8 * (K * N)) by (replace (2 ^ 53 * (E50 * N)) with (2 ^ 53 * E50 * N) by ring; rewrite EE; ring). lia.
  Qed.

  Lemma added_up_step : forall n, U (added_up n) <= U (added_up (Datatypes.S n)).
  Proof using HN Nd Nn Tot Hlo Hf.
    intros n. pose proof K_pos. destruct (added_up_inv n) as [F [Up [Dn _]]]. cbn [added_up]. set (w := lo + Z.of_nat n) in *.
    pose proof (below_range w) as B1. pose proof (below_range (w + 1)) as B2. rewrite below_step in B2. pose proof (count_at_nonneg m w Nn) as C0.
    destruct (rounded_probability (count_at m w) N (fget h w) HN ltac:(lia) (Hf w)) as [P1 [P2 [P3 _]]]. pose proof (proj1 (Hf w)) as Fp.
    destruct (fadd_spec (-1074) (added_up n) (fget h w) ltac:(lia) F Fp) as [[Un _]|[s [_ O]]].
    - refine (unearest_ge (-1074) _ 1 _ _ ltac:(lia) Un (units_udouble _ _ F) _). lia.
    - exfalso. revert O. apply no_overflow_small; [lia|].
      assert (U (added_up n) <= 4 * K); [|lia]. assert (U (added_up n) * N <= 4 * K * N); [|nia]. nia.
  Qed.

  Lemma added_up_first : U (added_up 1) = U (fget h lo).
  Proof using HN Nd Nn Tot Hlo Hf.
    cbn [added_up]. cbn [Z.of_nat]. rewrite Z.add_0_r. pose proof (proj1 (Hf lo)) as Fp.
    unfold fadd, fzero, SFadd. destruct (fget h lo) as [s|s| |s mm e]; cbn in Fp; try contradiction; [destruct s|]; reflexivity.
  Qed.

  Lemma at_least_loop_eq : forall k n, at_least_loop h (zrange (lo + Z.of_nat n) (lo + Z.of_nat n + Z.of_nat k)) (left_after n) =
    map (fun i => (lo + Z.of_nat i, fdiv (left_after i) fone)) (seq n k).
  Proof using.
    induction k as [|k IH]; intros n.
    - rewrite zrange_nil by lia. reflexivity.
    - rewrite zrange_cons by lia. cbn [at_least_loop seq map]. f_equal.
      change (fsub (left_after n) (fget h (lo + Z.of_nat n))) with (left_after (Datatypes.S n)). rewrite <- IH. f_equal. f_equal; lia.
  Qed.
  Lemma at_most_loop_eq : forall k n, at_most_loop h (zrange (lo + Z.of_nat n) (lo + Z.of_nat n + Z.of_nat k)) (added_up n) =
    map (fun i => (lo + Z.of_nat i, fdiv (added_up (Datatypes.S i)) fone)) (seq n k).
  Proof using.
    induction k as [|k IH]; intros n.
    - rewrite zrange_nil by lia. reflexivity.
    - rewrite zrange_cons by lia. cbn [at_most_loop seq map].
      change (fadd (added_up n) (fget h (lo + Z.of_nat n))) with (added_up (Datatypes.S n)). f_equal. rewrite <- IH. f_equal. f_equal; lia.
  Qed.
End Loops.
