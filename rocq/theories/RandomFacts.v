(** * RandomFacts: what random.choices does with 53 random bits *)
From Verif Require Import Py PyFacts PyFloat FloatFacts Constraint Distribution DiceModel Expr Parser Interp SpecDice SpecProgram DiceFacts RollFacts Random SpecRandom.
From Coq Require Import Floats.SpecFloat.

Lemma pow_pos : forall k, 0 <= k -> 0 < 2 ^ k.
Proof. intros. apply Z.pow_pos_nonneg; lia. Qed.

(** ** Comparing floats with integers *)
Lemma flt_int_spec : forall b x z, b <= -1074 -> finite_float x -> (flt_int x z = true <-> units b x < z * 2 ^ (- b)).
Proof.
  intros b x z B F. destruct x as [s|s| |s m e]; cbn in F; try contradiction; cbn [flt_int units].
  - rewrite Z.ltb_lt. pose proof (pow_pos (- b) ltac:(lia)). nia.
  - destruct F as [_ E]. replace (if s then Z.neg m else Z.pos m) with (if s then - Z.pos m else Z.pos m) by (destruct s; reflexivity).
    set (n := if s then - Z.pos m else Z.pos m). clearbody n. destruct (0 <=? e) eqn:E0.
    + apply Z.leb_le in E0. rewrite Z.ltb_lt. replace (e - b) with (e + - b) by lia. rewrite Z.pow_add_r, Z.mul_assoc by lia.
      pose proof (pow_pos (- b) ltac:(lia)). generalize dependent (2 ^ (- b)). intros. split; nia.
    + apply Z.leb_gt in E0. rewrite Z.ltb_lt. replace (- b) with (- e + (e - b)) by lia. rewrite Z.pow_add_r, Z.mul_assoc by lia.
      pose proof (pow_pos (e - b) ltac:(lia)). generalize dependent (2 ^ (e - b)). intros. split; nia.
Qed.

(** ** The float of a total weight *)
Lemma one_udouble : udouble (-1074) (2 ^ 1074).
Proof. exists 1, 0. split; [lia|]. split; [reflexivity|]. rewrite Z.mul_1_l. reflexivity. Qed.

Lemma units_shift : forall x, finite_float x -> units (-2148) x = units (-1074) x * 2 ^ 1074.
Proof.
  intros x F. destruct x as [s|s| |s m e]; cbn in F; try contradiction; cbn [units]; [reflexivity|].
  replace (e - -2148) with ((e - -1074) + 1074) by lia. rewrite Z.pow_add_r by lia. ring.
Qed.

Section Total.
  Context (T : Z) (t : pyfloat) (T1 : 1 <= T) (Ht : float_of_Z T = Ok t).

  Lemma total_near : unearest (-1074) (T * 2 ^ 1074) 1 t /\ ~ overflows (-1074) (T * 2 ^ 1074) 1.
  Proof.
    destruct (float_of_Z_spec (-1074) T ltac:(lia)) as [[f [E [N O]]]|[E _]]; rewrite Ht in E; [|discriminate].
    injection E as <-. split; [exact N|exact O].
  Qed.
  Lemma total_finite : finite_float t.
  Proof. apply total_near. Qed.
  Lemma total_ge_one : 2 ^ 1074 <= units (-1074) t.
  Proof.
    apply (unearest_ge (-1074) (T * 2 ^ 1074) 1); [lia|apply total_near|apply one_udouble|]. pose proof (pow_pos 1074 ltac:(lia)).
    generalize dependent (2 ^ 1074). intros. nia.
  Qed.
  Lemma total_shape : exists m e, t = S754_finite false m e /\ 2 ^ 52 <= Z.pos m < 2 ^ 53 /\ -1074 < e <= 971.
  Proof.
    pose proof total_ge_one as H. pose proof total_finite as F. pose proof (pow_pos 1074 ltac:(lia)) as P.
    destruct t as [s|s| |s m e]; cbn in F; try contradiction. cbn [units] in H.
    pose proof (pow_pos (e - -1074) ltac:(lia)) as Q. destruct s; [exfalso; generalize dependent (2 ^ 1074); intros; nia|].
    exists m, e. split; [reflexivity|]. assert (E : e <> -1074).
    { intros ->. change (2 ^ (-1074 - -1074)) with 1 in H. change (2 ^ 1074) with (2 ^ 53 * 2 ^ 1021) in H. pose proof (pow_pos 1021 ltac:(lia)) as P'.
      destruct F as [[F _] _]. change 9007199254740992 with (2 ^ 53) in F. generalize dependent (2 ^ 1021). generalize dependent (2 ^ 53). intros. nia. }
    destruct F as [[F1 [F2|F2]] F3]; [|contradiction]. split; [lia|lia].
  Qed.
  Lemma total_error : 2 ^ 53 * Z.abs (units (-1074) t - T * 2 ^ 1074) <= T * 2 ^ 1074.
  Proof.
    destruct total_near as [[_ [_ N]] _]. rewrite Z.mul_1_r in N. pose proof (pow_pos 1074 ltac:(lia)) as P.
    rewrite (Z.abs_eq (T * 2 ^ 1074)) in N by nia. destruct N as [N|N]; [exact N|]. change (1 * 2 ^ (-1074 - -1074)) with 1 in N.
    assert (Z0 : Z.abs (units (-1074) t - T * 2 ^ 1074) = 0) by lia. rewrite Z0. nia.
  Qed.

  (** random() * total *)
  Context (r : Z) (Hr : 0 <= r < 2 ^ 53).
  Lemma random_units : finite_float (random_float r) /\ units (-1074) (random_float r) = r * 2 ^ 1021.
  Proof.
    unfold random_float. destruct (normalize_nearest (-1074) r (-53) false ltac:(lia) ltac:(lia)) as [[N _]|[s [_ O]]].
    - change (-53 - -1074) with 1021 in N. split; [apply N|]. rewrite <- (Z.mul_1_r (r * 2 ^ 1021)) in N. apply (unearest_exact (-1074) 1); [lia|exact N|].
      exists r, (-53). split; [lia|]. split; [lia|reflexivity].
    - exfalso. change (-53 - -1074) with 1021 in O. unfold overflows in O. rewrite Z.mul_1_l in O. change (971 - -1074) with (1024 + 1021) in O.
      rewrite Z.pow_add_r in O by lia. pose proof (pow_pos 1021 ltac:(lia)) as P. rewrite (Z.abs_eq (r * 2 ^ 1021)) in O by nia.
      change (2 ^ 1024) with (2 ^ 53 * 2 ^ 971) in O. pose proof (pow_pos 971 ltac:(lia)) as P'. pose proof (pow_pos 53 ltac:(lia)) as P2. change (2 ^ 54) with (2 * 2 ^ 53) in O.
      assert (P3 : 2 <= 2 ^ 53) by lia. clear - O Hr P P' P3.
      generalize dependent (2 ^ 1021). generalize dependent (2 ^ 971). generalize dependent (2 ^ 53). intros A Hr' A2 B HB C HC O.
      assert (2 <= (2 * A - 1) * B) by nia. assert (r * C < A * C) by nia. assert (2 * (A * C) <= (2 * A - 1) * B * (A * C)) by nia. lia.
  Qed.
  Definition exact_product : Z := r * 2 ^ 1021 * units (-1074) t.
  Lemma product_near : unearest (-2148) exact_product 1 (fmul (random_float r) t).
  Proof.
    destruct random_units as [F U]. destruct total_shape as [m [e [E [M X]]]].
    assert (My : 2 ^ 52 <= mantissa t) by (rewrite E; apply M).
    destruct (fmul_spec (-2148) (random_float r) t ltac:(lia) F My total_finite) as [[N _]|[s [_ O]]]; rewrite U in *; change (-2148 - -2148) with 0 in *;
      rewrite Z.pow_0_r, Z.mul_1_r in *; [exact N|]. exfalso. fold exact_product in O.
    assert (L : units (-1074) t <= (2 ^ 53 - 1) * 2 ^ 2045).
    { rewrite E. cbn [units]. assert (2 ^ (e - -1074) <= 2 ^ 2045) by (apply Z.pow_le_mono_r; lia). pose proof (pow_pos (e - -1074) ltac:(lia)).
      generalize dependent (2 ^ 2045). generalize dependent (2 ^ (e - -1074)). generalize dependent (2 ^ 53). intros. nia. }
    unfold overflows in O. rewrite Z.mul_1_l in O. change (971 - -2148) with (2045 + 1074) in O. rewrite Z.pow_add_r in O by lia.
    pose proof total_ge_one as G1. pose proof (pow_pos 1074 ltac:(lia)) as P. pose proof (pow_pos 1021 ltac:(lia)) as P1. pose proof (pow_pos 2045 ltac:(lia)) as P2. pose proof (pow_pos 53 ltac:(lia)) as P3.
    unfold exact_product in O. change (2 ^ 1074) with (2 ^ 53 * 2 ^ 1021) in O. change (2 ^ 54) with (2 * 2 ^ 53) in O.
    assert (Pu : 0 < units (-1074) t) by lia. clear - O L P1 P2 P3 Pu Hr. set (u := units (-1074) t) in *. clearbody u.
    rewrite Z.abs_eq in O by (generalize dependent (2 ^ 1021); intros; nia).
    generalize dependent (2 ^ 1021). generalize dependent (2 ^ 2045). generalize dependent (2 ^ 53). intros A HA Hr' B L1 HB C HC O.
    assert (r * u <= (A - 1) * ((A - 1) * B)) by nia. assert (C * (r * u) <= C * ((A - 1) * ((A - 1) * B))) by nia. nia.
  Qed.
  Lemma product_error : 2 ^ 53 * Z.abs (units (-2148) (fmul (random_float r) t) - exact_product) <= exact_product.
  Proof.
    destruct product_near as [_ [_ N]]. rewrite Z.mul_1_r in N. pose proof total_ge_one as G1. pose proof (pow_pos 1021 ltac:(lia)) as P1.
    assert (Pu : 0 < units (-1074) t) by (pose proof (pow_pos 1074 ltac:(lia)); lia).
    assert (E0 : 0 <= exact_product) by (unfold exact_product; generalize dependent (2 ^ 1021); generalize dependent (units (-1074) t); intros; nia).
    rewrite (Z.abs_eq exact_product) in N by exact E0. destruct N as [N|N]; [exact N|].
    destruct (Z.eq_dec r 0) as [R0|R0].
    - assert (Ep : exact_product = 0) by (unfold exact_product; rewrite R0; lia). pose proof product_near as Q. rewrite Ep in *.
      assert (U0 : units (-2148) (fmul (random_float r) t) = 0) by (apply (unearest_exact (-2148) 1 _ 0); [lia|exact Q|apply udouble_0]).
      rewrite U0. cbn. lia.
    - assert (L : 2 ^ 1021 * 2 ^ 1074 <= exact_product).
      { unfold exact_product. assert (R1 : 1 <= r) by lia. pose proof (pow_pos 1074 ltac:(lia)) as P4. clear - G1 P1 Pu R1 P4.
        set (u := units (-1074) t) in *. clearbody u. generalize dependent (2 ^ 1021). generalize dependent (2 ^ 1074). intros A G1 HA B HB.
        assert (B * A <= B * u) by nia. assert (B * u <= r * (B * u)) by nia. nia. }
      change (1 * 2 ^ (-1074 - -2148)) with (2 ^ 1074) in N. apply Z.le_trans with (2 := L). change (2 ^ 1021) with (2 ^ 53 * 2 ^ 968).
      pose proof (pow_pos 968 ltac:(lia)) as P5. pose proof (pow_pos 53 ltac:(lia)) as P6. clear - N P5 P6.
      set (x := Z.abs _) in *. generalize dependent (2 ^ 1074). generalize dependent (2 ^ 968). generalize dependent (2 ^ 53). intros A HA B HB C N.
      assert (X0 : 0 <= x) by (unfold x; apply Z.abs_nonneg). assert (C <= B * C) by nia. replace (A * B * C) with (A * (B * C)) by ring. apply Z.mul_le_mono_nonneg_l; lia.
  Qed.

  (** The float drawn is r * total / 2^53, with two roundings *)
  Lemma drawn_error : 2 ^ 106 * Z.abs (units (-2148) (fmul (random_float r) t) - r * T * 2 ^ 2095) <= (2 ^ 54 + 1) * (r * T * 2 ^ 2095).
  Proof.
    pose proof product_error as E1. pose proof total_error as E2. unfold exact_product in E1. set (x := units (-2148) _) in *. set (u := units (-1074) t) in *.
    clearbody x u. change (2 ^ 2095) with (2 ^ 1021 * 2 ^ 1074). change (2 ^ 106) with (2 ^ 53 * 2 ^ 53). change (2 ^ 54) with (2 * 2 ^ 53).
    pose proof (pow_pos 1021 ltac:(lia)) as P1. pose proof (pow_pos 1074 ltac:(lia)) as P2. assert (P3 : 1 <= 2 ^ 53) by lia. clear - E1 E2 P1 P2 P3 T1 Hr.
    generalize dependent (2 ^ 1021). generalize dependent (2 ^ 1074). assert (R0 : 0 <= r) by lia. clear Hr. generalize dependent (2 ^ 53). intros A P3 B E2 P2 C E1 P1.
    set (p := r * C * u) in *. set (y := r * T * (C * B)) in *.
    assert (F : A * Z.abs (p - y) <= y).
    { replace (p - y) with (r * C * (u - T * B)) by (unfold p, y; ring). rewrite Z.abs_mul, (Z.abs_eq (r * C)) by nia.
      replace y with (r * C * (T * B)) by (unfold y; ring). assert (0 <= r * C) by nia. generalize dependent (r * C). intros. nia. }
    assert (Y0 : 0 <= y) by (unfold y; assert (0 <= r * T) by nia; assert (0 <= C * B) by nia; nia). clearbody p y. clear E2.
    assert (A * A * Z.abs (x - y) <= A * A * Z.abs (x - p) + A * A * Z.abs (p - y)) by (assert (Z.abs (x - y) <= Z.abs (x - p) + Z.abs (p - y)) by lia; nia).
    assert (A * (A * Z.abs (x - p)) <= A * p) by nia. assert (A * p <= A * y + A * Z.abs (p - y)) by nia. nia.
  Qed.
  Lemma product_small : exact_product <= units (-2148) t - 2 ^ 1021 * units (-1074) t.
  Proof.
    rewrite (units_shift t total_finite). unfold exact_product. change (2 ^ 1074) with (2 ^ 53 * 2 ^ 1021). pose proof total_ge_one as G1. pose proof (pow_pos 1074 ltac:(lia)).
    assert (Pu : 0 < units (-1074) t) by lia. pose proof (pow_pos 1021 ltac:(lia)) as P1. clear - Pu P1 Hr. generalize dependent (units (-1074) t). generalize dependent (2 ^ 1021).
    assert (R : r <= 2 ^ 53 - 1) by lia. clear Hr. generalize dependent (2 ^ 53). intros A R B HB u Hu. assert (0 < B * u) by nia. nia.
  Qed.
  (** no float drawn reaches the float of the total ... *)
  Lemma drawn_below_float : units (-2148) (fmul (random_float r) t) < units (-2148) t.
  Proof.
    pose proof product_near as N. pose proof product_small as S. destruct total_shape as [m [e [E [M X]]]].
    set (x := units (-2148) (fmul (random_float r) t)) in *. rewrite E in S |- *. cbn [units] in S |- *.
    assert (Ex : 2 ^ (e - -2148) = 2 ^ 53 * 2 ^ (e + 2095)) by (rewrite <- Z.pow_add_r by lia; f_equal; lia).
    assert (Ey : 2 ^ 1021 * (Z.pos m * 2 ^ (e - -1074)) = Z.pos m * 2 ^ (e + 2095)).
    { rewrite Z.mul_assoc, (Z.mul_comm (2 ^ 1021)), <- Z.mul_assoc, <- Z.pow_add_r by lia. f_equal. f_equal. lia. }
    rewrite Ey in S. rewrite Ex in S |- *. clear Ey.
    assert (Ud : udouble (-2148) (Z.pos m * (2 ^ 53 * 2 ^ (e + 2095)))).
    { exists (Z.pos m), e. split; [lia|]. split; [lia|]. now rewrite Ex. }
    pose proof (pow_pos (e + 2095) ltac:(lia)) as P.
    assert (Le : x <= Z.pos m * (2 ^ 53 * 2 ^ (e + 2095))).
    { apply (unearest_le (-2148) exact_product 1); [lia|exact N|exact Ud|]. rewrite Z.mul_1_r. assert (0 <= Z.pos m * 2 ^ (e + 2095)) by (apply Z.mul_nonneg_nonneg; lia). lia. }
    assert (Ne : x <> Z.pos m * (2 ^ 53 * 2 ^ (e + 2095))); [|lia]. intros Eq. destruct N as [_ [N _]]. fold x in N. rewrite Eq in N. clear Eq Le.
    destruct (Z.eq_dec (Z.pos m) (2 ^ 52)) as [Em|Em].
    - assert (Uw : udouble (-2148) ((2 ^ 53 - 1) * (2 ^ 52 * 2 ^ (e + 2095)))).
      { exists (2 ^ 53 - 1), (e - 1). split; [lia|]. split; [reflexivity|]. f_equal. rewrite <- Z.pow_add_r by lia. f_equal. lia. }
      destruct (N _ Uw) as [A _]. rewrite Em in *. rewrite !Z.mul_1_r in A. clear - A S P. change (2 ^ 53) with (2 * 2 ^ 52) in *. assert (P2 : 1 <= 2 ^ 52) by lia.
      set (q := exact_product) in *. clearbody q. generalize dependent (2 ^ (e + 2095)). generalize dependent (2 ^ 52). intros B HB F S P A.
      assert (0 < B * F) by nia. assert (D : (2 * B - 1) * (B * F) = B * (2 * B * F) - B * F) by ring. rewrite D in A. lia.
    - assert (Uw : udouble (-2148) ((Z.pos m - 1) * (2 ^ 53 * 2 ^ (e + 2095)))).
      { exists (Z.pos m - 1), e. split; [lia|]. split; [lia|]. now rewrite Ex. }
      destruct (N _ Uw) as [A _]. rewrite !Z.mul_1_r in A. assert (M2 : 2 ^ 53 < 2 * Z.pos m) by lia. clear - A S P M2.
      set (q := exact_product) in *. clearbody q. generalize dependent (2 ^ (e + 2095)). assert (P2 : 0 < 2 ^ 53) by lia. generalize dependent (2 ^ 53). generalize dependent (Z.pos m).
      intros k B M2 HB F S P A. assert (0 < B * F) by nia. assert (D : (k - 1) * (B * F) = k * (B * F) - B * F) by ring. rewrite D in A.
      assert (B * F < 2 * (k * F)) by nia. lia.
  Qed.
  (** ... nor the total *)
  Lemma drawn_below : units (-2148) (fmul (random_float r) t) < T * 2 ^ 2148.
  Proof.
    pose proof drawn_below_float as L. destruct product_near as [Fx _]. rewrite (units_shift t total_finite), (units_shift _ Fx) in *.
    change (2 ^ 2148) with (2 ^ 1074 * 2 ^ 1074). rewrite Z.mul_assoc. pose proof (pow_pos 1074 ltac:(lia)) as P.
    assert (L' : units (-1074) (fmul (random_float r) t) < units (-1074) t) by (generalize dependent (2 ^ 1074); intros; nia).
    apply Z.mul_lt_mono_pos_r; [exact P|]. destruct (Z_lt_ge_dec (units (-1074) (fmul (random_float r) t)) (T * 2 ^ 1074)) as [H|H]; [exact H|exfalso].
    destruct total_near as [[_ [N _]] _]. destruct (N _ (units_udouble (-1074) _ Fx)) as [A _]. lia.
  Qed.
  Lemma drawn_nonneg : 0 <= units (-2148) (fmul (random_float r) t).
  Proof.
    pose proof product_error as E. pose proof total_ge_one as G1. pose proof (pow_pos 1074 ltac:(lia)) as P. pose proof (pow_pos 1021 ltac:(lia)) as P1.
    assert (E0 : 0 <= exact_product) by (unfold exact_product; assert (0 < units (-1074) t) by lia; generalize dependent (2 ^ 1021); generalize dependent (units (-1074) t); intros; nia).
    lia.
  Qed.
  Lemma drawn_finite : finite_float (fmul (random_float r) t).
  Proof. apply product_near. Qed.
End Total.

Lemma drawn_mono : forall T t r r', 1 <= T -> float_of_Z T = Ok t -> 0 <= r <= r' -> r' < 2 ^ 53 ->
  units (-2148) (fmul (random_float r) t) <= units (-2148) (fmul (random_float r') t).
Proof.
  intros T t r r' T1 Ht H H'. apply (unearest_mono (-2148) (exact_product t r) 1 _ (exact_product t r') 1); try lia.
  - unfold exact_product. pose proof (total_ge_one T t T1 Ht) as G1. pose proof (pow_pos 1074 ltac:(lia)) as P. pose proof (pow_pos 1021 ltac:(lia)) as P1.
    assert (Pu : 0 < units (-1074) t) by lia. clear - H Pu P1. generalize dependent (2 ^ 1021). generalize dependent (units (-1074) t). intros u Hu B HB. assert (0 < B * u) by nia. nia.
  - apply (product_near T t T1 Ht). lia.
  - apply (product_near T t T1 Ht). lia.
Qed.

(** ** The draws below a threshold *)
Section Threshold.
  Context (T : Z) (t : pyfloat) (T1 : 1 <= T) (Ht : float_of_Z T = Ok t).
  Definition below (c r : Z) : bool := flt_int (fmul (random_float r) t) c.
  Lemma below_iff : forall c r, 0 <= r < 2 ^ 53 -> (below c r = true <-> units (-2148) (fmul (random_float r) t) < c * 2 ^ 2148).
  Proof. intros c r Hr. unfold below. apply (flt_int_spec (-2148)); [lia|]. now apply (drawn_finite T). Qed.
  Lemma below_down : forall c r r', 0 <= r <= r' -> r' < 2 ^ 53 -> below c r' = true -> below c r = true.
  Proof. intros c r r' H H' B. apply below_iff in B; [|lia]. apply below_iff; [lia|]. pose proof (drawn_mono T t r r' T1 Ht H H'). lia. Qed.
  Lemma below_up : forall c c' r, 0 <= r < 2 ^ 53 -> c <= c' -> below c r = true -> below c' r = true.
  Proof. intros c c' r Hr H B. apply below_iff in B; [|lia]. apply below_iff; [lia|]. pose proof (pow_pos 2148 ltac:(lia)). generalize dependent (2 ^ 2148). intros. nia. Qed.
  Lemma below_total : forall r, 0 <= r < 2 ^ 53 -> below T r = true.
  Proof. intros r Hr. apply below_iff; [lia|]. now apply drawn_below. Qed.
  Lemma below_zero : forall c r, 0 <= r < 2 ^ 53 -> c <= 0 -> below c r = false.
  Proof.
    intros c r Hr H. destruct (below c r) eqn:B; [|reflexivity]. apply below_iff in B; [|lia]. pose proof (drawn_nonneg T t T1 Ht r Hr).
    pose proof (pow_pos 2148 ltac:(lia)). generalize dependent (2 ^ 2148). intros. nia.
  Qed.
  Lemma below_sure : forall c r, 0 <= r < 2 ^ 53 -> (r + 3) * T <= c * 2 ^ 53 -> below c r = true.
  Proof.
    intros c r Hr H. apply below_iff; [lia|]. pose proof (drawn_error T t T1 Ht r Hr) as E. set (x := units _ _) in *. clearbody x.
    change (2 ^ 2148) with (2 ^ 53 * 2 ^ 2095). pose proof (pow_pos 2095 ltac:(lia)) as P. change (2 ^ 106) with (2 ^ 53 * 2 ^ 53) in E. change (2 ^ 54) with (2 * 2 ^ 53) in E.
    assert (A2 : 2 <= 2 ^ 53) by lia. clear - E H Hr P A2 T1. generalize dependent (2 ^ 2095). generalize dependent (2 ^ 53). intros A Hr H A2 B E P.
    set (y := r * T * B) in *. assert (Y : y <= A * (T * B) - T * B) by (unfold y; assert (0 < T * B) by nia; nia).
    assert (Y0 : 0 <= y) by (unfold y; assert (0 < T * B) by nia; nia).
    assert (Q : A * A * (x - y) <= (2 * A + 1) * y) by nia. assert (TB : 0 < T * B) by nia.
    assert (Q2 : (2 * A + 1) * y <= (2 * A + 1) * (A * (T * B) - T * B)) by nia.
    assert (Q3 : A * A * (x - y) < A * A * (3 * (T * B))) by nia. assert (Q4 : x - y < 3 * (T * B)) by nia.
    assert (Q5 : (r + 3) * T * B <= c * A * B) by nia. unfold y in Q4. nia.
  Qed.
  Lemma below_only : forall c r, 0 <= r < 2 ^ 53 -> below c r = true -> (r - 3) * T < c * 2 ^ 53.
  Proof.
    intros c r Hr H. apply below_iff in H; [|lia]. pose proof (drawn_error T t T1 Ht r Hr) as E. set (x := units _ _) in *. clearbody x.
    change (2 ^ 2148) with (2 ^ 53 * 2 ^ 2095) in H. pose proof (pow_pos 2095 ltac:(lia)) as P. change (2 ^ 106) with (2 ^ 53 * 2 ^ 53) in E. change (2 ^ 54) with (2 * 2 ^ 53) in E.
    assert (A2 : 2 <= 2 ^ 53) by lia. clear - E H Hr P A2 T1. generalize dependent (2 ^ 2095). generalize dependent (2 ^ 53). intros A Hr A2 B H E P.
    set (y := r * T * B) in *. assert (Y : y <= A * (T * B) - T * B) by (unfold y; assert (0 < T * B) by nia; nia).
    assert (Y0 : 0 <= y) by (unfold y; assert (0 < T * B) by nia; nia).
    assert (Q : A * A * (y - x) <= (2 * A + 1) * y) by nia. assert (TB : 0 < T * B) by nia.
    assert (Q2 : (2 * A + 1) * y <= (2 * A + 1) * (A * (T * B) - T * B)) by nia.
    assert (Q3 : A * A * (y - x) < A * A * (3 * (T * B))) by nia. assert (Q4 : y - x < 3 * (T * B)) by nia.
    assert (Q5 : (r - 3) * T * B < c * A * B) by (unfold y in Q4; nia). nia.
  Qed.
End Threshold.

(** ** Counting the draws below a threshold *)
Lemma filter_count_ext : forall A (f g : A -> bool) l, (forall x, In x l -> f x = g x) -> length (filter f l) = length (filter g l).
Proof.
  intros A f g l. induction l as [|x l IH]; intros H; [reflexivity|]. cbn [filter]. rewrite (H x) by now left. destruct (g x); cbn [length]; rewrite IH; auto; intros y Y; apply H; now right.
Qed.
Lemma count_range : forall n a b c, Z.to_nat (b - a) = n -> a <= c <= b -> Z.of_nat (length (filter (fun r => r <? c) (zrange a b))) = c - a.
Proof.
  induction n as [|n IH]; intros a b c N H.
  - rewrite zrange_nil by lia. cbn. lia.
  - rewrite zrange_cons by lia. cbn [filter]. destruct (a <? c) eqn:L.
    + apply Z.ltb_lt in L. cbn [length]. rewrite Nat2Z.inj_succ, (IH (a + 1) b c); lia.
    + apply Z.ltb_ge in L. replace c with a in * by lia. rewrite (filter_count_ext _ _ (fun _ => false)).
      * assert (E : forall l : list Z, filter (fun _ => false) l = []) by (induction l; auto). rewrite E. cbn. lia.
      * intros x Hx. apply in_zrange in Hx. apply Z.ltb_ge. lia.
Qed.
Lemma count_between : forall b c c', 0 <= c' <= c -> c <= b ->
  Z.of_nat (length (filter (fun r => negb (r <? c') && (r <? c)) (zrange 0 b))) = c - c'.
Proof.
  intros b c c' H H'. pose proof (count_range (Z.to_nat (b - 0)) 0 b c eq_refl ltac:(lia)) as E1. pose proof (count_range (Z.to_nat (b - 0)) 0 b c' eq_refl ltac:(lia)) as E2.
  assert (E : forall l : list Z, length (filter (fun r => r <? c) l) = (length (filter (fun r => negb (r <? c')%Z && (r <? c)%Z) l) + length (filter (fun r => (r <? c')%Z) l))%nat).
  { induction l as [|x l IH]; [reflexivity|]. cbn [filter]. destruct (x <? c') eqn:X.
    - apply Z.ltb_lt in X. assert (Y : x <? c = true) by (apply Z.ltb_lt; lia). rewrite Y. cbn [negb andb length]. lia.
    - cbn [negb andb]. destruct (x <? c); cbn [length]; lia. }
  rewrite E in E1. lia.
Qed.
(** a predicate that holds below its bound only *)
Lemma has_bound : forall n b (P : Z -> bool), Z.to_nat b = n -> 0 <= b -> (forall r r', 0 <= r <= r' -> r' < b -> P r' = true -> P r = true) ->
  exists c, 0 <= c <= b /\ forall r, 0 <= r < b -> P r = (r <? c).
Proof.
  induction n as [|n IH]; intros b P N B D.
  - exists 0. split; [lia|]. intros r Hr. lia.
  - destruct (P (b - 1)) eqn:E.
    + exists b. split; [lia|]. intros r Hr. transitivity true; [apply (D r (b - 1)); auto; lia|]. symmetry. apply Z.ltb_lt. lia.
    + destruct (IH (b - 1) P ltac:(lia) ltac:(lia)) as [c [C H]]; [intros r r' H1 H2; apply D; lia|]. exists c. split; [lia|]. intros r Hr.
      destruct (Z.eq_dec r (b - 1)) as [->|X]; [rewrite E; symmetry; apply Z.ltb_ge; lia|]. apply H. lia.
Qed.

Lemma threshold : forall T t c, 1 <= T -> float_of_Z T = Ok t -> 0 <= c <= T ->
  exists C, 0 <= C <= 2 ^ 53 /\ (forall r, 0 <= r < 2 ^ 53 -> below t c r = (r <? C)) /\ - (3 * T) < C * T - c * 2 ^ 53 < 4 * T.
Proof.
  intros T t c T1 Ht Hc. destruct (has_bound (Z.to_nat (2 ^ 53)) (2 ^ 53) (below t c) eq_refl ltac:(lia) (below_down T t T1 Ht c)) as [C [HC H]].
  exists C. split; [exact HC|]. split; [exact H|]. split.
  - destruct (Z.eq_dec C (2 ^ 53)) as [->|N]; [generalize dependent (2 ^ 53); intros; nia|].
    destruct (Z_le_gt_dec ((C + 3) * T) (c * 2 ^ 53)) as [L|L]; [|lia].
    pose proof (below_sure T t T1 Ht c C ltac:(lia) L) as B. rewrite H in B by lia. apply Z.ltb_lt in B. lia.
  - destruct (Z.eq_dec C 0) as [->|N]; [generalize dependent (2 ^ 53); intros; nia|].
    assert (B : below t c (C - 1) = true) by (rewrite H by lia; apply Z.ltb_lt; lia). pose proof (below_only T t T1 Ht c (C - 1) ltac:(lia) B). nia.
Qed.

(** ** bisect_right *)
Lemma bisect_right_spec : forall fuel a x lo hi, (lo <= hi)%nat -> (hi - lo <= fuel)%nat ->
  (forall i j, (lo <= i <= j)%nat -> (j < hi)%nat -> flt_int x (nth i a 0) = true -> flt_int x (nth j a 0) = true) ->
  let i := bisect_right fuel a x lo hi in
  (lo <= i <= hi)%nat /\ (forall j, (lo <= j < i)%nat -> flt_int x (nth j a 0) = false) /\ ((i < hi)%nat -> flt_int x (nth i a 0) = true).
Proof.
  induction fuel as [|fuel IH]; intros a x lo hi L F Mo; cbn [bisect_right].
  - assert (lo = hi) by lia. subst hi. split; [lia|]. split; [intros; lia|lia].
  - destruct (Nat.ltb lo hi) eqn:E; [|apply Nat.ltb_ge in E; assert (lo = hi) by lia; subst hi; split; [lia|]; split; [intros; lia|lia]].
    apply Nat.ltb_lt in E. pose proof (Nat.div2_odd (lo + hi)) as O. set (mid := Nat.div2 (lo + hi)) in *.
    assert (M : (lo <= mid < hi)%nat) by (destruct (Nat.odd (lo + hi)); cbn [Nat.b2n] in O; lia).
    destruct (flt_int x (nth mid a 0)) eqn:X.
    + destruct (IH a x lo mid ltac:(lia) ltac:(lia) ltac:(intros; eapply Mo; eauto; lia)) as [H1 [H2 H3]]. cbv zeta in *. split; [lia|]. split; [exact H2|].
      intros _. destruct (Nat.eq_dec (bisect_right fuel a x lo mid) mid) as [->|N]; [exact X|]. apply H3. lia.
    + destruct (IH a x (S mid) hi ltac:(lia) ltac:(lia) ltac:(intros; eapply Mo; eauto; lia)) as [H1 [H2 H3]]. cbv zeta in *. split; [lia|]. split; [|exact H3].
      intros j Hj. destruct (Nat.le_gt_cases j mid) as [J|J]; [|apply H2; lia]. destruct (flt_int x (nth j a 0)) eqn:Y; [|reflexivity].
      rewrite (Mo j mid) in X; [discriminate|lia|lia|exact Y].
Qed.

Lemma accumulate_length : forall ws acc, length (accumulate acc ws) = length ws.
Proof. induction ws as [|w ws IH]; intros acc; [reflexivity|]. cbn [accumulate length]. now rewrite IH. Qed.
Lemma accumulate_nth : forall ws acc i, (i < length ws)%nat -> nth i (accumulate acc ws) 0 = acc + zsum (firstn (S i) ws).
Proof.
  induction ws as [|w ws IH]; intros acc i H; [cbn in H; lia|]. cbn [accumulate]. destruct i as [|i].
  - cbn [nth firstn]. rewrite zsum_cons. change (zsum []) with 0. lia.
  - cbn [nth]. rewrite IH by (cbn in H; lia). cbn [firstn]. rewrite !zsum_cons. lia.
Qed.
Lemma accumulate_last : forall ws acc, ws <> [] -> last (accumulate acc ws) 0 = acc + zsum ws.
Proof.
  induction ws as [|w ws IH]; intros acc H; [congruence|]. cbn [accumulate]. destruct ws as [|w' ws].
  - cbn [accumulate last]. rewrite zsum_cons. change (zsum []) with 0. lia.
  - specialize (IH (acc + w) ltac:(discriminate)). cbn [accumulate last] in IH |- *. rewrite IH, !zsum_cons. lia.
Qed.

Lemma firstn_zsum_mono : forall ws i j, (forall w, In w ws -> 0 <= w) -> (i <= j)%nat -> zsum (firstn i ws) <= zsum (firstn j ws).
Proof.
  induction ws as [|w ws IH]; intros i j N H; [now rewrite !firstn_nil|]. destruct i as [|i]; cbn [firstn].
  - assert (Z0 : forall l, (forall x, In x l -> 0 <= x) -> 0 <= zsum l) by (induction l as [|x l IHl]; intros Hl; [reflexivity|]; rewrite zsum_cons; pose proof (Hl x (or_introl eq_refl)); specialize (IHl (fun y Hy => Hl y (or_intror Hy))); lia).
    change (zsum []) with 0. apply Z0. intros x Hx. apply N. rewrite <- (firstn_skipn j (w :: ws)). apply in_or_app. now left.
  - destruct j as [|j]; [lia|]. cbn [firstn]. rewrite !zsum_cons. specialize (IH i j (fun y Hy => N y (or_intror Hy)) ltac:(lia)). lia.
Qed.
Lemma firstn_zsum_S : forall ws i, (i < length ws)%nat -> zsum (firstn (S i) ws) = zsum (firstn i ws) + nth i ws 0.
Proof.
  induction ws as [|w ws IH]; intros i H; [cbn in H; lia|]. destruct i as [|i].
  - cbn [firstn nth]. rewrite zsum_cons. change (zsum []) with 0. lia.
  - change (firstn (S (S i)) (w :: ws)) with (w :: firstn (S i) ws). change (firstn (S i) (w :: ws)) with (w :: firstn i ws). rewrite !zsum_cons, IH by (cbn in H; lia).
    cbn [nth]. lia.
Qed.

Section Dice.
  Context (m : list (Z * Z)) (Nc : natural_counts m) (t : pyfloat).
  Notation T := (zsum (map snd m)).
  Context (T1 : 1 <= T) (Ht : float_of_Z T = Ok t).
  Definition cumul (i : nat) : Z := zsum (firstn i (map snd m)).
  Definition drawn_index (r : Z) : nat := bisect_right (length m) (accumulate 0 (map snd m)) (fmul (random_float r) t) 0 (length m - 1).

  Lemma weights_natural : forall w, In w (map snd m) -> 0 <= w.
  Proof. intros w H. apply in_map_iff in H. destruct H as [[v c] [<- H]]. now apply (Nc v). Qed.
  Lemma cumul_mono : forall i j, (i <= j)%nat -> cumul i <= cumul j.
  Proof. intros. apply firstn_zsum_mono; [apply weights_natural|assumption]. Qed.
  Lemma cumul_all : cumul (length m) = T.
  Proof. unfold cumul. now rewrite <- (map_length snd m), firstn_all. Qed.
  Lemma cumul_range : forall i, (i <= length m)%nat -> 0 <= cumul i <= T.
  Proof. intros i H. rewrite <- cumul_all. change 0 with (cumul 0). split; apply cumul_mono; lia. Qed.
  Lemma dice_nonempty : (0 < length m)%nat.
  Proof. destruct m; [cbn in T1; change (zsum []) with 0 in T1; lia|cbn; lia]. Qed.
  Lemma cumul_nth : forall i, (i < length m)%nat -> nth i (accumulate 0 (map snd m)) 0 = cumul (S i).
  Proof. intros i H. rewrite accumulate_nth by now rewrite map_length. reflexivity. Qed.

  Lemma drawn_index_spec : forall r, 0 <= r < 2 ^ 53 ->
    (drawn_index r < length m)%nat /\ below t (cumul (drawn_index r)) r = false /\ below t (cumul (S (drawn_index r))) r = true.
  Proof.
    intros r Hr. pose proof dice_nonempty as Ne.
    destruct (bisect_right_spec (length m) (accumulate 0 (map snd m)) (fmul (random_float r) t) 0 (length m - 1) ltac:(lia) ltac:(lia)) as [H1 [H2 H3]].
    { intros i j H H' E. rewrite cumul_nth in * by lia. revert E. apply (below_up T t T1 Ht); [exact Hr|]. apply cumul_mono. lia. }
    fold (drawn_index r) in H1, H2, H3. split; [lia|]. split.
    - destruct (drawn_index r) as [|i] eqn:E; [apply (below_zero T t T1 Ht); [exact Hr|reflexivity]|]. specialize (H2 i ltac:(lia)). rewrite cumul_nth in H2 by lia. exact H2.
    - destruct (Nat.eq_dec (drawn_index r) (length m - 1)) as [E|E].
      + rewrite E. replace (S (length m - 1)) with (length m) by lia. rewrite cumul_all. now apply below_total.
      + specialize (H3 ltac:(lia)). rewrite cumul_nth in H3 by lia. exact H3.
  Qed.
  Lemma drawn_index_iff : forall r i, 0 <= r < 2 ^ 53 -> (i < length m)%nat ->
    (drawn_index r = i <-> below t (cumul i) r = false /\ below t (cumul (S i)) r = true).
  Proof.
    intros r i Hr Hi. destruct (drawn_index_spec r Hr) as [D1 [D2 D3]]. split; [intros <-; auto|]. intros [B1 B2].
    destruct (Nat.lt_trichotomy (drawn_index r) i) as [L|[L|L]]; [|exact L|]; exfalso.
    - rewrite (below_up T t T1 Ht (cumul (S (drawn_index r))) (cumul i) r Hr) in B1; [discriminate|apply cumul_mono; lia|exact D3].
    - rewrite (below_up T t T1 Ht (cumul (S i)) (cumul (drawn_index r)) r Hr) in D2; [discriminate|apply cumul_mono; lia|exact B2].
  Qed.
  Lemma drawn_count : forall i, (i < length m)%nat ->
    Z.abs (Z.of_nat (length (filter (fun r => Nat.eqb (drawn_index r) i) (zrange 0 (2 ^ 53)))) * T - nth i (map snd m) 0 * 2 ^ 53) < 7 * T.
  Proof.
    intros i Hi. destruct (threshold T t (cumul i) T1 Ht (cumul_range i ltac:(lia))) as [C0 [R0 [B0 E0]]].
    destruct (threshold T t (cumul (S i)) T1 Ht (cumul_range (S i) ltac:(lia))) as [C1 [R1 [B1 E1]]].
    assert (Le : C0 <= C1).
    { destruct (Z_le_gt_dec C0 C1) as [L|L]; [exact L|exfalso]. assert (Hb : below t (cumul i) C1 = true) by (rewrite B0 by lia; apply Z.ltb_lt; lia).
      apply (below_up T t T1 Ht _ (cumul (S i))) in Hb; [|lia|apply cumul_mono; lia]. rewrite B1 in Hb by lia. apply Z.ltb_lt in Hb. lia. }
    rewrite (filter_count_ext _ _ (fun r => negb (r <? C0) && (r <? C1))).
    - rewrite count_between by lia. assert (W : cumul (S i) = cumul i + nth i (map snd m) 0) by (apply firstn_zsum_S; now rewrite map_length).
      rewrite W in E1. clear - E0 E1. generalize dependent (2 ^ 53). intros. nia.
    - intros r Hr. rewrite in_zrange in Hr. apply eq_true_iff_eq. rewrite Nat.eqb_eq, (drawn_index_iff r i Hr Hi), (B0 r Hr), (B1 r Hr), andb_true_iff, negb_true_iff. reflexivity.
  Qed.
  (** a side of weight 0 is not chosen *)
  Lemma drawn_positive : forall r, 0 <= r < 2 ^ 53 -> 0 < nth (drawn_index r) (map snd m) 0.
  Proof.
    intros r Hr. destruct (drawn_index_spec r Hr) as [D1 [D2 D3]]. rewrite <- (map_length snd m) in D1. pose proof (firstn_zsum_S (map snd m) (drawn_index r) D1) as E.
    fold (cumul (S (drawn_index r))) (cumul (drawn_index r)) in E. pose proof (weights_natural _ (nth_In (map snd m) 0 D1)) as N.
    destruct (Z.eq_dec (nth (drawn_index r) (map snd m) 0) 0) as [Z0|Z0]; [|lia]. rewrite E, Z0, Z.add_0_r, D2 in D3. discriminate.
  Qed.
End Dice.

(** ** random.choices *)
Lemma choices_drawn_ok : forall m, natural_counts m -> can_choose m ->
  exists t, float_of_Z (zsum (map snd m)) = Ok t /\ 1 <= zsum (map snd m) /\
    forall bits, choices_drawn m bits = Ok (map (fun r => nth (drawn_index m t r) (map fst m) 0) bits).
Proof.
  intros m N [F L]. destruct (faces_total m N F) as [Ne P]. destruct (float_of_total (zsum (map snd m)) ltac:(lia) L) as [t E]. exists t. split; [exact E|].
  split; [lia|]. intros bits. unfold choices_drawn, drawn_index. destruct m as [|vc m]; [congruence|].
  rewrite accumulate_last by discriminate. rewrite Z.add_0_l, E. cbn [rbind]. destruct (total_shape (zsum (map snd (vc :: m))) t ltac:(lia) E) as [x [e [-> _]]]. reflexivity.
Qed.
Lemma choices_drawn_raises : forall m bits k x, natural_counts m -> (choices_drawn m bits = Raise x <-> choices m k = Raise x).
Proof.
  intros m bits k x N. assert (X : forall A B y, @Raise A y = Raise x <-> @Raise B y = Raise x) by (intros A B y; split; intros H; inversion H; reflexivity).
  unfold choices_drawn, choices. destruct m as [|vc m]; [apply X|]. rewrite accumulate_last by discriminate. rewrite Z.add_0_l.
  set (T := zsum (map snd (vc :: m))). assert (T0 : 0 <= T).
  { unfold T. change 0 with (cumul (vc :: m) 0). rewrite <- (cumul_all (vc :: m)). apply (cumul_mono (vc :: m) N). cbn. lia. }
  destruct (float_of_Z T) as [t|y] eqn:E; cbn [rbind]; [|apply X]. destruct (T <=? 0) eqn:L.
  - apply Z.leb_le in L. replace T with 0 in E by lia. assert (Et : t = S754_zero false) by (cbv in E; congruence). rewrite Et. cbn [fle_zero]. apply X.
  - apply Z.leb_gt in L. destruct (total_shape T t ltac:(lia) E) as [m' [e [-> _]]]. cbn [fle_zero]. split; discriminate.
Qed.
Lemma drawn_in : forall m t r, natural_counts m -> 1 <= zsum (map snd m) -> float_of_Z (zsum (map snd m)) = Ok t -> 0 <= r < 2 ^ 53 ->
  exists c, In (nth (drawn_index m t r) (map fst m) 0, c) m /\ 0 < c.
Proof.
  intros m t r N T1 E Hr. destruct (drawn_index_spec m N t T1 E r Hr) as [D _]. pose proof (drawn_positive m N t T1 E r Hr) as P.
  destruct (nth_error m (drawn_index m t r)) as [[v c]|] eqn:X; [|apply nth_error_None in X; lia].
  exists c. rewrite (nth_error_nth (map fst m) (drawn_index m t r) 0 (map_nth_error fst _ _ X)). rewrite (nth_error_nth (map snd m) (drawn_index m t r) 0 (map_nth_error snd _ _ X)) in P.
  split; [now apply nth_error_In in X|exact P].
Qed.
Lemma drawn_faces : forall m t r, natural_counts m -> 1 <= zsum (map snd m) -> float_of_Z (zsum (map snd m)) = Ok t -> 0 <= r < 2 ^ 53 ->
  In (nth (drawn_index m t r) (map fst m) 0) (faces m).
Proof. intros. apply in_faces. now apply drawn_in. Qed.

(** ** How often a side is drawn *)
Lemma chosen_index : forall m t i v w r, NoDup (map fst m) -> (forall bits, choices_drawn m bits = Ok (map (fun r => nth (drawn_index m t r) (map fst m) 0) bits)) ->
  natural_counts m -> 1 <= zsum (map snd m) -> float_of_Z (zsum (map snd m)) = Ok t -> 0 <= r < 2 ^ 53 ->
  nth_error m i = Some (v, w) -> chosen m r v = Nat.eqb (drawn_index m t r) i.
Proof.
  intros m t i v w r D C N T1 E Hr X. unfold chosen. rewrite C. cbn [map]. destruct (drawn_index_spec m N t T1 E r Hr) as [I _].
  apply eq_true_iff_eq. rewrite Z.eqb_eq, Nat.eqb_eq. pose proof (map_nth_error fst _ _ X) as Xf. cbn [fst] in Xf.
  assert (Xi : (i < length m)%nat) by (apply nth_error_Some; rewrite X; discriminate). split; intros H.
  - rewrite NoDup_nth with (d := 0) in D. apply D; rewrite ?map_length; auto. rewrite H. symmetry. now apply nth_error_nth.
  - rewrite H. now apply nth_error_nth.
Qed.
Lemma draws_for_near : forall m v w, natural_counts m -> can_choose m -> NoDup (map fst m) -> In (v, w) m ->
  Z.abs (draws_for m v * zsum (map snd m) - w * 2 ^ 53) < 7 * zsum (map snd m).
Proof.
  intros m v w N C D H. destruct (choices_drawn_ok m N C) as [t [E [T1 Cd]]]. apply In_nth_error in H. destruct H as [i X].
  assert (Xi : (i < length m)%nat) by (apply nth_error_Some; rewrite X; discriminate). pose proof (drawn_count m N t T1 E i Xi) as A.
  rewrite (nth_error_nth (map snd m) i 0 (map_nth_error snd _ _ X)) in A. cbn [snd] in A. unfold draws_for.
  rewrite (filter_count_ext _ _ (fun r => Nat.eqb (drawn_index m t r) i)); [exact A|]. intros r Hr. rewrite in_zrange in Hr. now apply (chosen_index m t i v w).
Qed.
Lemma count_some : forall (f : Z -> bool) l, 0 < Z.of_nat (length (filter f l)) -> exists x, In x l /\ f x = true.
Proof.
  intros f l H. destruct (filter f l) as [|x l'] eqn:F; [cbn in H; lia|]. exists x. apply filter_In. rewrite F. now left.
Qed.
Lemma draws_for_some : forall m v, 0 < draws_for m v -> exists r, In r (zrange 0 (2 ^ 53)) /\ chosen m r v = true.
Proof. intros m v. unfold draws_for. apply count_some. Qed.
Lemma side_drawn : forall m v w, natural_counts m -> can_choose m -> NoDup (map fst m) -> In (v, w) m -> 7 * zsum (map snd m) <= w * 2 ^ 53 ->
  exists r, 0 <= r < 2 ^ 53 /\ chosen m r v = true.
Proof.
  intros m v w N C D H L. pose proof (draws_for_near m v w N C D H) as A.
  assert (P : 0 < draws_for m v) by (destruct (choices_drawn_ok m N C) as [t [_ [T1 _]]]; set (d := draws_for m v) in *; clearbody d; nia).
  destruct (draws_for_some m v P) as [r [I X]]. exists r. rewrite in_zrange in I. split; assumption.
Qed.
