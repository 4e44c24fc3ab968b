(** * FloatFacts: the rounding of SpecFloat, in integer arithmetic *)
From Verif Require Import Py PyFloat.
From Coq Require Import Floats.SpecFloat.

Notation fexp64 := (fexp prec64 emax64).

Lemma fexp64_eq : forall e, fexp64 e = Z.max (e - 53) (-1074).
Proof. intros. unfold fexp, emin, prec64, emax64. f_equal. Qed.

(** ** Digits *)
Lemma digits2_pos_bounds : forall p, 2 ^ (Z.pos (digits2_pos p) - 1) <= Z.pos p < 2 ^ Z.pos (digits2_pos p).
Proof.
  induction p as [p IH|p IH|]; cbn [digits2_pos]; [| |cbn; lia];
    (rewrite Pos2Z.inj_succ; replace (Z.succ (Z.pos (digits2_pos p)) - 1) with (Z.succ (Z.pos (digits2_pos p) - 1)) by lia;
     rewrite !Z.pow_succ_r by lia; lia).
Qed.
Lemma digits_bounds : forall m, 0 < m -> 2 ^ (Zdigits2 m - 1) <= m < 2 ^ Zdigits2 m.
Proof. intros [|p|p] H; try lia. apply digits2_pos_bounds. Qed.
Lemma digits_pos : forall m, 0 < m -> 0 < Zdigits2 m.
Proof. intros [|p|p] H; try lia. reflexivity. Qed.
Lemma digits_nonneg : forall m, 0 <= Zdigits2 m.
Proof. intros [|p|p]; cbn; lia. Qed.
Lemma digits_le : forall m n, 0 <= n -> 0 <= m < 2 ^ n -> Zdigits2 m <= n.
Proof.
  intros m n N H. destruct (Z.eq_dec m 0) as [->|M]; [cbn; lia|]. pose proof (digits_bounds m ltac:(lia)) as B.
  destruct (Z_le_gt_dec (Zdigits2 m) n); auto. exfalso.
  assert (2 ^ n <= 2 ^ (Zdigits2 m - 1)) by (apply Z.pow_le_mono_r; lia). lia.
Qed.
Lemma digits_ge : forall m n, 0 <= n -> 2 ^ n <= m -> n < Zdigits2 m.
Proof.
  intros m n N H. assert (0 < 2 ^ n) by (apply Z.pow_pos_nonneg; lia). pose proof (digits_bounds m ltac:(lia)) as B.
  destruct (Z_lt_ge_dec n (Zdigits2 m)); auto. exfalso.
  assert (2 ^ Zdigits2 m <= 2 ^ n) by (apply Z.pow_le_mono_r; lia). lia.
Qed.

(** ** Where p/q lies in the cell from [m * 2^k] to [(m + 1) * 2^k] *)
Definition located (p a m : Z) (l : location) : Prop :=
  match l with
  | loc_Exact => p = m * a
  | loc_Inexact Lt => m * a < p /\ 2 * p < (2 * m + 1) * a
  | loc_Inexact Eq => 2 * p = (2 * m + 1) * a
  | loc_Inexact Gt => (2 * m + 1) * a < 2 * p /\ p < (m + 1) * a
  end.

Lemma located_range : forall p a m l, 0 < a -> located p a m l -> m * a <= p < (m + 1) * a.
Proof. intros p a m [|[]] A H; cbn [located] in H; lia. Qed.

Definition mrs_located (p a : Z) (mrs : shr_record) : Prop := located p a (shr_m mrs) (loc_of_shr_record mrs).

Lemma shr_1_located : forall p a mrs, 0 < a -> 0 <= shr_m mrs -> mrs_located p a mrs ->
  mrs_located p (2 * a) (shr_1 mrs) /\ shr_m (shr_1 mrs) = shr_m mrs / 2.
Proof.
  intros p a [m r s] A M H. unfold mrs_located in *. cbn [shr_m] in *.
  assert (D : forall q b, 0 <= b < 2 -> (2 * q + b) / 2 = q) by (intros; symmetry; apply Z.div_unique with b; lia).
  destruct m as [|[m|m|]|m]; try lia; cbn [shr_1 shr_m].
  - split; [|reflexivity]. destruct r, s; cbn [located loc_of_shr_record orb] in *; lia.
  - split; [destruct r, s; cbn [located loc_of_shr_record orb] in *; lia|]. rewrite <- (D (Z.pos m) 1) by lia. f_equal; lia.
  - split; [destruct r, s; cbn [located loc_of_shr_record orb] in *; lia|]. rewrite <- (D (Z.pos m) 0) by lia. f_equal; lia.
  - split; [destruct r, s; cbn [located loc_of_shr_record orb] in *; lia|reflexivity].
Qed.

Lemma iter_pos_spec : forall A (f : A -> A) (P : A -> A -> Z -> Prop), (forall x, P x (f x) 1) ->
  (forall x y z i j, P x y i -> P y z j -> P x z (i + j)) -> forall n x, P x (iter_pos f n x) (Z.pos n).
Proof.
  intros A f P H1 H2. induction n as [n IH|n IH|]; intros x; cbn [iter_pos].
  - replace (Z.pos n~1) with (1 + (Z.pos n + Z.pos n)) by lia. eapply H2; [apply H1|]. eapply H2; apply IH.
  - replace (Z.pos n~0) with (Z.pos n + Z.pos n) by lia. eapply H2; apply IH.
  - apply H1.
Qed.

Lemma shr_located : forall p a mrs n, 0 < a -> 0 <= shr_m mrs -> mrs_located p a mrs ->
  mrs_located p (a * 2 ^ Z.pos n) (iter_pos shr_1 n mrs) /\ shr_m (iter_pos shr_1 n mrs) = shr_m mrs / 2 ^ Z.pos n.
Proof.
  intros p a mrs n A M H.
  assert (G := iter_pos_spec _ shr_1 (fun x y i => 0 <= i /\ forall a, 0 < a -> 0 <= shr_m x -> mrs_located p a x ->
    mrs_located p (a * 2 ^ i) y /\ shr_m y = shr_m x / 2 ^ i)).
  apply G; auto.
  - intros x. split; [lia|]. intros b Hb Hm Hl. destruct (shr_1_located p b x Hb Hm Hl) as [H1 H2]. rewrite Z.pow_1_r. split; auto.
    now rewrite Z.mul_comm.
  - intros x y z i j [Ni Hi] [Nj Hj]. split; [lia|]. intros b Hb Hm Hl. destruct (Hi b Hb Hm Hl) as [H1 H2].
    assert (0 < 2 ^ i) by (apply Z.pow_pos_nonneg; lia). assert (0 < 2 ^ j) by (apply Z.pow_pos_nonneg; lia).
    destruct (Hj (b * 2 ^ i)) as [J3 J4]; auto; try nia; [rewrite H2; apply Z.div_pos; lia|].
    rewrite Z.pow_add_r by lia. split; [now rewrite Z.mul_assoc|]. rewrite J4, H2. now rewrite Z.div_div by lia.
Qed.

Lemma loc_roundtrip : forall m l, loc_of_shr_record (shr_record_of_loc m l) = l.
Proof. intros m [|[]]; reflexivity. Qed.
Lemma shr_record_m : forall m l, shr_m (shr_record_of_loc m l) = m.
Proof. intros m [|[]]; reflexivity. Qed.

(** ** Rounding *)
Lemma rne_spec : forall p a m l, 0 < a -> 0 <= m -> located p a m l ->
  let v := round_nearest_even m l in
  m <= v <= m + 1 /\ 2 * Z.abs (v * a - p) <= a /\ (2 * Z.abs (v * a - p) = a -> Z.even v = true).
Proof.
  intros p a m l A M H. destruct l as [|[]]; cbn [located round_nearest_even] in *.
  - split; [lia|]. subst. rewrite Z.sub_diag. cbn. split; [lia|]. intros. lia.
  - destruct (Z.even m) eqn:E.
    + split; [lia|]. split; [nia|auto].
    + split; [lia|]. split; [nia|]. intros _. rewrite Z.even_add, E. reflexivity.
  - split; [lia|]. split; [nia|]. nia.
  - split; [lia|]. split; [nia|]. nia.
Qed.

(** [m1, e1]: the rounded mantissa before it is normalised, with its exponent; units of 2^b *)
Definition rounded (b p q m1 e1 : Z) : Prop :=
  0 <= m1 <= 2 ^ 53 /\ -1074 <= e1 /\ b <= e1 /\ (e1 = -1074 \/ 2 ^ 52 * (q * 2 ^ (e1 - b)) <= p) /\ p < 2 ^ 53 * (q * 2 ^ (e1 - b)) /\
  2 * Z.abs (m1 * (q * 2 ^ (e1 - b)) - p) <= q * 2 ^ (e1 - b) /\
  (2 * Z.abs (m1 * (q * 2 ^ (e1 - b)) - p) = q * 2 ^ (e1 - b) -> Z.even m1 = true).
Definition assembled (s : bool) (m1 e1 : Z) : pyfloat :=
  match (if m1 =? 2 ^ 53 then (2 ^ 52, e1 + 1) else (m1, e1)) with
  | (Z.pos m, e) => if e <=? 971 then S754_finite s m e else S754_infinity s
  | _ => S754_zero s
  end.

Lemma round_aux_spec : forall b s m e l p q, 0 < q -> 0 <= m -> b <= e -> e <= fexp64 (Zdigits2 m + e) -> located p (q * 2 ^ (e - b)) m l ->
  exists m1 e1, rounded b p q m1 e1 /\ binary_round_aux prec64 emax64 s m e l = assembled s m1 e1.
Proof.
  intros b s m e l p q Q M Be Fe L.
  set (e1 := fexp64 (Zdigits2 m + e)) in *.
  assert (P0 : forall k, 0 <= k -> 0 < 2 ^ k) by (intros; apply Z.pow_pos_nonneg; lia).
  assert (Aq : forall k, 0 <= k -> 0 < q * 2 ^ k) by (intros k K; specialize (P0 k K); nia).
  (* the first shift *)
  assert (S1 : exists mrs, shr_fexp prec64 emax64 m e l = (mrs, e1) /\ mrs_located p (q * 2 ^ (e1 - b)) mrs /\ shr_m mrs = m / 2 ^ (e1 - e)).
  { unfold shr_fexp. fold e1. unfold shr. destruct (e1 - e) as [|n|n] eqn:En; [| |lia].
    - exists (shr_record_of_loc m l). replace e1 with e by lia. split; [reflexivity|]. unfold mrs_located.
      rewrite loc_roundtrip, shr_record_m. split; [exact L|]. now rewrite Z.pow_0_r, Z.div_1_r.
    - exists (iter_pos shr_1 n (shr_record_of_loc m l)). split; [f_equal; lia|].
      destruct (shr_located p (q * 2 ^ (e - b)) (shr_record_of_loc m l) n) as [H1 H2].
      + apply Aq; lia.
      + now rewrite shr_record_m.
      + unfold mrs_located. now rewrite loc_roundtrip, shr_record_m.
      + rewrite shr_record_m in H2. split; [|exact H2]. rewrite <- Z.mul_assoc, <- Z.pow_add_r in H1 by lia.
        now replace (e - b + Z.pos n) with (e1 - b) in H1 by lia. }
  destruct S1 as [mrs [E1 [L1 M1]]]. set (m0 := shr_m mrs) in *.
  assert (M0 : 0 <= m0) by (rewrite M1; apply Z.div_pos; auto; apply P0; lia).
  unfold mrs_located in L1. fold m0 in L1.
  assert (A1 : 0 < q * 2 ^ (e1 - b)) by (apply Aq; lia).
  assert (E1' : e1 = Z.max (Zdigits2 m + e - 53) (-1074)) by (unfold e1; apply fexp64_eq).
  (* the shifted mantissa has at most 53 digits *)
  assert (U0 : m0 < 2 ^ 53).
  { rewrite M1. destruct (Z.eq_dec m 0) as [->|Mn]; [rewrite Z.div_0_l by (specialize (P0 (e1 - e)); lia); reflexivity|].
    apply Z.div_lt_upper_bound; [apply P0; lia|]. rewrite Z.mul_comm, <- Z.pow_add_r by lia.
    pose proof (digits_bounds m ltac:(lia)) as [_ D]. eapply Z.lt_le_trans; [exact D|]. apply Z.pow_le_mono_r; lia. }
  assert (L0 : e1 = -1074 \/ 2 ^ 52 <= m0).
  { destruct (Z.eq_dec e1 (-1074)) as [|N]; [now left|]. right.
    destruct (Z.eq_dec m 0) as [->|Mn]; [cbn in E1'; lia|].
    pose proof (digits_bounds m ltac:(lia)) as [D _]. rewrite M1. apply Z.div_le_lower_bound; [apply P0; lia|].
    rewrite <- Z.pow_add_r by lia. eapply Z.le_trans; [|exact D]. apply Z.pow_le_mono_r; lia. }
  (* rounding *)
  destruct (rne_spec p _ m0 _ A1 M0 L1) as [R1 [R2 R3]].
  set (v := round_nearest_even m0 (loc_of_shr_record mrs)) in *.
  pose proof (located_range p _ m0 _ A1 L1) as RG.
  exists v, e1. split.
  { unfold rounded. split; [lia|]. split; [lia|]. split; [lia|]. split; [destruct L0 as [L0|L0]; [left; exact L0|right; nia]|].
    split; [nia|]. split; [exact R2|exact R3]. }
  (* the second shift *)
  unfold binary_round_aux. rewrite E1. fold m0 v. unfold assembled.
  change (emax64 - prec64) with 971.
  destruct (Z.eqb_spec v (2 ^ 53)) as [Ev|Ev].
  - assert (Dv : Zdigits2 v = 54) by (rewrite Ev; reflexivity).
    unfold shr_fexp. rewrite Dv, fexp64_eq. unfold shr.
    replace (Z.max (54 + e1 - 53) (-1074) - e1) with 1 by lia. rewrite Ev. cbn [iter_pos shr_record_of_loc].
    cbn. unfold Z.leb. now destruct (e1 + 1 ?= 971).
  - assert (Dv : Zdigits2 v <= 53) by (apply digits_le; lia).
    unfold shr_fexp. rewrite fexp64_eq. unfold shr.
    replace (match Z.max (Zdigits2 v + e1 - 53) (-1074) - e1 with Z.pos p0 => (iter_pos shr_1 p0 (shr_record_of_loc v loc_Exact), e1 + (Z.max (Zdigits2 v + e1 - 53) (-1074) - e1)) | _ => (shr_record_of_loc v loc_Exact, e1) end)
      with (shr_record_of_loc v loc_Exact, e1).
    + cbn [shr_record_of_loc shr_m]. destruct v; [reflexivity|reflexivity|lia].
    + destruct (Z.max (Zdigits2 v + e1 - 53) (-1074) - e1) eqn:X; try reflexivity. lia.
Qed.

(** ** Doubles as multiples of 2^b, for some b <= -1074 *)
Definition udouble (b u : Z) : Prop := exists m e, -1074 <= e <= 971 /\ Z.abs m < 2 ^ 53 /\ u = m * 2 ^ (e - b).
Definition units (b : Z) (f : pyfloat) : Z :=
  match f with S754_finite s m e => (if s then - Z.pos m else Z.pos m) * 2 ^ (e - b) | _ => 0 end.
Definition mantissa (f : pyfloat) : Z := match f with S754_finite _ m _ => Z.pos m | _ => 0 end.
Definition finite_float (f : pyfloat) : Prop :=
  match f with S754_zero _ => True | S754_finite _ m e => (Z.pos m < 2 ^ 53 /\ (2 ^ 52 <= Z.pos m \/ e = -1074)) /\ -1074 <= e <= 971 | _ => False end.

Lemma units_udouble : forall b f, finite_float f -> udouble b (units b f).
Proof.
  intros b [s|s| |s m e] F; cbn in F; try contradiction.
  - exists 0, 0. split; [lia|]. split; [reflexivity|reflexivity].
  - destruct F as [F E]. exists (if s then - Z.pos m else Z.pos m), e. split; [exact E|]. split; [destruct s; lia|reflexivity].
Qed.
Lemma udouble_opp : forall b u, udouble b u -> udouble b (- u).
Proof. intros b u [m [e [E [M ->]]]]. exists (- m), e. split; [exact E|]. split; [lia|ring]. Qed.
Lemma udouble_0 : forall b, udouble b 0.
Proof. intros b. exists 0, 0. split; [lia|]. split; [reflexivity|reflexivity]. Qed.

(** The rounded value is a nearest one, and an even one in case of a tie *)
Lemma rounded_nearest : forall b p q m1 e1 w, b <= -1074 -> 0 < q -> 0 <= p -> rounded b p q m1 e1 -> udouble b w ->
  Z.abs (m1 * 2 ^ (e1 - b) * q - p) <= Z.abs (w * q - p) /\
  (Z.abs (m1 * 2 ^ (e1 - b) * q - p) = Z.abs (w * q - p) -> w = m1 * 2 ^ (e1 - b) \/ Z.even m1 = true).
Proof.
  intros b p q m1 e1 w B Q P [M [E [Be [L [U [H T]]]]]] [mw [ew [Ew [Mw ->]]]].
  assert (P0 : forall k, 0 <= k -> 0 < 2 ^ k) by (intros; apply Z.pow_pos_nonneg; lia).
  set (a := 2 ^ (e1 - b)) in *. assert (A : 0 < a) by (apply P0; lia).
  replace (m1 * a * q) with (m1 * (q * a)) by ring.
  destruct (Z_le_gt_dec e1 ew) as [C|C].
  - (* the other double is a multiple of the unit as well *)
    assert (Ea : 2 ^ (ew - b) = 2 ^ (ew - e1) * a) by (unfold a; rewrite <- Z.pow_add_r by lia; f_equal; lia).
    rewrite Ea. set (k := mw * 2 ^ (ew - e1)). replace (mw * (2 ^ (ew - e1) * a)) with (k * a) by (unfold k; ring).
    replace (k * a * q) with (k * (q * a)) by ring.
    assert (Aq : 0 < q * a) by nia.
    destruct (Z.eq_dec k m1) as [->|N]; [split; [lia|auto]|].
    assert (D : q * a <= Z.abs (k * (q * a) - m1 * (q * a))).
    { rewrite <- Z.mul_sub_distr_r, Z.abs_mul, (Z.abs_eq (q * a)) by lia. nia. }
    split; [lia|]. intros Eq. right. apply T. lia.
  - (* the other double is below the binade *)
    destruct L as [L|L]; [lia|].
    assert (Aq : 0 < q * a) by nia.
    assert (W : mw * 2 ^ (ew - b) < 2 ^ 52 * a).
    { assert (X : 2 ^ (ew - b) * 2 <= a).
      { unfold a. replace (e1 - b) with (ew - b + 1 + (e1 - ew - 1)) by lia. rewrite (Z.pow_add_r 2 (ew - b + 1)) by lia.
        rewrite Z.pow_add_r by lia. pose proof (P0 (e1 - ew - 1) ltac:(lia)). pose proof (P0 (ew - b) ltac:(lia)). nia. }
      assert (Y : mw < 2 ^ 53) by lia. assert (Z : 0 < 2 ^ (ew - b)) by (apply P0; lia).
      change (2 ^ 53) with (2 * 2 ^ 52) in Y. nia. }
    assert (W' : mw * 2 ^ (ew - b) * q < 2 ^ 52 * (q * a)) by nia.
    assert (V : Z.abs (m1 * (q * a) - p) <= p - 2 ^ 52 * (q * a)).
    { destruct (Z.eq_dec m1 (2 ^ 52)) as [->|N]; [lia|].
      assert (D : q * a <= Z.abs (2 ^ 52 * (q * a) - m1 * (q * a))).
      { rewrite <- Z.mul_sub_distr_r, Z.abs_mul, (Z.abs_eq (q * a)) by lia. nia. }
      lia. }
    split; [lia|]. intros Eq. lia.
Qed.

(** The overflow threshold: half a unit above the largest double, (2^54 - 1) * 2^970 *)
Lemma assembled_spec : forall b s p q m1 e1, b <= -1074 -> 0 < q -> rounded b p q m1 e1 ->
  (finite_float (assembled s m1 e1) /\ units b (assembled s m1 e1) = (if s then - (m1 * 2 ^ (e1 - b)) else m1 * 2 ^ (e1 - b)) /\
   (Z.even m1 = true -> Z.even (mantissa (assembled s m1 e1)) = true) /\ 2 * p < (2 ^ 54 - 1) * (q * 2 ^ (971 - b))) \/
  (assembled s m1 e1 = S754_infinity s /\ (2 ^ 54 - 1) * (q * 2 ^ (971 - b)) <= 2 * p).
Proof.
  intros b s p q m1 e1 B Q [M [E [Be [L [U [H T]]]]]].
  assert (P0 : forall k, 0 <= k -> 0 < 2 ^ k) by (intros; apply Z.pow_pos_nonneg; lia).
  assert (S1 : 2 ^ (e1 + 1 - b) = 2 * 2 ^ (e1 - b)) by (replace (e1 + 1 - b) with (Z.succ (e1 - b)) by lia; apply Z.pow_succ_r; lia).
  assert (A : 0 < 2 ^ (e1 - b)) by (apply P0; lia). assert (Aq : 0 < q * 2 ^ (e1 - b)) by nia.
  (* comparing p with the threshold *)
  assert (C1 : e1 <= 970 -> 2 * p < (2 ^ 54 - 1) * (q * 2 ^ (971 - b))).
  { intros X. assert (Y : 2 * 2 ^ (e1 - b) <= 2 ^ (971 - b)) by (rewrite <- S1; apply Z.pow_le_mono_r; lia).
    assert (2 * (q * 2 ^ (e1 - b)) <= q * 2 ^ (971 - b)) by nia. lia. }
  assert (C2 : 972 <= e1 -> (2 ^ 54 - 1) * (q * 2 ^ (971 - b)) <= 2 * p).
  { intros X. assert (Y : 2 * 2 ^ (971 - b) <= 2 ^ (e1 - b)).
    { replace (e1 - b) with (971 - b + 1 + (e1 - 972)) by lia. rewrite (Z.pow_add_r 2 (971 - b + 1)) by lia. rewrite Z.pow_add_r by lia.
      pose proof (P0 (e1 - 972) ltac:(lia)). pose proof (P0 (971 - b) ltac:(lia)). nia. }
    assert (2 * (q * 2 ^ (971 - b)) <= q * 2 ^ (e1 - b)) by nia. assert (0 < q * 2 ^ (971 - b)) by (pose proof (P0 (971 - b) ltac:(lia)); nia). lia. }
  unfold assembled. destruct (Z.eqb_spec m1 (2 ^ 53)) as [Em|Em].
  - change (2 ^ 52) with (Z.pos (2 ^ 52)). destruct (Z.leb_spec (e1 + 1) 971) as [X|X].
    + left. split; [cbn [finite_float]; lia|]. split; [|split; [reflexivity|apply C1; lia]].
      cbn [units]. rewrite S1, Em. destruct s; ring_simplify; reflexivity.
    + right. split; [reflexivity|]. destruct (Z.eq_dec e1 971) as [->|N]; [|apply C2; lia].
      rewrite Em in H. assert (2 ^ 53 * (q * 2 ^ (971 - b)) - p <= Z.abs (2 ^ 53 * (q * 2 ^ (971 - b)) - p)) by lia. lia.
  - destruct m1 as [|m|m]; [| |lia].
    + left. split; [exact Logic.I|]. split; [destruct s; reflexivity|]. split; [reflexivity|].
      destruct L as [L|L]; [apply C1; lia|lia].
    + destruct (Z.leb_spec e1 971) as [X|X].
      * left. split.
        { cbn [finite_float]. split; [|lia]. split; [lia|]. destruct L as [L|L]; [right; exact L|left].
          assert ((2 ^ 53 - 1) * (q * 2 ^ (e1 - b)) <= 2 * (Z.pos m * (q * 2 ^ (e1 - b)))) by lia. nia. }
        split; [cbn [units]; destruct s; ring|]. split; [auto|].
        destruct (Z.eq_dec e1 971) as [->|N]; [|apply C1; lia].
        assert (Z.pos m * (q * 2 ^ (971 - b)) <= (2 ^ 53 - 1) * (q * 2 ^ (971 - b))) by nia.
        assert (K : p - Z.pos m * (q * 2 ^ (971 - b)) <= Z.abs (Z.pos m * (q * 2 ^ (971 - b)) - p)) by lia.
        destruct (Z.eq_dec (2 * Z.abs (Z.pos m * (q * 2 ^ (971 - b)) - p)) (q * 2 ^ (971 - b))) as [D|D].
        -- destruct (Z.eq_dec (Z.pos m) (2 ^ 53 - 1)) as [F|F]; [specialize (T D); rewrite F in T; discriminate|].
           assert (Z.pos m * (q * 2 ^ (971 - b)) <= (2 ^ 53 - 2) * (q * 2 ^ (971 - b))) by nia. lia.
        -- lia.
      * right. split; [reflexivity|]. apply C2. lia.
Qed.

(** ** Rounding to nearest: [f] is the double nearest to p/q, both in units of 2^b *)
Definition unearest (b p q : Z) (f : pyfloat) : Prop :=
  finite_float f /\ (forall w, udouble b w -> Z.abs (units b f * q - p) <= Z.abs (w * q - p) /\
    (Z.abs (units b f * q - p) = Z.abs (w * q - p) -> w = units b f \/ Z.even (mantissa f) = true)) /\
  (2 ^ 53 * Z.abs (units b f * q - p) <= Z.abs p \/ 2 * Z.abs (units b f * q - p) <= q * 2 ^ (-1074 - b)).
Definition overflows (b p q : Z) : Prop := (2 ^ 54 - 1) * (q * 2 ^ (971 - b)) <= 2 * Z.abs p.

Lemma round_aux_nearest : forall b s m e l p q, b <= -1074 -> 0 < q -> 0 <= m -> b <= e -> e <= fexp64 (Zdigits2 m + e) ->
  located p (q * 2 ^ (e - b)) m l ->
  let f := binary_round_aux prec64 emax64 s m e l in let p' := if s then - p else p in
  (unearest b p' q f /\ ~ overflows b p' q) \/ (f = S754_infinity s /\ overflows b p' q).
Proof.
  intros b s m e l p q B Q M Be Fe L f p'.
  assert (P : 0 <= p).
  { assert (0 < q * 2 ^ (e - b)) by (assert (0 < 2 ^ (e - b)) by (apply Z.pow_pos_nonneg; lia); nia).
    pose proof (located_range p _ m l H L). nia. }
  destruct (round_aux_spec b s m e l p q Q M Be Fe L) as [m1 [e1 [R E]]]. unfold f. rewrite E.
  assert (Ap : Z.abs p' = p) by (unfold p'; destruct s; lia).
  destruct (assembled_spec b s p q m1 e1 B Q R) as [[F [V [Ev O]]]|[F O]].
  - left. split; [|unfold overflows; rewrite Ap; lia]. split; [exact F|].
    assert (Sg : forall x, Z.abs ((if s then - x else x) * q - p') = Z.abs (x * q - p)).
    { intros x. unfold p'. destruct s; [|reflexivity]. rewrite <- Z.abs_opp. f_equal. ring. }
    rewrite V, Sg. split.
    + intros w W.
      assert (W' : udouble b (if s then - w else w)) by (destruct s; [now apply udouble_opp|exact W]).
      destruct (rounded_nearest b p q m1 e1 _ B Q P R W') as [N1 N2].
      rewrite <- (Sg (if s then - w else w)) in N1, N2. replace (if s then - (if s then - w else w) else (if s then - w else w)) with w in N1, N2 by (destruct s; lia).
      split; [exact N1|]. intros Eq. destruct (N2 Eq) as [X|X]; [left|right; auto]. destruct s; lia.
    + rewrite Ap. destruct R as [_ [_ [_ [L1 [_ [H _]]]]]]. replace (m1 * 2 ^ (e1 - b) * q) with (m1 * (q * 2 ^ (e1 - b))) by ring.
      destruct L1 as [->|L1]; [right; exact H|left]. lia.
  - right. split; [exact F|]. unfold overflows. now rewrite Ap.
Qed.

(** ** Consequences *)
Lemma unearest_le : forall b p q f w, 0 < q -> unearest b p q f -> udouble b w -> p <= w * q -> units b f <= w.
Proof. intros b p q f w Q [_ [N _]] W H. destruct (N w W) as [A _]. nia. Qed.
Lemma unearest_ge : forall b p q f w, 0 < q -> unearest b p q f -> udouble b w -> w * q <= p -> w <= units b f.
Proof. intros b p q f w Q [_ [N _]] W H. destruct (N w W) as [A _]. nia. Qed.
Lemma unearest_exact : forall b q f w, 0 < q -> unearest b (w * q) q f -> udouble b w -> units b f = w.
Proof. intros b q f w Q N W. pose proof (unearest_le b _ q f w Q N W). pose proof (unearest_ge b _ q f w Q N W). lia. Qed.

(** ** The operations *)
Lemma shift_pos_eq : forall d m, Z.pos (shift_pos d m) = Z.pos m * 2 ^ Z.pos d.
Proof. intros d m. rewrite Z.mul_comm. apply Zpower.shift_pos_correct. Qed.

Lemma shl_align_spec : forall m e e', let r := shl_align m e e' in snd r = Z.min e e' /\ Z.pos (fst r) = Z.pos m * 2 ^ (e - Z.min e e').
Proof.
  intros m e e'. unfold shl_align. destruct (e' - e) as [|d|d] eqn:D; cbn [fst snd].
  - split; [lia|]. replace (e - Z.min e e') with 0 by lia. lia.
  - split; [lia|]. replace (e - Z.min e e') with 0 by lia. lia.
  - split; [lia|]. rewrite shift_pos_eq. f_equal. f_equal. lia.
Qed.

Lemma digits_shift : forall m k, 0 < m -> 0 <= k -> Zdigits2 (m * 2 ^ k) = Zdigits2 m + k.
Proof.
  intros m k M K. pose proof (digits_bounds m M) as B. pose proof (digits_pos m M).
  assert (0 < 2 ^ k) by (apply Z.pow_pos_nonneg; lia).
  assert (Hm : 0 < m * 2 ^ k) by nia.
  assert (X : Zdigits2 (m * 2 ^ k) <= Zdigits2 m + k) by (apply digits_le; [lia|]; rewrite Z.pow_add_r by lia; nia).
  assert (Y : Zdigits2 m + k - 1 < Zdigits2 (m * 2 ^ k)).
  { apply digits_ge; [lia|]. replace (Zdigits2 m + k - 1) with (Zdigits2 m - 1 + k) by lia. rewrite Z.pow_add_r by lia. nia. }
  lia.
Qed.

Lemma round_nearest_pos : forall b s m e, b <= -1074 -> b <= e ->
  let f := binary_round prec64 emax64 s m e in let p := (if s then - Z.pos m else Z.pos m) * 2 ^ (e - b) in
  (unearest b p 1 f /\ ~ overflows b p 1) \/ (f = S754_infinity s /\ overflows b p 1).
Proof.
  intros b s m e B Be f p. unfold f, binary_round.
  pose proof (shl_align_spec m e (fexp64 (Z.pos (digits2_pos m) + e))) as [S1 S2].
  destruct (shl_align m e (fexp64 (Z.pos (digits2_pos m) + e))) as [mz ez]. cbn [fst snd] in S1, S2.
  assert (Fz : -1074 <= fexp64 (Z.pos (digits2_pos m) + e)) by (rewrite fexp64_eq; lia).
  assert (D : Zdigits2 (Z.pos mz) = Zdigits2 (Z.pos m) + (e - ez)) by (rewrite S2, S1; apply digits_shift; lia).
  assert (Ez : b <= ez) by lia.
  pose proof (round_aux_nearest b s (Z.pos mz) ez loc_Exact (Z.pos m * 2 ^ (e - b)) 1 B ltac:(lia) ltac:(lia) Ez) as R.
  cbn zeta in R. replace p with (if s then - (Z.pos m * 2 ^ (e - b)) else Z.pos m * 2 ^ (e - b)) by (unfold p; destruct s; ring).
  apply R.
  - rewrite D. cbn [Zdigits2]. replace (Z.pos (digits2_pos m) + (e - ez) + ez) with (Z.pos (digits2_pos m) + e) by lia. lia.
  - cbn [located]. rewrite S2, Z.mul_1_l. rewrite <- Z.mul_assoc, <- Z.pow_add_r by lia. f_equal. f_equal. lia.
Qed.

Lemma normalize_nearest : forall b m e z, b <= -1074 -> b <= e ->
  let f := binary_normalize prec64 emax64 m e z in
  (unearest b (m * 2 ^ (e - b)) 1 f /\ ~ overflows b (m * 2 ^ (e - b)) 1) \/
  (exists s, f = S754_infinity s /\ overflows b (m * 2 ^ (e - b)) 1).
Proof.
  intros b m e z B Be f. unfold f, binary_normalize. destruct m as [|m|m].
  - left. split.
    + split; [exact Logic.I|]. cbn [units]. rewrite Z.mul_0_l. split; [|left; reflexivity].
      intros w W. split; [cbn; lia|]. intros Eq. right. reflexivity.
    + unfold overflows. rewrite Z.mul_0_l, Z.mul_1_l. assert (0 < 2 ^ (971 - b)) by (apply Z.pow_pos_nonneg; lia). lia.
  - destruct (round_nearest_pos b false m e B Be) as [R|R]; [left; exact R|right; eauto].
  - destruct (round_nearest_pos b true m e B Be) as [R|R]; [left; exact R|right; eauto].
Qed.

(** float(z) *)
Lemma float_of_Z_spec : forall b z, b <= -1074 ->
  (exists f, float_of_Z z = Ok f /\ unearest b (z * 2 ^ (- b)) 1 f /\ ~ overflows b (z * 2 ^ (- b)) 1) \/
  (float_of_Z z = Raise OverflowError /\ overflows b (z * 2 ^ (- b)) 1).
Proof.
  intros b z B. unfold float_of_Z. destruct (normalize_nearest b z 0 false B ltac:(lia)) as [[R O]|[s [R O]]].
  - left. replace (0 - b) with (- b) in * by lia. set (f := binary_normalize prec64 emax64 z 0 false) in *.
    exists f. split; [|auto]. destruct R as [F _]. now destruct f.
  - right. replace (0 - b) with (- b) in * by lia. rewrite R. auto.
Qed.

(** a / b on ints *)
Lemma new_location_spec : forall n r k, 0 < n -> 0 <= r < n -> located (k * n + r) n k (new_location n r).
Proof.
  intros n r k N H. unfold new_location. destruct (Z.even n) eqn:E.
  - unfold new_location_even. destruct (Zeq_bool r 0) eqn:Z0; [apply Zeq_bool_eq in Z0; cbn [located]; lia|]. apply Zeq_bool_neq in Z0.
    destruct (Z.compare_spec (2 * r) n); cbn [located]; lia.
  - unfold new_location_odd. destruct (Zeq_bool r 0) eqn:Z0; [apply Zeq_bool_eq in Z0; cbn [located]; lia|]. apply Zeq_bool_neq in Z0.
    assert (Od : Z.odd n = true) by (rewrite <- Z.negb_even, E; reflexivity). apply Z.odd_spec in Od. destruct Od as [h Hh].
    destruct (Z.compare_spec (2 * r + 1) n); cbn [located]; lia.
Qed.

Lemma div_core_nearest : forall b s m1 e1 m2 e2, b <= -1074 -> 0 < m1 -> 0 < m2 ->
  let '(mz, ez, lz) := SFdiv_core_binary prec64 emax64 m1 e1 m2 e2 in
  forall q c, b <= Z.min (-1074) (e1 - e2) -> 0 < c -> q = c * m2 ->
  let p := c * m1 * 2 ^ (e1 - e2 - b) in
  let f := binary_round_aux prec64 emax64 s mz ez lz in let p' := if s then - p else p in
  (unearest b p' q f /\ ~ overflows b p' q) \/ (f = S754_infinity s /\ overflows b p' q).
Proof.
  intros b s m1 e1 m2 e2 B M1 M2. unfold SFdiv_core_binary.
  set (d1 := Zdigits2 m1). set (d2 := Zdigits2 m2). set (e' := Z.min (fexp64 (d1 + e1 - (d2 + e2))) (e1 - e2)).
  set (s0 := e1 - e2 - e'). assert (S0 : 0 <= s0) by (unfold s0, e'; lia).
  assert (Em : match s0 with Z.pos _ => Z.shiftl m1 s0 | Z0 => m1 | Z.neg _ => 0 end = m1 * 2 ^ s0).
  { destruct s0; [lia| |lia]. now rewrite Z.shiftl_mul_pow2 by lia. }
  rewrite Em. pose proof (Z_div_mod (m1 * 2 ^ s0) m2 ltac:(lia)) as DM. destruct (Z.div_eucl (m1 * 2 ^ s0) m2) as [k r]. destruct DM as [Dk Dr].
  intros q c Bm C ->. set (p := c * m1 * 2 ^ (e1 - e2 - b)).
  assert (Fe : -1074 <= fexp64 (d1 + e1 - (d2 + e2))) by (rewrite fexp64_eq; lia).
  assert (Be : b <= e') by (unfold e'; lia).
  assert (P0 : forall j, 0 <= j -> 0 < 2 ^ j) by (intros; apply Z.pow_pos_nonneg; lia).
  assert (K : 0 <= k) by (pose proof (P0 s0 S0); nia).
  apply (round_aux_nearest b s k e' (new_location m2 r) p (c * m2) B ltac:(nia) K Be).
  - (* the quotient has enough digits *)
    assert (Dq : Z.max (d1 - d2 + s0) 0 <= Zdigits2 k).
    { destruct (Z_le_gt_dec (d1 - d2 + s0) 0) as [X|X]; [pose proof (digits_nonneg k); lia|].
      replace (Z.max (d1 - d2 + s0) 0) with (d1 - d2 + s0 - 1 + 1) by lia.
      assert (d1 - d2 + s0 - 1 < Zdigits2 k); [|lia]. apply digits_ge; [lia|].
      destruct (digits_bounds m1 M1) as [L1 _]. destruct (digits_bounds m2 M2) as [_ U2]. fold d1 in L1. fold d2 in U2.
      pose proof (digits_nonneg m2) as N2. fold d2 in N2. pose proof (digits_pos m1 M1) as N1. fold d1 in N1.
      assert (2 ^ (d1 - d2 + s0 - 1) * 2 ^ d2 <= m1 * 2 ^ s0).
      { rewrite <- Z.pow_add_r by lia. replace (d1 - d2 + s0 - 1 + d2) with (d1 - 1 + s0) by lia. rewrite Z.pow_add_r by lia.
        pose proof (P0 s0 S0). nia. }
      assert (0 < 2 ^ (d1 - d2 + s0 - 1)) by (apply P0; lia).
      assert (2 ^ (d1 - d2 + s0 - 1) * m2 < (k + 1) * m2) by nia. nia. }
    rewrite fexp64_eq. unfold e' at 1. rewrite fexp64_eq. unfold s0 in Dq.
    assert (e' <= e1 - e2) by (unfold e'; lia). assert (e' <= fexp64 (d1 + e1 - (d2 + e2))) by (unfold e'; lia). rewrite fexp64_eq in H0.
    destruct (Z_le_gt_dec e' (-1074)); [lia|]. lia.
  - assert (Ep : p = (k * m2 + r) * (c * 2 ^ (e' - b))).
    { unfold p. replace (e1 - e2 - b) with (s0 + (e' - b)) by (unfold s0; lia). rewrite Z.pow_add_r by lia. nia. }
    rewrite Ep. replace (c * m2 * 2 ^ (e' - b)) with (m2 * (c * 2 ^ (e' - b))) by ring.
    pose proof (new_location_spec m2 r k M2 Dr) as Nl. assert (Cp : 0 < c * 2 ^ (e' - b)) by (pose proof (P0 (e' - b) ltac:(lia)); nia).
    set (x := c * 2 ^ (e' - b)) in *. clearbody x. clear - Nl Cp.
    destruct (new_location m2 r) as [|[]]; cbn [located] in *; nia.
Qed.

Lemma unearest_zero : forall b s q, 0 < q -> unearest b 0 q (S754_zero s).
Proof.
  intros b s q Q. split; [exact Logic.I|]. cbn [units mantissa]. rewrite Z.mul_0_l, Z.sub_diag. split; [|left; reflexivity].
  intros w W. split; [cbn; lia|]. intros Eq. right. reflexivity.
Qed.
Lemma zero_no_overflow : forall b q, b <= -1074 -> 0 < q -> ~ overflows b 0 q.
Proof. intros b q B Q. unfold overflows. assert (0 < 2 ^ (971 - b)) by (apply Z.pow_pos_nonneg; lia). cbn [Z.abs]. nia. Qed.

Lemma int_truediv_spec : forall b n d, b <= -1074 -> 0 < d ->
  (exists f, int_truediv n d = Ok f /\ unearest b (n * 2 ^ (- b)) d f /\ ~ overflows b (n * 2 ^ (- b)) d) \/
  (int_truediv n d = Raise OverflowError /\ overflows b (n * 2 ^ (- b)) d).
Proof.
  intros b n d B D. unfold int_truediv. destruct (Z.eqb_spec d 0); [lia|]. destruct (Z.eqb_spec n 0) as [->|N].
  - left. rewrite Z.mul_0_l. eexists. split; [reflexivity|]. split; [now apply unearest_zero|now apply zero_no_overflow].
  - assert (Dn : (d <? 0) = false) by (apply Z.ltb_ge; lia). rewrite Dn, Bool.xorb_false_r.
    pose proof (div_core_nearest b (n <? 0) (Z.abs n) 0 (Z.abs d) 0 B ltac:(lia) ltac:(lia)) as R.
    destruct (SFdiv_core_binary prec64 emax64 (Z.abs n) 0 (Z.abs d) 0) as [[mz ez] lz].
    specialize (R d 1 ltac:(lia) ltac:(lia) ltac:(lia)). cbn zeta in R.
    replace (0 - 0 - b) with (- b) in R by lia. rewrite Z.mul_1_l in R.
    replace (if n <? 0 then - (Z.abs n * 2 ^ (- b)) else Z.abs n * 2 ^ (- b)) with (n * 2 ^ (- b)) in R by (destruct (Z.ltb_spec n 0); nia).
    set (f := binary_round_aux prec64 emax64 (n <? 0) mz ez lz) in *.
    destruct R as [[R O]|[R O]]; [left|right].
    + exists f. split; [|auto]. destruct R as [F _]. now destruct f.
    + rewrite R. auto.
Qed.

Lemma unearest_self : forall b f, b <= -1074 -> finite_float f -> unearest b (units b f) 1 f.
Proof.
  intros b f B F. split; [exact F|]. rewrite Z.mul_1_r, Z.sub_diag. split; [|left; cbn; lia].
  intros w W. rewrite Z.mul_1_r. split; [cbn; lia|]. intros Eq. left. cbn [Z.abs] in Eq. lia.
Qed.
Lemma finite_no_overflow : forall b f, b <= -1074 -> finite_float f -> ~ overflows b (units b f) 1.
Proof.
  intros b f B F. unfold overflows. rewrite Z.mul_1_l. assert (P : 0 < 2 ^ (971 - b)) by (apply Z.pow_pos_nonneg; lia).
  destruct f as [s|s| |s m e]; cbn in F; try contradiction; cbn [units].
  - cbn [Z.abs]. lia.
  - destruct F as [M [E1 E2]].
    assert (P1 : 0 < 2 ^ (e - b)) by (apply Z.pow_pos_nonneg; lia).
    assert (P2 : 2 ^ (e - b) <= 2 ^ (971 - b)) by (apply Z.pow_le_mono_r; lia).
    assert (X : Z.abs ((if s then - Z.pos m else Z.pos m) * 2 ^ (e - b)) = Z.pos m * 2 ^ (e - b)) by (destruct s; nia).
    rewrite X. assert (Z.pos m * 2 ^ (e - b) <= (2 ^ 53 - 1) * 2 ^ (971 - b)) by nia. lia.
Qed.

Lemma cond_Zopp_units : forall b s m e ez, b <= ez -> ez <= e ->
  cond_Zopp s (Z.pos (fst (shl_align m e ez))) * 2 ^ (ez - b) = (if s then - Z.pos m else Z.pos m) * 2 ^ (e - b).
Proof.
  intros b s m e ez Bz Ez. pose proof (shl_align_spec m e ez) as [_ S2]. rewrite Z.min_r in S2 by lia.
  assert (X : 2 ^ (e - b) = 2 ^ (e - ez) * 2 ^ (ez - b)) by (rewrite <- Z.pow_add_r by lia; f_equal; lia).
  rewrite X. unfold cond_Zopp. destruct s; rewrite S2; ring.
Qed.

Lemma fadd_spec : forall b x y, b <= -1074 -> finite_float x -> finite_float y ->
  let p := units b x + units b y in
  (unearest b p 1 (fadd x y) /\ ~ overflows b p 1) \/ (exists s, fadd x y = S754_infinity s /\ overflows b p 1).
Proof.
  intros b x y B Fx Fy p. unfold p, fadd, SFadd.
  destruct x as [sx|sx| |sx mx ex], y as [sy|sy| |sy my ey]; cbn in Fx, Fy; try contradiction.
  - left. cbn [units]. change (0 + 0) with 0. split; [|apply zero_no_overflow; lia]. destruct (Bool.eqb sx sy); apply unearest_zero; lia.
  - left. change (units b (S754_zero sx)) with 0. rewrite Z.add_0_l. split; [now apply unearest_self|now apply finite_no_overflow].
  - left. change (units b (S754_zero sy)) with 0. rewrite Z.add_0_r. split; [now apply unearest_self|now apply finite_no_overflow].
  - set (ez := Z.min ex ey). cbn [units].
    rewrite <- (cond_Zopp_units b sx mx ex ez), <- (cond_Zopp_units b sy my ey ez) by (unfold ez; lia).
    rewrite <- Z.mul_add_distr_r. apply normalize_nearest; unfold ez; lia.
Qed.

Lemma fsub_spec : forall b x y, b <= -1074 -> finite_float x -> finite_float y ->
  let p := units b x - units b y in
  (unearest b p 1 (fsub x y) /\ ~ overflows b p 1) \/ (exists s, fsub x y = S754_infinity s /\ overflows b p 1).
Proof.
  intros b x y B Fx Fy p. unfold p, fsub, SFsub.
  destruct x as [sx|sx| |sx mx ex], y as [sy|sy| |sy my ey]; cbn in Fx, Fy; try contradiction.
  - left. cbn [units]. change (0 - 0) with 0. split; [|apply zero_no_overflow; lia]. destruct (Bool.eqb sx (negb sy)); apply unearest_zero; lia.
  - left. assert (X : units b (S754_zero sx) - units b (S754_finite sy my ey) = units b (S754_finite (negb sy) my ey)) by (cbn [units]; destruct sy; cbn [negb]; ring).
    rewrite X. split; [now apply unearest_self|now apply finite_no_overflow].
  - left. change (units b (S754_zero sy)) with 0. rewrite Z.sub_0_r. split; [now apply unearest_self|now apply finite_no_overflow].
  - set (ez := Z.min ex ey). cbn [units].
    rewrite <- (cond_Zopp_units b sx mx ex ez), <- (cond_Zopp_units b sy my ey ez) by (unfold ez; lia).
    rewrite <- Z.mul_sub_distr_r. apply normalize_nearest; unfold ez; lia.
Qed.

(** x / 1.0 has the value of x *)
Lemma fone_eq : fone = S754_finite false (2 ^ 52) (-52).
Proof. reflexivity. Qed.
Lemma fdiv_one : forall b x, b <= -1074 -> finite_float x -> finite_float (fdiv x fone) /\ units b (fdiv x fone) = units b x.
Proof.
  intros b x B F. rewrite fone_eq. unfold fdiv, SFdiv. destruct x as [s|s| |s m e]; cbn in F; try contradiction; [split; [exact Logic.I|reflexivity]|].
  pose proof (div_core_nearest (Z.min b (-1200)) s (Z.pos m) e (Z.pos (2 ^ 52)) (-52) ltac:(lia) ltac:(lia) ltac:(lia)) as R.
  rewrite Bool.xorb_false_r.
  destruct (SFdiv_core_binary prec64 emax64 (Z.pos m) e (Z.pos (2 ^ 52)) (-52)) as [[mz ez] lz].
  set (b' := Z.min b (-1200)) in *. assert (B' : b' <= b /\ b' <= -1200) by (unfold b'; lia).
  specialize (R (Z.pos (2 ^ 52)) 1 ltac:(lia) ltac:(lia) ltac:(lia)). cbn zeta in R.
  set (x := S754_finite s m e) in *. set (f := binary_round_aux prec64 emax64 s mz ez lz) in *.
  assert (E : (if s then - (1 * Z.pos m * 2 ^ (e - -52 - b')) else 1 * Z.pos m * 2 ^ (e - -52 - b')) = units b' x * Z.pos (2 ^ 52)).
  { unfold x. cbn [units]. replace (e - -52 - b') with ((e - b') + 52) by lia. rewrite Z.pow_add_r by lia. change (Z.pos (2 ^ 52)) with (2 ^ 52). destruct s; ring. }
  rewrite E in R. destruct R as [[R _]|[_ O]].
  - pose proof (proj1 R) as Ff. split; [exact Ff|].
    pose proof (unearest_exact b' (Z.pos (2 ^ 52)) f (units b' x) ltac:(lia) R (units_udouble b' x F)) as Eu.
    assert (Sc : forall g, finite_float g -> units b' g = units b g * 2 ^ (b - b')).
    { intros [?|?| |sg mg eg] Fg; cbn in Fg; try contradiction; cbn [units]; [reflexivity|].
      rewrite <- Z.mul_assoc, <- Z.pow_add_r by lia. f_equal. f_equal. lia. }
    rewrite (Sc f Ff), (Sc x F) in Eu. assert (0 < 2 ^ (b - b')) by (apply Z.pow_pos_nonneg; lia). nia.
  - exfalso. apply (finite_no_overflow b' x ltac:(lia) F). revert O. unfold overflows.
    rewrite Z.abs_mul. change (Z.abs (Z.pos (2 ^ 52))) with (2 ^ 52). change (Z.pos (2 ^ 52)) with (2 ^ 52).
    set (A := 2 ^ (971 - b')). set (U := Z.abs (units b' x)). clearbody A U. clear. lia.
Qed.

(** x * 1.1 *)
Lemma fmul_spec : forall b x y, b <= -2148 -> finite_float x -> 2 ^ 52 <= mantissa y -> finite_float y ->
  let p := units (-1074) x * units (-1074) y * 2 ^ (-2148 - b) in
  (unearest b p 1 (fmul x y) /\ ~ overflows b p 1) \/ (exists s, fmul x y = S754_infinity s /\ overflows b p 1).
Proof.
  intros b x y B Fx My Fy p. unfold p, fmul, SFmul.
  destruct y as [sy|sy| |sy my ey]; cbn in Fy; try contradiction. cbn [mantissa] in *.
  destruct x as [sx|sx| |sx mx ex]; cbn in Fx; try contradiction.
  - left. change (units (-1074) (S754_zero sx)) with 0. rewrite !Z.mul_0_l. split; [apply unearest_zero; lia|apply zero_no_overflow; lia].
  - pose proof (round_aux_nearest b (xorb sx sy) (Z.pos (mx * my)) (ex + ey) loc_Exact (Z.pos (mx * my) * 2 ^ (ex + ey - b)) 1 ltac:(lia) ltac:(lia) ltac:(lia) ltac:(lia)) as R.
    cbn zeta in R.
    assert (E : (if xorb sx sy then - (Z.pos (mx * my) * 2 ^ (ex + ey - b)) else Z.pos (mx * my) * 2 ^ (ex + ey - b)) =
       units (-1074) (S754_finite sx mx ex) * units (-1074) (S754_finite sy my ey) * 2 ^ (-2148 - b)).
    { cbn [units]. replace (ex + ey - b) with ((ex - -1074) + (ey - -1074) + (-2148 - b)) by lia. rewrite !Z.pow_add_r by lia.
      rewrite Pos2Z.inj_mul. destruct sx, sy; cbn [xorb]; ring. }
    rewrite E in R. match type of R with ?A -> ?B -> _ => assert (HA : A); [|assert (HB : B); [|specialize (R HA HB)]] end.
    + rewrite fexp64_eq. assert (D : 52 < Zdigits2 (Z.pos (mx * my))) by (apply digits_ge; [lia|]; rewrite Pos2Z.inj_mul; nia). lia.
    + cbn [located]. rewrite Z.mul_1_l. reflexivity.
    + destruct R as [R|R]; [left; exact R|right; eexists; exact R].
Qed.

(** ** Rounding is monotone; in particular the nearest double (even in case of a tie) is unique *)
Lemma between_pos : forall b m e m' e', b <= -1074 -> 0 <= m < 2 ^ 53 -> -1074 <= e <= 971 -> (2 ^ 52 <= m \/ e = -1074) -> Z.even m = true ->
  0 < m' < 2 ^ 53 -> -1074 <= e' <= 971 -> Z.even m' = true -> m * 2 ^ (e - b) < m' * 2 ^ (e' - b) ->
  exists w, udouble b w /\ m * 2 ^ (e - b) < w < m' * 2 ^ (e' - b).
Proof.
  intros b m e m' e' B M E Cn Ev M' E' Ev' L.
  assert (P0 : forall k, 0 <= k -> 0 < 2 ^ k) by (intros; apply Z.pow_pos_nonneg; lia).
  pose proof (P0 (e - b) ltac:(lia)) as Pe.
  assert (M1 : m <> 2 ^ 53 - 1) by (intros ->; discriminate).
  exists ((m + 1) * 2 ^ (e - b)). split; [exists (m + 1), e; split; [exact E|]; split; [lia|reflexivity]|]. split; [nia|].
  apply Z.nle_gt. intros H. destruct (Z_le_gt_dec e e') as [C|C].
  - assert (X : 2 ^ (e' - b) = 2 ^ (e' - e) * 2 ^ (e - b)) by (rewrite <- Z.pow_add_r by lia; f_equal; lia).
    rewrite X in L, H. assert (Y : m' * 2 ^ (e' - e) = m + 1) by nia.
    assert (Z.even (m' * 2 ^ (e' - e)) = false) by (rewrite Y, Z.even_add, Ev; reflexivity).
    rewrite Z.even_mul, Ev' in H0. discriminate.
  - destruct Cn as [Cn|Cn]; [|lia].
    assert (X : 2 * 2 ^ (e' - b) <= 2 ^ (e - b)).
    { rewrite <- Z.pow_succ_r by lia. apply Z.pow_le_mono_r; lia. }
    pose proof (P0 (e' - b) ltac:(lia)). assert (m' * 2 ^ (e' - b) <= 2 ^ 53 * 2 ^ (e' - b)) by nia.
    change (2 ^ 53) with (2 ^ 52 * 2) in H1. nia.
Qed.

Lemma between_even : forall b f g, b <= -1074 -> finite_float f -> finite_float g -> Z.even (mantissa f) = true -> Z.even (mantissa g) = true ->
  units b g < units b f -> exists w, udouble b w /\ units b g < w < units b f.
Proof.
  intros b f g B Ff Fg Ef Eg L.
  assert (P0 : forall k, 0 <= k -> 0 < 2 ^ k) by (intros; apply Z.pow_pos_nonneg; lia).
  destruct f as [sf|sf| |sf mf ef], g as [sg|sg| |sg mg eg]; cbn in Ff, Fg; try contradiction; cbn [mantissa] in Ef, Eg; cbn [units] in L |- *.
  - lia.
  - destruct sg; [|pose proof (P0 (eg - b) ltac:(lia)); nia].
    destruct (between_pos b 0 (-1074) (Z.pos mg) eg B ltac:(lia) ltac:(lia) ltac:(lia) eq_refl ltac:(lia) ltac:(lia) Eg) as [w [W H]];
      [pose proof (P0 (eg - b) ltac:(lia)); nia|].
    exists (- w). split; [now apply udouble_opp|]. lia.
  - destruct sf; [pose proof (P0 (ef - b) ltac:(lia)); nia|].
    destruct (between_pos b 0 (-1074) (Z.pos mf) ef B ltac:(lia) ltac:(lia) ltac:(lia) eq_refl ltac:(lia) ltac:(lia) Ef) as [w [W H]];
      [pose proof (P0 (ef - b) ltac:(lia)); nia|].
    exists w. split; [exact W|]. lia.
  - pose proof (P0 (ef - b) ltac:(lia)). pose proof (P0 (eg - b) ltac:(lia)). destruct sf, sg.
    + destruct (between_pos b (Z.pos mf) ef (Z.pos mg) eg B ltac:(lia) ltac:(lia) ltac:(lia) Ef ltac:(lia) ltac:(lia) Eg ltac:(lia)) as [w [W H1]].
      exists (- w). split; [now apply udouble_opp|]. lia.
    + nia.
    + exists 0. split; [apply udouble_0|]. nia.
    + destruct (between_pos b (Z.pos mg) eg (Z.pos mf) ef B ltac:(lia) ltac:(lia) ltac:(lia) Eg ltac:(lia) ltac:(lia) Ef ltac:(lia)) as [w [W H1]].
      exists w. split; [exact W|]. lia.
Qed.

Lemma unearest_mono : forall b p q f p' q' g, b <= -1074 -> 0 < q -> 0 < q' -> p * q' <= p' * q ->
  unearest b p q f -> unearest b p' q' g -> units b f <= units b g.
Proof.
  intros b p q f p' q' g B Q Q' H [Ff [Nf _]] [Fg [Ng _]]. apply Z.nlt_ge. intros L.
  destruct (Nf _ (units_udouble b g Fg)) as [Af Tf]. destruct (Ng _ (units_udouble b f Ff)) as [Ag Tg].
  set (F := units b f) in *. set (G := units b g) in *.
  assert (X : (F + G) * q <= 2 * p) by nia. assert (Y : 2 * p' <= (F + G) * q') by nia.
  assert (X' : (F + G) * q * q' <= 2 * p * q') by nia. assert (Y' : 2 * p' * q <= (F + G) * q' * q) by nia.
  assert (Ep : 2 * p = (F + G) * q) by nia. assert (Ep' : 2 * p' = (F + G) * q') by nia.
  assert (Sq : (F - G) * q = 2 * (F * q - p) /\ (F - G) * q' = 2 * (F * q' - p')) by lia.
  destruct (Tf ltac:(nia)) as [E|Ef]; [lia|]. destruct (Tg ltac:(nia)) as [E|Eg]; [lia|].
  destruct (between_even b f g B Ff Fg Ef Eg L) as [w [W [W1 W2]]]. fold F in W2. fold G in W1.
  destruct (Nf w W) as [Aw _]. clear - Aw W1 W2 Ep Q.
  assert (w * q < F * q) by nia. assert (G * q < w * q) by nia. lia.
Qed.
