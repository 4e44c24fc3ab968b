(** * CostProofs: estimated costs *)
From Coq Require Import QArith Qabs Qround Qpower Lqa Floats.SpecFloat.
From Verif Require Import Py PyFacts PyFloat StateFacts Constraint Distribution DiceModel Expr Parser Interp FloatFacts FloatProofs SpecDice SpecAlgebra SpecProgram SpecInterp SpecCalls SpecProb SpecCost
  NotationFacts DiceProofs WfFacts CallFacts CallProofs ReadProofs StateProofs ProbProofs.
Local Open Scope Z_scope.

Notation U := (units (-1074)).

(** ** There is only one nearest float *)
Lemma even_float : forall v, is_even_double v -> exists f, finite_float f /\ Z.even (mantissa f) = true /\ (v == U f # Kp)%Q.
Proof.
  intros v [m [e [M [E [C [Ev H]]]]]]. destruct m as [|m|m].
  - exists (S754_zero false). split; [exact Logic.I|]. split; [reflexivity|]. rewrite H. cbn [units]. unfold Qeq, Qmult. cbn [inject_Z Qnum Qden]. now rewrite Z.mul_0_l.
  - exists (S754_finite false m e). split; [cbn; lia|]. split; [exact Ev|]. rewrite H, pow_units by lia. reflexivity.
  - exists (S754_finite true m e). split; [cbn; lia|]. split; [exact Ev|]. rewrite H, pow_units by lia. reflexivity.
Qed.

Lemma nearest_both : forall x v w, is_even_double v -> is_even_double w -> (v < w)%Q -> (Qabs (v - x) == Qabs (w - x))%Q ->
  exists y, is_double y /\ (Qabs (y - x) < Qabs (v - x))%Q.
Proof.
  intros x v w Ev Ew L Eq. destruct (even_float v Ev) as [f [Ff [Mf Hf]]]. destruct (even_float w Ew) as [g [Fg [Mg Hg]]].
  assert (Lu : U f < U g) by (rewrite Hf, Hg in L; unfold Qlt in L; cbn [Qnum Qden] in L; nia).
  destruct (between_even (-1074) g f ltac:(lia) Fg Ff Mg Mf Lu) as [u [Du [L1 L2]]]. exists (u # Kp). split; [apply double_units; exists u; split; [exact Du|reflexivity]|].
  assert (Q1 : (v < u # Kp)%Q) by (rewrite Hf; unfold Qlt; cbn [Qnum Qden]; nia).
  assert (Q2 : (u # Kp < w)%Q) by (rewrite Hg; unfold Qlt; cbn [Qnum Qden]; nia).
  set (y := (u # Kp)%Q) in *. clearbody y. clear - L Eq Q1 Q2.
  revert Eq. apply (Qabs_case (v - x)); intros A; apply (Qabs_case (w - x)); intros B Eq; apply (Qabs_case (y - x)); intros C; lra.
Qed.

Lemma nearest_unique : forall x f g v w, nearest x f -> nearest x g -> fvalue f = Some v -> fvalue g = Some w -> (v == w)%Q.
Proof.
  intros x f g v w [v' [Ev [Dv Nv]]] [w' [Ew [Dw Nw]]] Hv Hw. rewrite Hv in Ev. injection Ev as <-. rewrite Hw in Ew. injection Ew as <-.
  destruct (Nv w Dw) as [A T]. destruct (Nw v Dv) as [B T']. assert (Eq : (Qabs (v - x) == Qabs (w - x))%Q) by (apply Qle_antisym; assumption).
  destruct (T Eq) as [E|Ev]; [symmetry; exact E|]. destruct (T' (Qeq_sym _ _ Eq)) as [E|Ew]; [exact E|].
  destruct (Q_dec v w) as [[L|L]|E]; [exfalso|exfalso|exact E].
  - destruct (nearest_both x v w Ev Ew L Eq) as [y [Dy Ly]]. destruct (Nv y Dy) as [X _]. lra.
  - destruct (nearest_both x w v Ew Ev L (Qeq_sym _ _ Eq)) as [y [Dy Ly]]. destruct (Nw y Dy) as [X _]. lra.
Qed.

Lemma nearest_ext : forall x x' f, (x == x')%Q -> nearest x f -> nearest x' f.
Proof.
  intros x x' f E [v [Ev [D N]]]. exists v. split; [exact Ev|]. split; [exact D|]. intros y Y. destruct (N y Y) as [A T].
  assert (P : forall z, (Qabs (z - x) == Qabs (z - x'))%Q) by (intros z; apply Qabs_wd, Qplus_comp; [reflexivity|]; now apply Qopp_comp).
  pose proof (P v) as Pv. pose proof (P y) as Py. split; [lra|]. intros Q. apply T. lra.
Qed.
Lemma too_large_ext : forall x x', (x == x')%Q -> too_large x -> too_large x'.
Proof. intros x x' E T. unfold too_large in *. pose proof (Qabs_wd _ _ E). lra. Qed.

(** ** The product with 1.1 *)
Lemma f1_1_finite : finite_float f1_1 /\ 2 ^ 52 <= mantissa f1_1.
Proof. split; [|vm_compute; discriminate]. split; [split; [reflexivity|left; vm_compute; discriminate]|split; vm_compute; discriminate]. Qed.
Lemma f1_1_value : exists z, fvalue f1_1 = Some z /\ one_point_one z /\ (z == U f1_1 # Kp)%Q.
Proof.
  destruct (fvalue_units f1_1 (proj1 f1_1_finite)) as [z [Ez Hz]]. exists z. split; [exact Ez|]. split; [|exact Hz]. exists f1_1. split; [|exact Ez].
  destruct (int_truediv_spec (-1074) 11 10 ltac:(lia) ltac:(lia)) as [[f [E [Un _]]]|[E _]]; [|vm_compute in E; discriminate].
  assert (f = f1_1) as -> by (vm_compute in E; injection E as <-; reflexivity).
  apply (nearest_of _ 10 f1_1 _ ltac:(lia) Un). change (2 ^ - -1074) with (2 ^ 1074). rewrite K_eq.
  unfold Qeq. cbn [Qnum Qden]. rewrite Pos2Z.inj_mul, Kp_eq. change (Z.pos (Z.to_pos 10)) with 10. ring.
Qed.

Lemma integer_units : forall c, (inject_Z c == (c * K) # (Z.to_pos 1 * Kp))%Q.
Proof. intros c. unfold Qeq. cbn [inject_Z Qnum Qden Z.to_pos]. rewrite Pos.mul_1_l, Kp_eq. lia. Qed.

Lemma rebase : forall p f, unearest (-2148) p 1 f -> unearest (-1074) p K f.
Proof.
  intros p f [F [N E]]. pose proof K_pos as K0.
  assert (Pw : forall e, -1074 <= e -> 2 ^ (e - -2148) = 2 ^ (e - -1074) * K).
  { intros e He. replace (e - -2148) with ((e - -1074) + 1074) by lia. now rewrite Z.pow_add_r, K_eq by lia. }
  assert (Ku : units (-2148) f = U f * K).
  { destruct f as [s|s| |s m e]; cbn in F; try contradiction; cbn [units]; [lia|]. rewrite Pw by lia. ring. }
  rewrite Ku, Z.mul_1_r in *. split; [exact F|]. split.
  - intros w [m [e [He [Hm ->]]]].
    assert (W : udouble (-2148) (m * 2 ^ (e - -1074) * K)) by (exists m, e; split; [exact He|]; split; [exact Hm|]; rewrite Pw by lia; ring).
    destruct (N _ W) as [A T]. rewrite Z.mul_1_r in *. split; [exact A|]. intros Eq. destruct (T Eq) as [X|X]; [left; nia|now right].
  - change (-1074 - -1074) with 0. rewrite Z.pow_0_r. change (-1074 - -2148) with 1074 in E. rewrite K_eq in E. lia.
Qed.
Lemma rebase_overflow : forall p, overflows (-2148) p 1 <-> overflows (-1074) p K.
Proof.
  intros p. unfold overflows. change (971 - -2148) with (1074 + (971 - -1074)). rewrite Z.pow_add_r, K_eq by lia. now rewrite Z.mul_1_l.
Qed.

Lemma too_large_of : forall p q x, 0 < q -> (x == p # (Z.to_pos q * Kp))%Q -> (too_large x <-> overflows (-1074) p q).
Proof.
  intros p q x Q H. pose proof (too_large_units p (q * K)) as T. pose proof K_pos as K0. specialize (T ltac:(nia)).
  assert (E : (inject_Z p / inject_Z (q * K) == x)%Q).
  { rewrite frac_pos by nia. rewrite H. unfold Qeq. cbn [Qnum Qden]. rewrite Pos2Z.inj_mul, Kp_eq, !Z2Pos.id by nia. reflexivity. }
  transitivity (too_large (inject_Z p / inject_Z (q * K))).
  - split; apply too_large_ext; [now symmetry|exact E].
  - rewrite T. unfold overflows. assert (0 < 2 ^ (971 - -1074)) by (apply Z.pow_pos_nonneg; lia). set (t := 2 ^ (971 - -1074)) in *. clearbody t.
    rewrite Z.abs_mul, (Z.abs_eq K) by lia. set (a := Z.abs p). clearbody a. set (c := 2 ^ 54 - 1). clearbody c.
    replace (c * (q * K * t)) with (c * (q * t) * K) by ring. nia.
Qed.

Lemma ffloor_value : forall f v, finite_float f -> fvalue f = Some v -> ffloor f = Ok (Qfloor v).
Proof.
  intros [s|s| |s m e] v F E; cbn in F; try contradiction; cbn [fvalue] in E; injection E as <-; [reflexivity|]. unfold ffloor. f_equal.
  set (z := if s then Z.neg m else Z.pos m). destruct (Z.leb_spec 0 e) as [L|L].
  - assert (X : (inject_Z z * 2 ^ e == inject_Z (z * 2 ^ e))%Q) by (rewrite inject_Z_mult, (Zpower_Qpower 2 e) by lia; reflexivity).
    rewrite X. now rewrite Qfloor_Z.
  - assert (X : (inject_Z z * 2 ^ e == inject_Z z / inject_Z (2 ^ (- e)))%Q).
    { replace e with (- (- e)) at 1 by lia. rewrite Qpower_opp, (Zpower_Qpower 2 (- e)) by lia. reflexivity. }
    rewrite X, frac_pos by (apply Z.pow_pos_nonneg; lia). cbn [Qfloor]. rewrite Z2Pos.id by (apply Z.pow_pos_nonneg; lia). reflexivity.
Qed.

(** the two roundings *)
Lemma not_cost_cases : forall c,
  (exists f g r, not_cost c = Ok r /\ unearest (-1074) (c * K) 1 f /\ ~ overflows (-1074) (c * K) 1 /\
     unearest (-1074) (U f * U f1_1) K g /\ ~ overflows (-1074) (U f * U f1_1) K /\ ffloor g = Ok r) \/
  (not_cost c = Raise OverflowError /\
     (overflows (-1074) (c * K) 1 \/ exists f, unearest (-1074) (c * K) 1 f /\ ~ overflows (-1074) (c * K) 1 /\ overflows (-1074) (U f * U f1_1) K)).
Proof.
  intros c. unfold not_cost. destruct (float_of_Z_spec (-1074) c ltac:(lia)) as [[f [E [Un Ov]]]|[E Ov]]; rewrite E; cbn [rbind];
    change (2 ^ - -1074) with (2 ^ 1074) in *; rewrite K_eq in *.
  - destruct (fmul_spec (-2148) f f1_1 ltac:(lia) (proj1 Un) (proj2 f1_1_finite) (proj1 f1_1_finite)) as [[Um Om]|[s [Em Om]]];
      change (-2148 - -2148) with 0 in *; rewrite Z.pow_0_r, Z.mul_1_r in *.
    + left. apply rebase in Um. destruct (fvalue_units _ (proj1 Um)) as [y [Ey _]]. pose proof (ffloor_value _ _ (proj1 Um) Ey) as Ef.
      exists f, (fmul f f1_1), (Qfloor y). rewrite <- rebase_overflow. repeat (split; [assumption|]). assumption.
    + right. rewrite Em. split; [reflexivity|]. right. exists f. rewrite <- rebase_overflow. repeat (split; [assumption|]). assumption.
  - right. auto.
Qed.

Lemma product_units : forall a b x z, (x == a # Kp)%Q -> (z == b # Kp)%Q -> (x * z == (a * b) # (Z.to_pos K * Kp))%Q.
Proof. intros a b x z -> ->. unfold Qeq, Qmult. cbn [Qnum Qden]. reflexivity. Qed.

Lemma product_of : forall c f x, unearest (-1074) (c * K) 1 f -> float_product c x -> (x == (U f * U f1_1) # (Z.to_pos K * Kp))%Q.
Proof.
  intros c f x Uf [f0 [y [z [Nf [Ey [[p [Np Ep]] ->]]]]]]. destruct f1_1_value as [z1 [_ [[p1 [Np1 Ep1]] Hz1]]].
  pose proof (nearest_unique _ _ _ _ _ Np Np1 Ep Ep1) as Zz. destruct (fvalue_units f (proj1 Uf)) as [y' [Ey' Hy']].
  assert (Nf' : nearest (inject_Z c) f) by (apply (nearest_of _ 1 f _ ltac:(lia) Uf), integer_units).
  pose proof (nearest_unique _ _ _ _ _ Nf Nf' Ey Ey') as Yy. apply product_units; [now rewrite Yy|now rewrite Zz].
Qed.
Lemma product_exists : forall c f, unearest (-1074) (c * K) 1 f -> exists x, float_product c x.
Proof.
  intros c f Uf. destruct (fvalue_units f (proj1 Uf)) as [y [Ey _]]. destruct f1_1_value as [z [_ [Oz _]]].
  exists (y * z)%Q, f, y, z. split; [apply (nearest_of _ 1 f _ ltac:(lia) Uf), integer_units|]. auto.
Qed.

Lemma not_cost_ok : forall c r, not_cost c = Ok r -> increased c r.
Proof.
  intros c r E. destruct (not_cost_cases c) as [[f [g [r' [E' [Uf [Of [Ug [Og Ef]]]]]]]]|[E' _]]; [|congruence]. rewrite E in E'. injection E' as <-.
  pose proof (too_large_of (c * K) 1 _ ltac:(lia) (integer_units c)) as Tc. split; [now rewrite Tc|].
  destruct (product_exists c f Uf) as [x Px]. pose proof (product_of c f x Uf Px) as Hx. pose proof (too_large_of _ K x K_pos Hx) as Tx.
  destruct (fvalue_units g (proj1 Ug)) as [y [Ey _]]. exists x, g, y. split; [exact Px|]. split; [now rewrite Tx|].
  split; [exact (nearest_of _ K g x K_pos Ug Hx)|]. split; [exact Ey|].
  rewrite (ffloor_value g y (proj1 Ug) Ey) in Ef. now injection Ef.
Qed.
Lemma not_cost_fails : forall c x, not_cost c = Raise x -> x = OverflowError /\ cannot_increase c.
Proof.
  intros c x E. destruct (not_cost_cases c) as [[f [g [r' [E' _]]]]|[E' H]]; [congruence|]. rewrite E in E'. injection E' as ->. split; [reflexivity|].
  destruct H as [H|[f [Uf [_ Ox]]]]; [left; now apply (too_large_of (c * K) 1 _ ltac:(lia) (integer_units c))|right].
  destruct (product_exists c f Uf) as [x Px]. exists x. split; [exact Px|]. apply (too_large_of _ K x K_pos (product_of c f x Uf Px)). exact Ox.
Qed.
Lemma product_unique : forall c x x', float_product c x -> float_product c x' -> (x == x')%Q.
Proof.
  intros c x x' [f [y [z [Nf [Ey [[p [Np Ep]] ->]]]]]] [f' [y' [z' [Nf' [Ey' [[p' [Np' Ep']] ->]]]]]].
  rewrite (nearest_unique _ _ _ _ _ Nf Nf' Ey Ey'), (nearest_unique _ _ _ _ _ Np Np' Ep Ep'). reflexivity.
Qed.
Lemma increased_unique : forall c r r', increased c r -> increased c r' -> r = r'.
Proof.
  intros c r r' [_ [x [g [y [Px [_ [Ng [Ey ->]]]]]]]] [_ [x' [g' [y' [Px' [_ [Ng' [Ey' ->]]]]]]]].
  pose proof (nearest_ext _ _ _ (product_unique c x x' Px Px') Ng) as N. now rewrite (nearest_unique _ _ _ _ _ N Ng' Ey Ey').
Qed.
Lemma increased_or_not : forall c r, increased c r -> ~ cannot_increase c.
Proof.
  intros c r [A [x [g [y [Px [T _]]]]]] [B|[x' [Px' B]]]; [contradiction|]. apply T. exact (too_large_ext _ _ (product_unique c x' x Px' Px) B).
Qed.
Lemma not_cost_increased : forall c r, not_cost c = Ok r <-> increased c r.
Proof.
  intros c r. split; [apply not_cost_ok|]. intros I. destruct (not_cost c) as [r'|x] eqn:E.
  - f_equal. exact (increased_unique c r' r (not_cost_ok c r' E) I).
  - exfalso. exact (increased_or_not c r I (proj2 (not_cost_fails c x E))).
Qed.
Lemma not_cost_raises : forall c x, not_cost c = Raise x <-> x = OverflowError /\ cannot_increase c.
Proof.
  intros c x. split; [apply not_cost_fails|]. intros [-> C]. destruct (not_cost c) as [r|y] eqn:E.
  - exfalso. exact (increased_or_not c r (not_cost_ok c r E) C).
  - f_equal. exact (proj1 (not_cost_fails c y E)).
Qed.

(** ** How large it is *)
Lemma floor_units : forall g r, finite_float g -> ffloor g = Ok r -> r * K <= U g < (r + 1) * K.
Proof.
  intros g r F E. destruct (fvalue_units g F) as [y [Ey Hy]]. rewrite (ffloor_value g y F Ey) in E. injection E as <-.
  pose proof (Qle_trans _ _ _ (Qfloor_le y) (proj2 (Qle_lteq _ _) (or_intror Hy))) as A.
  pose proof (Qle_lt_trans _ _ _ (proj2 (Qle_lteq _ _) (or_intror (Qeq_sym _ _ Hy))) (Qlt_floor y)) as B. unfold Qle in A. unfold Qlt in B. cbn [inject_Z Qnum Qden] in *.
  rewrite !Z.mul_1_r, Kp_eq in *. split; [exact A|exact B].
Qed.

Lemma u1_1 : 10 * (2 ^ 52 * U f1_1) = (11 * 2 ^ 52 + 4) * K.
Proof.
  cbn [units f1_1]. assert (X : K = 2 ^ 52 * 2 ^ (-52 - -1074)) by (rewrite <- K_eq, <- Z.pow_add_r by lia; f_equal).
  rewrite X. set (t := 2 ^ (-52 - -1074)). clearbody t. change (2 ^ 52) with 4503599627370496. lia.
Qed.

Lemma not_cost_at_least : forall c r, 0 <= c -> not_cost c = Ok r -> c <= r.
Proof.
  intros c r C E. destruct (not_cost_cases c) as [[f [g [r' [E' [Uf [Of [Ug [Og Ef]]]]]]]]|[E' _]]; [|congruence]. rewrite E in E'. injection E' as <-.
  pose proof (floor_units g r (proj1 Ug) Ef) as [_ L]. pose proof u1_1 as X. pose proof K_pos as K0.
  assert (F0 : 0 <= U f) by (apply (unearest_ge (-1074) (c * K) 1 f 0 ltac:(lia) Uf (udouble_0 _)); nia).
  destruct Uf as [_ [_ Ea]]. destruct Ug as [_ [_ Eb]]. change (1 * 2 ^ (-1074 - -1074)) with 1 in Ea. change (2 ^ (-1074 - -1074)) with 1 in Eb.
  rewrite Z.mul_1_r in Ea, Eb. set (a := U f) in *. set (u := U f1_1) in *. set (b := U g) in *. clearbody a u b. clear f g E Ef Of Og.
  assert (U1 : 11 * K <= 10 * u) by (change (2 ^ 52) with 4503599627370496 in X; lia). clear X. pose proof K_big as Kb. change (2 ^ 60) with 1152921504606846976 in Kb.
  destruct (Z.eq_dec c 0) as [->|Nc].
  { assert (0 <= b); [|nia]. assert (0 <= a * u) by nia. rewrite (Z.abs_eq (a * u)) in Eb by lia. change (2 ^ 53) with 9007199254740992 in *.
    clear Ea. destruct (Z.le_gt_cases 0 b); [assumption|exfalso]. assert (b * K <= - K) by nia. lia. }
  assert (A1 : 9007199254740992 * a >= 9007199254740991 * (c * K)).
  { change (2 ^ 53) with 9007199254740992 in Ea. assert (0 < c * K) by nia. lia. }
  assert (B1 : 9007199254740992 * (b * K) >= 9007199254740991 * (a * u)).
  { change (2 ^ 53) with 9007199254740992 in Eb. assert (0 <= a * u) by nia. rewrite (Z.abs_eq (a * u)) in Eb by lia. destruct Eb as [Eb|Eb]; [lia|].
    assert (Ck : K <= c * K) by nia. assert (A2 : K <= 2 * a) by lia. assert (A3 : K * u <= 2 * a * u) by (apply Z.mul_le_mono_nonneg_r; lia).
    assert (A4 : K * K <= K * u) by (apply Z.mul_le_mono_nonneg_l; lia). assert (A5 : 1152921504606846976 * K <= K * K) by (apply Z.mul_le_mono_nonneg_r; lia).
    rewrite <- Z.mul_assoc in A3. lia. }
  assert (C1 : 9007199254740992 * (10 * (b * K)) >= 9007199254740991 * (11 * (a * K))).
  { assert (a * (11 * K) <= a * (10 * u)) by (apply Z.mul_le_mono_nonneg_l; lia). lia. }
  assert (D1 : 9007199254740992 * (10 * b) >= 9007199254740991 * (11 * a)).
  { apply Z.le_ge. apply (Z.mul_le_mono_pos_r _ _ K K0). lia. }
  assert (c * K <= b) by lia. nia.
Qed.

(** for costs up to 2^48: exactly eleven tenths, rounded down *)
Lemma not_cost_small : forall c, 0 <= c <= 2 ^ 48 -> not_cost c = Ok (11 * c / 10).
Proof.
  intros c C. change (2 ^ 48) with 281474976710656 in C. pose proof K_pos as K0. pose proof K_big as Kb. change (2 ^ 60) with 1152921504606846976 in Kb. pose proof u1_1 as X.
  assert (Dc : forall z, Z.abs z < 2 ^ 53 -> udouble (-1074) (z * K)).
  { intros z Z. exists z, 0. split; [lia|]. split; [exact Z|]. rewrite <- K_eq. f_equal. }
  destruct (not_cost_cases c) as [[f [g [r' [E' [Uf [Of [Ug [Og Ef]]]]]]]]|[E' H]].
  - assert (Ea : U f = c * K).
    { apply (unearest_exact (-1074) 1 f (c * K) ltac:(lia)); [rewrite Z.mul_1_r; exact Uf|]. apply Dc. change (2 ^ 53) with 9007199254740992. lia. }
    rewrite Ea in Ug. clear Uf Of Og Ea. rewrite E'. f_equal. pose proof (floor_units g r' (proj1 Ug) Ef) as [L1 L2].
    change (2 ^ 52) with 4503599627370496 in X. set (k := 11 * c / 10). assert (Hk : 10 * k <= 11 * c < 10 * k + 10) by (unfold k; pose proof (Z.div_mod (11 * c) 10); pose proof (Z.mod_pos_bound (11 * c) 10); lia).
    clearbody k.
    assert (G1 : k * K <= U g).
    { apply (unearest_ge (-1074) (c * K * U f1_1) K g (k * K) K0 Ug); [apply Dc; change (2 ^ 53) with 9007199254740992; lia|]. set (u := U f1_1) in *. clearbody u.
      assert (10 * u >= 11 * K) by lia. assert (k * K <= c * u) by nia. nia. }
    assert (G2 : U g < (k + 1) * K).
    { destruct Ug as [_ [_ Eb]]. change (2 ^ (-1074 - -1074)) with 1 in Eb. rewrite Z.mul_1_r in Eb. change (2 ^ 53) with 9007199254740992 in Eb.
      set (u := U f1_1) in *. set (b := U g) in *. clearbody u b. clear - C Hk X Eb K0 Kb.
      assert (Pk : c * K * u = c * u * K) by ring. rewrite Pk in Eb. clear Pk.
      assert (P0 : 0 <= c * u) by nia. assert (P1 : 4503599627370496 * (10 * (c * u)) = 49539595901075460 * (c * K)) by nia.
      assert (Q0 : 0 <= c * u * K) by nia. rewrite (Z.abs_eq (c * u * K)) in Eb by exact Q0.
      assert (B : 9007199254740992 * (b * K) <= 9007199254740993 * (c * u * K) \/ 2 * (b * K) <= 2 * (c * u * K) + K) by lia.
      assert (B' : 9007199254740992 * b <= 9007199254740993 * (c * u) \/ 2 * b <= 2 * (c * u) + 1) by (destruct B; [left|right]; nia).
      assert (Ck : 10 * (c * K) <= 10 * (281474976710656 * K)) by nia. assert (Hk' : 11 * (c * K) <= 10 * (k * K) + 9 * K) by nia.
      rewrite Z.mul_add_distr_r, Z.mul_1_l. lia. }
    nia.
  - exfalso. destruct H as [H|[f [Uf [_ H]]]].
    + revert H. apply no_overflow_small; [lia|]. change (2 ^ 60) with 1152921504606846976. rewrite Z.abs_eq by nia. nia.
    + assert (Ea : U f = c * K).
      { apply (unearest_exact (-1074) 1 f (c * K) ltac:(lia)); [rewrite Z.mul_1_r; exact Uf|]. apply Dc. change (2 ^ 53) with 9007199254740992. lia. }
      rewrite Ea in H. revert H. apply no_overflow_small; [lia|]. change (2 ^ 60) with 1152921504606846976. change (2 ^ 52) with 4503599627370496 in X.
      set (u := U f1_1) in *. clearbody u. assert (0 <= u <= 2 * K) by lia. rewrite Z.abs_eq by nia. nia.
Qed.

(** ** The sides of a die *)
Lemma mk_dice_sides : forall form d, mk_dice form = Ok d -> NoDup (map fst (dice_map d)).
Proof.
  intros form d H. unfold mk_dice in H. destruct (rbind (index _ 1) get_single_dice_outcome_map) as [m|] eqn:E; [|discriminate].
  destruct (number_of_dice _); [|discriminate]. cbn [rbind] in H. inversion H; subst. cbn [dice_map]. unfold rbind in E. destruct (index _ 1) as [t|]; [|discriminate].
  now apply single_map_natural in E.
Qed.
Lemma mk_dropkeep_sides : forall form dk, mk_dropkeep form = Ok dk -> NoDup (map fst (dk_map dk)).
Proof.
  intros form dk H. unfold mk_dropkeep in H. repeat match type of H with rbind ?r _ = Ok _ => destruct r eqn:?; [|discriminate]; cbn [rbind] in H end.
  inversion H; subst. cbn [dk_map]. match goal with E : get_single_dice_outcome_map _ = Ok _ |- _ => now apply single_map_natural in E end.
Qed.
Lemma sides_count : forall m sides, NoDup (map fst m) -> lists_sides m sides -> length sides = length m.
Proof.
  intros m sides N [N' H]. rewrite <- (map_length fst m). apply Nat.le_antisymm; apply NoDup_incl_length; auto; intros v I; now apply H.
Qed.

Section Laws.
  Context (R : Runtime).

  Lemma cost_line : forall t e s, parse t = Ok e -> get_estimated_cost R [t] s = cost_of R e s.
  Proof.
    intros t e s P. unfold get_estimated_cost. cbn [cost_from]. unfold bind, lift, ret. rewrite P. destruct (cost_of R e s) as [s1 [c|x]]; [|reflexivity].
    now rewrite Z.add_0_l.
  Qed.
  Lemma cost_lines : forall t e lines s, parse t = Ok e -> get_estimated_cost R (t :: lines) s =
    then_call R (cost_of R e s) (fun s1 c1 => then_call R (get_estimated_cost R lines s1) (fun s2 c2 => (s2, Ok (c1 + c2)))).
  Proof. intros t e lines s P. change (t :: lines) with ([t] ++ lines). rewrite cost_pieces, (cost_line t e s P). reflexivity. Qed.

  Lemma cost_operands : forall t e a b ta tb s, parse t = Ok e -> operands e = Some (a, b) -> parse ta = Ok a -> parse tb = Ok b ->
    get_estimated_cost R [t] s = get_estimated_cost R [ta; tb] s.
  Proof.
    intros t e a b ta tb s P O Pa Pb. rewrite (cost_line t e s P), (cost_lines ta a [tb] s Pa).
    assert (C : cost_of R e s = cost_sum R (cost_of R a) (cost_of R b) s) by (destruct e; try discriminate; inversion O; subst; reflexivity).
    rewrite C. unfold cost_sum, bind, ret. destruct (cost_of R a s) as [s1 [c|x]]; [|reflexivity]. cbn [then_call]. rewrite (cost_line tb b s1 Pb). now destruct (cost_of R b s1) as [s2 [c2|x]].
  Qed.
  Lemma cost_inside : forall t e a ta s, parse t = Ok e -> inside e = Some a -> parse ta = Ok a -> get_estimated_cost R [t] s = get_estimated_cost R [ta] s.
  Proof. intros t e a ta s P I Pa. rewrite (cost_line t e s P), (cost_line ta a s Pa). destruct e; inversion I; subst; reflexivity. Qed.

  Lemma cost_assignment : forall t n a ta s, parse t = Ok (EAssign n a) -> parse ta = Ok a ->
    (forall s1 c, get_estimated_cost R [ta] s = (s1, Ok c) -> exists s2, get_estimated_cost R [t] s = (s2, Ok (c + 2)) /\ stored R n c s1 s2) /\
    (forall s1 x, get_estimated_cost R [ta] s = (s1, Raise x) -> get_estimated_cost R [t] s = (s1, Raise x)).
  Proof.
    intros t n a ta s P Pa. rewrite (cost_line _ _ s P), (cost_line _ _ s Pa). cbn [cost_of]. unfold bind, set_const_m, ret. split; intros s1 c ->; [|reflexivity].
    exists (set_constant R n c s1). split; [now rewrite Z.add_comm|]. split; [apply const_same|]. split; [intros m M; now apply const_other|reflexivity].
  Qed.

  Lemma cost_not : forall t a ta s s', parse t = Ok (ENot a) -> parse ta = Ok a ->
    (forall r, get_estimated_cost R [t] s = (s', Ok r) <-> exists c, get_estimated_cost R [ta] s = (s', Ok c) /\ increased c r) /\
    (forall x, get_estimated_cost R [t] s = (s', Raise x) <->
       get_estimated_cost R [ta] s = (s', Raise x) \/ exists c, get_estimated_cost R [ta] s = (s', Ok c) /\ cannot_increase c /\ x = OverflowError).
  Proof.
    intros t a ta s s' P Pa. rewrite (cost_line _ _ s P), (cost_line _ _ s Pa). cbn [cost_of]. unfold bind, lift. destruct (cost_of R a s) as [s1 [c|y]].
    - split.
      + intros r. split.
        * intros H. inversion H; subst. exists c. split; [reflexivity|]. now apply not_cost_increased.
        * intros [c' [E I]]. inversion E; subst. apply not_cost_increased in I. now rewrite I.
      + intros x. split.
        * intros H. inversion H; subst. right. exists c. split; [reflexivity|]. match goal with H : not_cost _ = Raise _ |- _ => apply not_cost_raises in H; tauto end.
        * intros [E|[c' [E [I ->]]]]; [discriminate|]. inversion E; subst. f_equal. now apply not_cost_raises.
    - split.
      + intros r. split; [discriminate|]. intros [c [E _]]. discriminate.
      + intros x. split; [auto|]. intros [E|[c [E _]]]; [exact E|discriminate].
  Qed.

  Lemma cost_constant : forall t e s, parse t = Ok e -> (exists n, e = EInt n) \/ (exists b, e = EBool b) -> get_estimated_cost R [t] s = (s, Ok 2).
  Proof. intros t e s P [[n ->]|[b ->]]; now rewrite (cost_line _ _ s P). Qed.
  Lemma cost_variable : forall t n s, parse t = Ok (EVar n) ->
    get_estimated_cost R [t] s = (s, match constant R s n with Some v => Ok v | None => Raise KeyError end).
  Proof. intros t n s P. now rewrite (cost_line _ _ s P). Qed.
  Lemma cost_dice : forall t d sides s, parse t = Ok (EDice d) -> lists_sides (dice_map d) sides ->
    get_estimated_cost R [t] s = (s, Ok (dice_num d * Z.of_nat (length sides))).
  Proof.
    intros t d sides s P L. rewrite (cost_line _ _ s P). cbn [cost_of]. unfold ret, dice_cost. apply parse_wf in P. destruct P as [[form M] _].
    now rewrite (sides_count (dice_map d) sides (mk_dice_sides form d M) L).
  Qed.
  Lemma cost_of_pool : forall dk sides s, well_formed (EDropKeep dk) -> lists_sides (dk_map dk) sides -> exists c,
    cost_of R (EDropKeep dk) s = (s, Ok c) /\
    (dk_num dk = 0 -> c = if dk_keep dk then 0 else 2) /\
    (0 < dk_num dk -> dice_kept dk = dk_num dk -> c = dk_num dk * Z.of_nat (length sides)) /\
    (0 < dk_num dk -> dice_kept dk = 0 -> c = 2) /\
    (0 < dice_kept dk < dk_num dk -> c = dk_num dk * dice_kept dk * Z.of_nat (length sides)).
  Proof.
    intros dk sides s [[form M] [N K]] L. cbn [cost_of].
    rewrite (sides_count (dk_map dk) sides (mk_dropkeep_sides form dk M) L). destruct (mk_dropkeep_inv form dk M) as [_ I].
    unfold dice_kept, dk_cost_full, dk_selected in *. destruct (dk_keep dk); destruct I as [I1 [I2 I3]]; destruct (Z_le_gt_dec (dk_num dk) (dk_k dk)) as [C|C].
    - destruct (I1 C) as [d [-> [Em En]]]. unfold ret, dice_cost. rewrite Em, En. eexists. split; [reflexivity|]. rewrite Z.min_r by lia. repeat split; intros; lia.
    - destruct (Z.eq_dec (dk_k dk) 0) as [Z|Z].
      + rewrite I2 by lia. eexists. split; [reflexivity|]. rewrite Z.min_l by lia. repeat split; intros; lia.
      + rewrite I3 by lia. eexists. split; [reflexivity|]. rewrite Z.min_l by lia. repeat split; intros; lia.
    - rewrite I1 by lia. eexists. split; [reflexivity|]. rewrite Z.max_l by lia. repeat split; intros; lia.
    - rewrite Z.max_r by lia. destruct (Z.eq_dec (dk_k dk) 0) as [Z|Z].
      + destruct (I2 ltac:(lia) Z) as [d [-> [Em En]]]. unfold ret, dice_cost. rewrite Em, En. eexists. split; [reflexivity|]. repeat split; intros; lia.
      + rewrite I3 by lia. eexists. split; [reflexivity|]. repeat split; intros; lia.
  Qed.
  Lemma cost_pool : forall t dk sides s, parse t = Ok (EDropKeep dk) -> lists_sides (dk_map dk) sides -> exists c,
    get_estimated_cost R [t] s = (s, Ok c) /\
    (dk_num dk = 0 -> c = if dk_keep dk then 0 else 2) /\
    (0 < dk_num dk -> dice_kept dk = dk_num dk -> c = dk_num dk * Z.of_nat (length sides)) /\
    (0 < dk_num dk -> dice_kept dk = 0 -> c = 2) /\
    (0 < dice_kept dk < dk_num dk -> c = dk_num dk * dice_kept dk * Z.of_nat (length sides)).
  Proof. intros t dk sides s P L. rewrite (cost_line _ _ s P). apply cost_of_pool; [now apply parse_wf in P | exact L]. Qed.

  (** ** Costs are not negative *)
  Definition fine (r : state R * res Z) : Prop := no_negatives R (fst r) /\ forall c, snd r = Ok c -> 0 <= c.
  Lemma fine_sum : forall a b s, (forall s, no_negatives R s -> fine (a s)) -> (forall s, no_negatives R s -> fine (b s)) -> no_negatives R s -> fine (cost_sum R a b s).
  Proof.
    intros a b s Ha Hb H. unfold cost_sum, bind, ret. destruct (Ha s H) as [H1 C1]. destruct (a s) as [s1 [c1|x]]; [|split; [exact H1|discriminate]].
    destruct (Hb s1 H1) as [H2 C2]. destruct (b s1) as [s2 [c2|x]]; [|split; [exact H2|discriminate]]. split; [exact H2|]. intros c E. inversion E.
    specialize (C1 c1 eq_refl). specialize (C2 c2 eq_refl). lia.
  Qed.
  Lemma cost_of_fine : forall e, well_formed e -> forall s, no_negatives R s -> fine (cost_of R e s).
  Proof.
    induction e; intros W s H; cbn [well_formed] in W; cbn [cost_of]; try (apply fine_sum; [now apply IHe1|now apply IHe2|exact H]); auto;
      try (split; [exact H|intros c E; inversion E; lia]).
    - specialize (IHe W s H). destruct IHe as [H1 C1]. unfold bind, lift. destruct (cost_of R e s) as [s1 [c1|x]]; [|split; [exact H1|discriminate]].
      split; [exact H1|]. cbn [snd]. intros c E. specialize (C1 c1 eq_refl). pose proof (not_cost_at_least c1 c C1 E). lia.
    - destruct W as [[form M] [N K]]. destruct (mk_dropkeep_inv form d M) as [_ I]. split; [now destruct (dk_simple d) as [[]|]|].
      intros c E. unfold dk_cost_full, dk_selected in E.
      destruct (dk_keep d); destruct I as [I1 [I2 I3]]; destruct (Z_le_gt_dec (dk_num d) (dk_k d)) as [C|C].
      + destruct (I1 C) as [d' [E' [Em En]]]. rewrite E' in E. inversion E. unfold dice_cost. rewrite En. apply Z.mul_nonneg_nonneg; lia.
      + destruct (Z.eq_dec (dk_k d) 0) as [Z|Z]; [rewrite I2 in E by lia; inversion E; lia|]. rewrite I3 in E by lia. inversion E. apply Z.mul_nonneg_nonneg; [apply Z.mul_nonneg_nonneg|]; lia.
      + rewrite I1 in E by lia. inversion E; lia.
      + destruct (Z.eq_dec (dk_k d) 0) as [Z|Z]; [|rewrite I3 in E by lia; inversion E; apply Z.mul_nonneg_nonneg; [apply Z.mul_nonneg_nonneg|]; lia].
        destruct (I2 ltac:(lia) Z) as [d' [E' [Em En]]]. rewrite E' in E. inversion E. unfold dice_cost. rewrite En. apply Z.mul_nonneg_nonneg; lia.
    - split; [exact H|]. intros c E. inversion E. unfold dice_cost. destruct W as [_ W]. apply Z.mul_nonneg_nonneg; lia.
    - destruct W as [_ W]. specialize (IHe W s H). destruct IHe as [H1 C1]. unfold bind, set_const_m, ret. destruct (cost_of R e s) as [s1 [c1|x]]; [|split; [exact H1|discriminate]].
      specialize (C1 c1 eq_refl). split; [|intros c E; cbn [snd] in E; apply Ok_inj in E; lia]. cbn [fst]. intros m v E. destruct (text_eqb m name) eqn:T.
      + apply text_eqb_iff in T. subst m. rewrite const_same in E. inversion E. now subst.
      + rewrite const_other in E; [now apply H1 in E|]. intros ->. rewrite (proj2 (text_eqb_iff name name) eq_refl) in T. discriminate.
    - split; [exact H|]. cbn [snd]. unfold get_constant. intros c E. fold (constant R s name) in E. destruct (constant R s name) as [v|] eqn:V; [|discriminate].
      inversion E; subst. eapply H; eauto.
  Qed.
  Lemma cost_fine : forall lines s, no_negatives R s -> fine (get_estimated_cost R lines s).
  Proof.
    induction lines as [|t lines IH]; intros s H; [split; [exact H|intros c E; inversion E; lia]|].
    destruct (parse t) as [e|x] eqn:P.
    - rewrite (cost_lines t e lines s P). destruct (cost_of_fine e (parse_wf t e P) s H) as [H1 C1]. destruct (cost_of R e s) as [s1 [c1|x]]; [|split; [exact H1|discriminate]].
      cbn [then_call]. destruct (IH s1 H1) as [H2 C2]. destruct (get_estimated_cost R lines s1) as [s2 [c2|x]]; [|split; [exact H2|discriminate]].
      cbn [then_call]. split; [exact H2|]. intros c E. inversion E. specialize (C1 c1 eq_refl). specialize (C2 c2 eq_refl). lia.
    - unfold get_estimated_cost. cbn [cost_from]. unfold bind at 1, lift. rewrite P. split; [exact H|discriminate].
  Qed.
  Lemma empty_no_negatives : no_negatives R (empty_state R).
  Proof. intros n v E. discriminate. Qed.
  Lemma cost_nonneg : forall lines s s' r, no_negatives R s -> get_estimated_cost R lines s = (s', r) -> no_negatives R s' /\ forall c, r = Ok c -> 0 <= c.
  Proof. intros lines s s' r H E. pose proof (cost_fine lines s H) as F. rewrite E in F. exact F. Qed.

  Lemma cost_more_lines : forall l1 l2 s s1 s2 c1 c, no_negatives R s -> get_estimated_cost R l1 s = (s1, Ok c1) -> get_estimated_cost R (l1 ++ l2) s = (s2, Ok c) -> c1 <= c.
  Proof.
    intros l1 l2 s s1 s2 c1 c H E1 E. rewrite cost_pieces, E1 in E. cbn [then_call] in E. destruct (cost_nonneg l1 s s1 _ H E1) as [H1 _].
    destruct (get_estimated_cost R l2 s1) as [s2' [c2|x]] eqn:E2; inversion E. destruct (cost_nonneg l2 s1 s2' _ H1 E2) as [_ C]. specialize (C c2 eq_refl). lia.
  Qed.

  Lemma cost_not_at_least : forall t a ta s s' s'' c r, no_negatives R s -> parse t = Ok (ENot a) -> parse ta = Ok a ->
    get_estimated_cost R [ta] s = (s', Ok c) -> get_estimated_cost R [t] s = (s'', Ok r) -> s'' = s' /\ c <= r /\ (c <= 2 ^ 48 -> r = 11 * c / 10).
  Proof.
    intros t a ta s s' s'' c r H P Pa Ea E. destruct (cost_nonneg _ _ _ _ H Ea) as [_ C]. specialize (C c eq_refl).
    rewrite (cost_line _ _ s P) in E. rewrite (cost_line _ _ s Pa) in Ea. cbn [cost_of] in E. unfold bind, lift in E. rewrite Ea in E. inversion E.
    split; [reflexivity|]. split; [now apply not_cost_at_least|]. intros B. pose proof (not_cost_small c ltac:(lia)) as X. congruence.
  Qed.

  (** ** When costs are defined *)
  Definition only_overflow (r : state R * res Z) (with_not : Prop) : Prop := (exists c, snd r = Ok c) \/ (with_not /\ snd r = Raise OverflowError).
  Lemma defined_sum : forall a b (na nb : Prop) s, only_overflow (a s) na -> (forall s1 c, a s = (s1, Ok c) -> only_overflow (b s1) nb) -> only_overflow (cost_sum R a b s) (na \/ nb).
  Proof.
    intros a b na nb s Ha Hb. unfold cost_sum, bind, ret. destruct (a s) as [s1 [c1|x]] eqn:E1.
    - destruct (Hb s1 c1 eq_refl) as [[c2 E2]|[N E2]]; destruct (b s1) as [s2 [c|y]]; try discriminate; [left; eexists; reflexivity|right]. split; [now right|]. exact E2.
    - destruct Ha as [[c E]|[N E]]; [discriminate|]. right. split; [now left|]. exact E.
  Qed.
  Lemma cost_of_defined : forall e s, (forall n, In n (reads e) -> constant R s n <> None) -> only_overflow (cost_of R e s) (has_not e).
  Proof.
    assert (B : forall a b s, (forall s, (forall n, In n (reads a) -> constant R s n <> None) -> only_overflow (cost_of R a s) (has_not a)) ->
      (forall s, (forall n, In n (reads b) -> constant R s n <> None) -> only_overflow (cost_of R b s) (has_not b)) ->
      (forall n, In n (reads a ++ reads b) -> constant R s n <> None) -> only_overflow (cost_sum R (cost_of R a) (cost_of R b) s) (has_not a \/ has_not b)).
    { intros a b s Ha Hb H. apply defined_sum; [apply Ha; intros n I; apply H, in_or_app; auto|]. intros s1 c E. apply Hb. intros n I C.
      pose proof (cost_of_unsets R a n s) as Un. rewrite E in Un. apply (H n); [apply in_or_app; auto|]. now apply Un. }
    induction e; intros s H; cbn [reads] in H; cbn [cost_of has_not]; try (now apply B); try (now apply IHe); try (left; eexists; reflexivity).
    - unfold bind, lift. destruct (IHe s H) as [[c E]|[N E]]; destruct (cost_of R e s) as [s1 [c'|x]]; try discriminate.
      + destruct (not_cost c') as [r|x] eqn:X; [left; eexists; reflexivity|]. right. split; [exact Logic.I|]. cbn [snd].
        f_equal. now apply not_cost_raises in X.
      + right. split; [exact Logic.I|]. exact E.
    - left. destruct (dk_simple d) as [[]|]; eexists; reflexivity.
    - unfold bind, set_const_m, ret. destruct (IHe s H) as [[c E]|[N E]]; destruct (cost_of R e s) as [s1 [c'|x]]; try discriminate; [left; eexists; reflexivity|].
      right. split; [exact N|]. exact E.
    - left. unfold get_constant. specialize (H name (or_introl eq_refl)). unfold constant in H. cbn [snd]. destruct (dget text_eqb (st_const s) name); [eexists; reflexivity|congruence].
  Qed.
  Lemma cost_defined : forall lines known s, assigned_before_use known lines -> (forall n, In n known -> constant R s n <> None) ->
    only_overflow (get_estimated_cost R lines s) (some_line lines has_not).
  Proof.
    induction lines as [|t lines IH]; intros known s A H; [left; eexists; reflexivity|]. destruct A as [e [P [Hr A]]]. rewrite (cost_lines t e lines s P).
    pose proof (cost_of_defined e s (fun n I => H n (Hr n I))) as D. destruct (cost_of R e s) as [s1 [c1|x]] eqn:E1.
    - cbn [then_call]. assert (H1 : forall n, In n (assigned e ++ known) -> constant R s1 n <> None).
      { intros n I. apply in_app_or in I. destruct I as [I|I]; [now apply (cost_of_sets R e n I s s1 c1)|]. intros C.
        pose proof (cost_of_unsets R e n s) as Un. rewrite E1 in Un. apply (H n I). now apply Un. }
      destruct (IH _ s1 A H1) as [[c2 E2]|[N E2]]; destruct (get_estimated_cost R lines s1) as [s2 [c|y]]; try discriminate; [left; eexists; reflexivity|].
      right. split; [|exact E2]. destruct N as [t' [e' [I [P' N]]]]. exists t', e'. split; [now right|]. auto.
    - destruct D as [[c E]|[N E]]; [discriminate|]. right. split; [exists t, e; split; [now left|auto]|exact E].
  Qed.
  Lemma fresh_cost_defined : forall lines, assigned_before_use [] lines ->
    (exists c, snd (get_estimated_cost R lines (empty_state R)) = Ok c) \/ (some_line lines has_not /\ snd (get_estimated_cost R lines (empty_state R)) = Raise OverflowError).
  Proof. intros lines A. apply (cost_defined lines [] (empty_state R) A). intros n []. Qed.
End Laws.
