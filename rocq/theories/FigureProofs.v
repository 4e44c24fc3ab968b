(** * FigureProofs: the bins of a histogram and the line that marks the average *)
From Coq Require Import QArith Qabs Qpower Sorted Permutation Floats.SpecFloat.
From Verif Require Import Py PyFacts PyFloat Constraint Distribution DistFacts FloatFacts FloatProofs SpecDice SpecAlgebra SpecProgram SpecInterp SpecProb ProgramProofs ProbProofs.
Local Open Scope Z_scope.

Notation U := (units (-1074)).

(** ** Comparing floats *)
Lemma pos_lt : forall m e m' e', finite_float (S754_finite false m e) -> finite_float (S754_finite false m' e') -> e < e' ->
  Z.pos m * 2 ^ (e - -1074) < Z.pos m' * 2 ^ (e' - -1074).
Proof.
  intros m e m' e' [[M _] E] [[_ M'] E'] L. destruct M' as [M'|M']; [|lia].
  replace (e' - -1074) with ((e' - e) + (e - -1074)) by lia. rewrite Z.pow_add_r by lia.
  assert (A : 2 ^ 1 <= 2 ^ (e' - e)) by (apply Z.pow_le_mono_r; lia).
  assert (B : 0 < 2 ^ (e - -1074)) by (apply Z.pow_pos_nonneg; lia). rewrite Z.mul_assoc. apply Z.mul_lt_mono_pos_r; [exact B|]. lia.
Qed.

Lemma pos_compare : forall m e m' e', finite_float (S754_finite false m e) -> finite_float (S754_finite false m' e') ->
  match (e ?= e') with Lt => Lt | Gt => Gt | Eq => Pos.compare_cont Eq m m' end = (Z.pos m * 2 ^ (e - -1074) ?= Z.pos m' * 2 ^ (e' - -1074)).
Proof.
  intros m e m' e' F F'. destruct (Z.compare_spec e e') as [->|L|L].
  - assert (B : 0 < 2 ^ (e' - -1074)) by (destruct F as [_ F]; apply Z.pow_pos_nonneg; lia).
    rewrite <- Zmult_compare_compat_r by lia. reflexivity.
  - symmetry. apply Z.compare_lt_iff. now apply pos_lt.
  - symmetry. apply Z.compare_gt_iff. now apply pos_lt.
Qed.

Lemma ltb_units : forall f g, finite_float f -> finite_float g -> SFltb f g = (U f <? U g).
Proof.
  assert (P : forall m e, finite_float (S754_finite false m e) -> 0 < Z.pos m * 2 ^ (e - -1074)).
  { intros m e [_ E]. assert (0 < 2 ^ (e - -1074)) by (apply Z.pow_pos_nonneg; lia). nia. }
  intros [s|s| |s m e] [s'|s'| |s' m' e'] F F'; cbn in F, F'; try contradiction; unfold SFltb; cbn [SFcompare units]; try reflexivity.
  - specialize (P m' e' F'). destruct s'; [replace (- Z.pos m' * 2 ^ (e' - -1074)) with (- (Z.pos m' * 2 ^ (e' - -1074))) by ring|];
      symmetry; [apply Z.ltb_ge|apply Z.ltb_lt]; lia.
  - specialize (P m e F). destruct s; [replace (- Z.pos m * 2 ^ (e - -1074)) with (- (Z.pos m * 2 ^ (e - -1074))) by ring|];
      symmetry; [apply Z.ltb_lt|apply Z.ltb_ge]; lia.
  - pose proof (P m e F) as P1. pose proof (P m' e' F') as P2. pose proof (pos_compare m e m' e' F F') as C.
    assert (N : forall k j, - Z.pos k * j = - (Z.pos k * j)) by (intros; ring).
    set (x := Z.pos m * 2 ^ (e - -1074)) in *. set (y := Z.pos m' * 2 ^ (e' - -1074)) in *.
    destruct s, s'; rewrite ?N; fold x y; unfold Z.ltb.
    + rewrite Z.compare_opp, (Z.compare_antisym x y), <- C. destruct (e ?= e'); cbn [CompOpp]; try reflexivity.
    + symmetry. replace (- x ?= y) with Lt; [reflexivity|]. symmetry. apply Z.compare_lt_iff. lia.
    + symmetry. replace (x ?= - y) with Gt; [reflexivity|]. symmetry. apply Z.compare_gt_iff. lia.
    + rewrite <- C. destruct (e ?= e'); reflexivity.
Qed.

Lemma fold_max : forall l f, finite_float f -> (forall g, In g l -> finite_float g) ->
  let m := fold_left (fun m y => if SFltb m y then y else m) l f in
  In m (f :: l) /\ finite_float m /\ forall g, In g (f :: l) -> U g <= U m.
Proof.
  induction l as [|y l IH]; intros f F H m; unfold m; cbn [fold_left].
  - split; [now left|]. split; [exact F|]. intros g [<-|[]]. lia.
  - assert (Fy : finite_float y) by (apply H; now left). rewrite (ltb_units f y F Fy).
    assert (Hl : forall g, In g l -> finite_float g) by (intros g G; apply H; now right).
    destruct (Z.ltb_spec (U f) (U y)) as [L|L].
    + destruct (IH y Fy Hl) as [I [Fm Hm]]. split; [right; exact I|]. split; [exact Fm|]. intros g [<-|G]; [|now apply Hm].
      specialize (Hm y (or_introl eq_refl)). lia.
    + destruct (IH f F Hl) as [I [Fm Hm]]. split; [destruct I as [I|I]; [left; exact I|right; right; exact I]|]. split; [exact Fm|].
      intros g [<-|[<-|G]]; [apply Hm; now left| |apply Hm; now right]. specialize (Hm f (or_introl eq_refl)). lia.
Qed.

(** ** The upper end of the line *)
Definition plottable (m : list (Z * pyfloat)) : Prop :=
  (forall v f, In (v, f) m -> finite_float f /\ Z.abs (U f) <= 4 * K) /\ exists v f, In (v, f) m /\ 0 <= U f.

Lemma f1_1_units : 2 ^ 52 * U f1_1 = 4953959590107546 * K.
Proof. cbn [units f1_1]. rewrite <- K_eq. replace (-52 - -1074) with 1022 by lia. replace 1074 with (52 + 1022) by lia. rewrite (Z.pow_add_r 2 52 1022) by lia. ring. Qed.

Lemma scaled_units : forall f, finite_float f -> units (-2148) f = U f * K.
Proof.
  intros [s|s| |s m e] F; cbn in F; try contradiction; cbn [units]; [reflexivity|]. rewrite <- K_eq, <- Z.mul_assoc, <- Z.pow_add_r by lia.
  f_equal. f_equal. lia.
Qed.

Lemma line_arith : forall k u w c, 2 ^ 60 <= k -> 0 <= u <= 4 * k -> 2 ^ 52 * c = 4953959590107546 * k ->
  2 ^ 53 * Z.abs (w * k - u * c) <= Z.abs (u * c) \/ 2 * Z.abs (w * k - u * c) <= k ->
  Z.abs (10 * w - 11 * u) * 2 ^ 53 <= 2 * 10 * 8 * k.
Proof.
  intros k u w c KB B C Er.
  assert (C0 : 0 <= c <= 2 * k) by lia. assert (UC : 0 <= u * c <= 8 * (k * k)) by nia.
  assert (Hc : 0 <= 10 * c - 11 * k /\ 2 ^ 52 * (10 * c - 11 * k) <= 4 * k) by lia.
  assert (E2 : 2 ^ 53 * Z.abs (w * k - u * c) <= 8 * (k * k)).
  { destruct Er as [Er|Er]; [lia|]. apply Z.le_trans with (2 ^ 52 * k); [lia|]. nia. }
  set (h := 10 * c - 11 * k) in *.
  assert (E3 : 2 ^ 52 * (u * h) <= 16 * (k * k)).
  { replace (2 ^ 52 * (u * h)) with (u * (2 ^ 52 * h)) by ring. apply Z.le_trans with (4 * k * (4 * k)); [|lia]. apply Z.mul_le_mono_nonneg; lia. }
  assert (E4 : 0 <= u * h) by nia.
  assert (E6 : (10 * w - 11 * u) * k = 10 * (w * k - u * c) + u * h) by (unfold h; ring).
  assert (E5 : Z.abs (10 * w - 11 * u) * k * 2 ^ 53 <= 160 * (k * k)).
  { replace (Z.abs (10 * w - 11 * u) * k) with (Z.abs ((10 * w - 11 * u) * k)) by (rewrite Z.abs_mul, (Z.abs_eq k) by lia; ring). rewrite E6. lia. }
  apply Z.mul_le_mono_pos_r with (p := k); lia.
Qed.

Lemma line_end : forall f, finite_float f -> 0 <= U f <= 4 * K ->
  let t := fmul f f1_1 in finite_float t /\ U f <= U t /\ Z.abs (10 * U t - 11 * U f) * 2 ^ 53 <= 2 * 10 * 8 * K.
Proof.
  intros f F B t. pose proof K_pos as K0. pose proof K_big as KB. pose proof f1_1_units as C.
  pose proof (fmul_spec (-2148) f f1_1 ltac:(lia) F ltac:(cbn; lia) ltac:(cbn; lia)) as Sp. cbn zeta in Sp. fold t in Sp.
  change (-2148 - -2148) with 0 in Sp. rewrite Z.pow_0_r, Z.mul_1_r in Sp.
  set (c := U f1_1) in *. clearbody c. clearbody t.
  destruct Sp as [[Un _]|[s [_ O]]].
  - assert (Ft : finite_float t) by exact (proj1 Un). split; [exact Ft|].
    assert (H1 : U f * K <= units (-2148) t).
    { apply (unearest_ge (-2148) _ 1 t (U f * K) ltac:(lia) Un); [rewrite <- scaled_units by exact F; now apply units_udouble|].
      assert (K <= c) by lia. rewrite Z.mul_1_r. apply Z.mul_le_mono_nonneg_l; lia. }
    rewrite scaled_units in H1 by exact Ft. split; [apply Z.mul_le_mono_pos_r with (p := K); assumption|].
    destruct Un as [_ [_ Er]]. rewrite scaled_units in Er by exact Ft. rewrite !Z.mul_1_r, !Z.mul_1_l in Er.
    change (-1074 - -2148) with 1074 in Er. rewrite K_eq in Er. now apply (line_arith K (U f) (U t) c).
  - exfalso. revert O. unfold overflows. rewrite Z.mul_1_l. replace (971 - -2148) with (1074 + (1074 + 971)) by lia. rewrite !Z.pow_add_r, K_eq by lia.
    intros O. assert (X : 2 ^ 60 <= 2 ^ 971) by (apply Z.pow_le_mono_r; lia).
    set (T := 2 ^ 971) in *. clearbody T. set (u := U f) in *. clearbody u. clear - O X KB C B K0. set (k := K) in *. clearbody k.
    assert (C0 : 0 <= c <= 2 * k) by lia. assert (UC : 0 <= u * c <= 8 * (k * k)) by nia.
    assert (Y : 2 ^ 60 * (k * k) <= T * (k * k)) by (apply Z.mul_le_mono_nonneg_r; nia). replace (k * (k * T)) with (T * (k * k)) in O by ring. lia.
Qed.

(** ** The edges of the bins *)
Definition fits (x : Z) : Prop := ~ too_large (inject_Z x).
Lemma too_large_int : forall x, too_large (inject_Z x) <-> overflows (-1074) (x * 2 ^ (- -1074)) 1.
Proof.
  intros x. change (- -1074) with 1074. rewrite K_eq. rewrite <- (too_large_units x 1) by lia. unfold too_large.
  assert (E : (inject_Z x / inject_Z 1 == inject_Z x)%Q) by (unfold Qeq, Qdiv; cbn; lia).
  split; intros H; [rewrite E|rewrite E in H]; exact H.
Qed.
Lemma float_raises : forall x, (exists f, float_of_Z x = Ok f /\ ~ too_large (inject_Z x)) \/ (float_of_Z x = Raise OverflowError /\ too_large (inject_Z x)).
Proof.
  intros x. pose proof (too_large_int x) as T. destruct (float_of_Z_spec (-1074) x ltac:(lia)) as [[f [E [_ O]]]|[E O]]; [left; exists f; tauto|right; tauto].
Qed.

Lemma edges_raises : forall xs x, edges xs = Raise x <-> x = OverflowError /\ exists v, In v xs /\ too_large (inject_Z v).
Proof.
  induction xs as [|v xs IH]; intros x; cbn [edges].
  - split; [discriminate|]. intros [_ [v [[] _]]].
  - destruct (float_raises v) as [[f [E N]]|[E N]]; rewrite E; cbn [rbind].
    + destruct (edges xs) as [l|y]; cbn [rmap rbind].
      * split; [discriminate|]. intros [-> [w [[->|W] T]]]; [contradiction|]. assert (X : Ok l = Raise OverflowError) by (apply IH; eauto). discriminate.
      * split.
        -- intros X. injection X as ->. destruct (proj1 (IH x) eq_refl) as [-> [w [W T]]]. split; [reflexivity|]. exists w. split; [now right|exact T].
        -- intros [-> [w [[->|W] T]]]; [contradiction|]. assert (X : @Raise (list pyfloat) y = Raise OverflowError) by (apply IH; eauto). injection X as ->. reflexivity.
    + split; [intros X; injection X as <-; split; [reflexivity|]; exists v; split; [now left|exact N]|]. intros [-> _]. reflexivity.
Qed.

Lemma edges_ok : forall xs l, edges xs = Ok l -> Forall2 (fun x e => exists f, float_of_Z x = Ok f /\ e = fsub f f0_5) xs l.
Proof.
  induction xs as [|v xs IH]; intros l E; cbn [edges] in E; [injection E as <-; constructor|].
  destruct (float_of_Z v) as [f|] eqn:Ef; [|discriminate]. cbn [rbind] in E. destruct (edges xs) as [l'|]; [|discriminate]. cbn [rmap rbind] in E. injection E as <-.
  constructor; [eauto|now apply IH].
Qed.

Lemma make_raises : forall m a x, m <> [] -> (make_histogram m a = Raise x <-> x = OverflowError /\ exists v, In v (map fst m) /\ too_large (inject_Z v)).
Proof.
  intros [|p m] a x N; [congruence|]. clear N. unfold make_histogram. set (xs := map fst (p :: m)). pose proof (edges_raises xs) as R.
  destruct (edges xs) as [l|y]; cbn [rbind].
  - assert (L : In (last xs 0) xs).
    { unfold xs. clear. cbn [map]. generalize (fst p) as z. induction (map fst m) as [|y l IH]; intros z; [now left|]. cbn [last]. right. apply IH. }
    destruct (float_raises (last xs 0)) as [[f [E _]]|[E T]]; rewrite E; cbn [rbind].
    + split; [discriminate|]. intros H. apply R in H. discriminate.
    + exfalso. assert (X : @Ok (list pyfloat) l = Raise OverflowError) by (apply R; split; [reflexivity|]; eauto). discriminate.
  - rewrite <- (R x). split; intros X; injection X as ->; reflexivity.
Qed.

(** *** Small integers and their halves are floats *)
Lemma half_units : 2 * U f0_5 = K.
Proof. cbn [units f0_5]. rewrite <- K_eq. replace (-53 - -1074) with 1021 by lia. change 4503599627370496 with (2 ^ 52). rewrite <- (Z.pow_add_r 2 52) by lia. cbn [Z.add Pos.add]. change 2 with (2 ^ 1) at 1. rewrite <- Z.pow_add_r by lia. reflexivity. Qed.
Lemma half_finite : finite_float f0_5.
Proof. cbn. lia. Qed.

Lemma half_double : forall n w, Z.abs n < 2 ^ 53 -> 2 * w = n * K -> udouble (-1074) w.
Proof.
  intros n w N E. exists n, (-1). split; [lia|]. split; [exact N|]. change (-1 - -1074) with 1073. rewrite <- K_eq in E. change 1074 with (1 + 1073) in E.
  rewrite Z.pow_add_r in E by lia. change (2 ^ 1) with 2 in E. lia.
Qed.

Definition small (x : Z) : Prop := Z.abs x < 2 ^ 52.
Lemma small_float : forall x, small x -> exists f, float_of_Z x = Ok f /\ finite_float f /\ U f = x * K.
Proof.
  intros x S. unfold small in S. pose proof K_pos as K0. destruct (float_of_Z_spec (-1074) x ltac:(lia)) as [[f [E [Un _]]]|[_ O]].
  - change (- -1074) with 1074 in Un. rewrite K_eq in Un. exists f. split; [exact E|]. split; [exact (proj1 Un)|].
    apply (unearest_exact (-1074) 1 f (x * K) ltac:(lia)); [now rewrite Z.mul_1_r|]. apply (half_double (2 * x)); lia.
  - exfalso. revert O. change (- -1074) with 1074. rewrite K_eq. apply no_overflow_small; [lia|]. rewrite Z.abs_mul, (Z.abs_eq K) by lia. nia.
Qed.
Lemma half_value : forall f n, finite_float f -> 2 * U f = n * K -> has_value f (n # 2).
Proof.
  intros f n F E. destruct (fvalue_units f F) as [y [Ey Hy]]. exists y. split; [exact Ey|]. rewrite Hy. unfold Qeq. cbn [Qnum Qden]. rewrite Kp_eq. lia.
Qed.
Lemma edge_value : forall x f, small x -> float_of_Z x = Ok f ->
  has_value (fsub f f0_5) (inject_Z x - (1 # 2)) /\ has_value (fadd f f0_5) (inject_Z x + (1 # 2)).
Proof.
  intros x f S E. destruct (small_float x S) as [f' [E' [F Uf]]]. rewrite E in E'. injection E' as <-. unfold small in S. pose proof K_pos as K0. pose proof half_units as H.
  assert (Bf : Z.abs (U f) <= 2 ^ 52 * K) by (rewrite Uf, Z.abs_mul, (Z.abs_eq K) by lia; apply Z.mul_le_mono_nonneg_r; lia).
  assert (V : forall g n q, finite_float g -> 2 * U g = n * K -> (q == n # 2)%Q -> has_value g q).
  { intros g n q Fg Eg Eq. destruct (half_value g n Fg Eg) as [y [Ey Hy]]. exists y. split; [exact Ey|]. now rewrite Hy, Eq. }
  split.
  - destruct (fsub_spec (-1074) f f0_5 ltac:(lia) F half_finite) as [[Un _]|[s [_ O]]]; [|exfalso; revert O; apply no_overflow_small; lia].
    apply (V _ (2 * x - 1)); [exact (proj1 Un)| |unfold Qeq, Qminus, Qplus, Qopp, inject_Z; cbn [Qnum Qden Pos.mul]; lia].
    rewrite (unearest_exact (-1074) 1 _ (U f - U f0_5) ltac:(lia)); [lia|now rewrite Z.mul_1_r|]. apply (half_double (2 * x - 1)); lia.
  - destruct (fadd_spec (-1074) f f0_5 ltac:(lia) F half_finite) as [[Un _]|[s [_ O]]]; [|exfalso; revert O; apply no_overflow_small; lia].
    apply (V _ (2 * x + 1)); [exact (proj1 Un)| |unfold Qeq, Qminus, Qplus, Qopp, inject_Z; cbn [Qnum Qden Pos.mul]; lia].
    rewrite (unearest_exact (-1074) 1 _ (U f + U f0_5) ltac:(lia)); [lia|now rewrite Z.mul_1_r|]. apply (half_double (2 * x + 1)); lia.
Qed.

(** *** Each integer has a bin of its own exactly when there are no gaps and no repetitions *)
Definition consecutive (xs : list Z) : Prop := forall i x y, nth_error xs i = Some x -> nth_error xs (S i) = Some y -> y = x + 1.

Lemma has_value_eq : forall f x y, has_value f x -> has_value f y -> (x == y)%Q.
Proof. intros f x y [v [E H]] [v' [E' H']]. rewrite E in E'. injection E' as <-. rewrite <- H. exact H'. Qed.
Lemma has_value_comp : forall f x y, (x == y)%Q -> has_value f x -> has_value f y.
Proof. intros f x y H [v [E H']]. exists v. split; [exact E|]. now rewrite H', H. Qed.

Lemma make_points : forall m a h, make_histogram m a = Ok h -> h_points h = m /\
  h_line h = match a with None => None | Some v => Some (v, fmul (fmax (map snd m)) f1_1) end /\
  exists l f, h_bins h = l ++ [fadd f f0_5] /\ float_of_Z (last (map fst m) 0) = Ok f /\
    Forall2 (fun x e => exists f, float_of_Z x = Ok f /\ e = fsub f f0_5) (map fst m) l /\ m <> [].
Proof.
  intros [|p m] a h E; [discriminate|]. unfold make_histogram in E.
  destruct (edges (map fst (p :: m))) as [l|] eqn:El; [|discriminate]. cbn [rbind] in E.
  destruct (float_of_Z (last (map fst (p :: m)) 0)) as [f|] eqn:Ef; [|discriminate]. cbn [rbind] in E. injection E as <-. cbn [h_points h_line h_bins].
  split; [reflexivity|]. split; [reflexivity|]. exists l, f. split; [reflexivity|]. split; [reflexivity|]. split; [now apply edges_ok|discriminate].
Qed.

Lemma nth_last : forall (xs : list Z) i x, nth_error xs i = Some x -> S i = length xs -> last xs 0 = x.
Proof.
  induction xs as [|y xs IH]; intros i x E L; [discriminate|]. destruct xs as [|z xs].
  - destruct i; [injection E as <-; reflexivity|discriminate].
  - destruct i; [discriminate|]. cbn [nth_error] in E. cbn [length] in L. change (last (z :: xs) 0 = x). apply (IH i x E). cbn [length]. lia.
Qed.
Lemma nth_Forall2 : forall A B (P : A -> B -> Prop) l l', Forall2 P l l' -> forall i x, nth_error l i = Some x -> exists y, nth_error l' i = Some y /\ P x y.
Proof.
  intros A B P l l' F. induction F as [|a b l l' H F IH]; intros i x E; [destruct i; discriminate|]. destruct i; [injection E as <-; exists b; auto|]. now apply IH.
Qed.

Lemma odd_double : forall f n, finite_float f -> Z.even n = false -> 2 * U f = n * K -> Z.abs n < 2 ^ 53.
Proof.
  intros f n F O E. pose proof K_pos as K0. destruct (units_udouble (-1074) f F) as [m [e [Ee [M Eu]]]]. rewrite Eu in E.
  destruct (Z.le_gt_cases 0 e) as [H|H].
  - exfalso. replace (e - -1074) with (e + 1074) in E by lia. rewrite Z.pow_add_r, K_eq in E by lia.
    assert (X : n = 2 * (m * 2 ^ e)) by (apply Z.mul_reg_r with K; lia). rewrite X, Z.even_mul in O. discriminate.
  - assert (X : K = 2 * 2 ^ (e - -1074) * 2 ^ (- e - 1)).
    { rewrite <- K_eq. change 2 with (2 ^ 1) at 2. rewrite <- !Z.pow_add_r by lia. f_equal. lia. }
    rewrite X in E. assert (A : 0 < 2 ^ (e - -1074)) by (apply Z.pow_pos_nonneg; lia). assert (B : 1 <= 2 ^ (- e - 1)) by (apply (Z.pow_le_mono_r 2 0); lia).
    assert (Y : m = n * 2 ^ (- e - 1)) by (apply Z.mul_reg_r with (2 * 2 ^ (e - -1074)); lia). nia.
Qed.
Lemma edge_small : forall x f, float_of_Z x = Ok f -> has_value (fsub f f0_5) (inject_Z x - (1 # 2)) -> Z.abs (2 * x - 1) < 2 ^ 53.
Proof.
  intros x f E [y [Ey Hy]]. destruct (float_of_Z_spec (-1074) x ltac:(lia)) as [[f' [E' [Un _]]]|[E' _]]; [|congruence]. rewrite E in E'. injection E' as <-.
  destruct (fsub_spec (-1074) f f0_5 ltac:(lia) (proj1 Un) half_finite) as [[Un' _]|[s [Ei _]]]; [|rewrite Ei in Ey; discriminate].
  apply (odd_double (fsub f f0_5)); [exact (proj1 Un')|rewrite Z.even_sub, Z.even_mul; reflexivity|].
  destruct (fvalue_units _ (proj1 Un')) as [z [Ez Hz]]. rewrite Ez in Ey. injection Ey as ->. rewrite Hy in Hz. symmetry in Hz.
  unfold Qeq, Qminus, Qplus, Qopp, inject_Z in Hz. cbn [Qnum Qden Pos.mul] in Hz. rewrite Kp_eq in Hz. lia.
Qed.
Lemma edge_small' : forall x f, float_of_Z x = Ok f -> has_value (fadd f f0_5) (inject_Z x + (1 # 2)) -> Z.abs (2 * x + 1) < 2 ^ 53.
Proof.
  intros x f E [y [Ey Hy]]. destruct (float_of_Z_spec (-1074) x ltac:(lia)) as [[f' [E' [Un _]]]|[E' _]]; [|congruence]. rewrite E in E'. injection E' as <-.
  destruct (fadd_spec (-1074) f f0_5 ltac:(lia) (proj1 Un) half_finite) as [[Un' _]|[s [Ei _]]]; [|rewrite Ei in Ey; discriminate].
  apply (odd_double (fadd f f0_5)); [exact (proj1 Un')|rewrite Z.even_add, Z.even_mul; reflexivity|].
  destruct (fvalue_units _ (proj1 Un')) as [z [Ez Hz]]. rewrite Ez in Ey. injection Ey as ->. rewrite Hy in Hz. symmetry in Hz.
  unfold Qeq, Qminus, Qplus, Qopp, inject_Z in Hz. cbn [Qnum Qden Pos.mul] in Hz. rewrite Kp_eq in Hz. lia.
Qed.

Lemma bins_own : forall m a h, make_histogram m a = Ok h ->
  (own_bins (map fst (h_points h)) (h_bins h) <-> consecutive (map fst m) /\ forall v, In v (map fst m) -> small v).
Proof.
  intros m a h E. destruct (make_points m a h E) as [-> [_ [l [f [Eb [Ef [Fl N]]]]]]]. rewrite Eb. set (xs := map fst m) in *.
  assert (Ll : length xs = length l) by (clear - Fl; induction Fl; cbn [length]; congruence).
  assert (Left : forall i x, nth_error xs i = Some x -> exists g, float_of_Z x = Ok g /\ nth_error (l ++ [fadd f f0_5]) i = Some (fsub g f0_5)).
  { intros i x X. destruct (nth_Forall2 _ _ _ _ _ Fl i x X) as [e [Ee [g [Eg ->]]]]. exists g. split; [exact Eg|].
    rewrite nth_error_app1; [exact Ee|]. apply nth_error_Some. congruence. }
  split.
  - intros [_ H].
    assert (C : consecutive xs).
    { intros i x y X Y. destruct (H i x X) as [_ [r [_ [Er [_ Vr]]]]]. destruct (H (S i) y Y) as [e [_ [Ee [_ [Ve _]]]]].
      rewrite Er in Ee. injection Ee as <-. pose proof (has_value_eq _ _ _ Vr Ve) as Q. unfold Qeq, Qminus, Qplus, Qopp, inject_Z in Q. cbn [Qnum Qden Pos.mul] in Q. lia. }
    split; [exact C|].
    intros v V. apply In_nth_error in V. destruct V as [i V]. destruct (H i v V) as [e [r [Ee [Er [Ve Vr]]]]].
    destruct (Left i v V) as [g [Eg Ee']]. rewrite Ee' in Ee. injection Ee as <-. pose proof (edge_small v g Eg Ve) as S1.
    assert (S2 : Z.abs (2 * v + 1) < 2 ^ 53); [|unfold small; lia].
    assert (Li : (i < length xs)%nat) by (apply nth_error_Some; congruence).
    destruct (Nat.eq_dec (S i) (length xs)) as [Ei|Ei].
    + rewrite nth_error_app2 in Er by lia. replace (S i - length l)%nat with 0%nat in Er by lia. cbn [nth_error] in Er. injection Er as <-.
      rewrite (nth_last xs i v V Ei) in Ef. now apply (edge_small' v f).
    + destruct (nth_error xs (S i)) as [y|] eqn:Y; [|apply nth_error_None in Y; lia]. destruct (Left (S i) y Y) as [g' [Eg' Er']].
      rewrite Er' in Er. injection Er as <-. rewrite (C i v y V Y) in *. replace (2 * v + 1) with (2 * (v + 1) - 1) by ring.
      apply (edge_small (v + 1) g' Eg'). eapply has_value_comp; [|exact Vr]. unfold Qeq, Qminus, Qplus, Qopp, inject_Z. cbn [Qnum Qden Pos.mul]. lia.
  - intros [C Sm]. split; [rewrite app_length; cbn [length]; lia|]. intros i x X. destruct (Left i x X) as [g [Eg Ee]].
    assert (Sx : small x) by (apply Sm; exact (nth_error_In _ _ X)). pose proof (proj1 (edge_value x g Sx Eg)) as Ve.
    assert (Li : (i < length xs)%nat) by (apply nth_error_Some; congruence).
    destruct (Nat.eq_dec (S i) (length xs)) as [Ei|Ei].
    + exists (fsub g f0_5), (fadd f f0_5). split; [exact Ee|]. split; [rewrite nth_error_app2 by lia; replace (S i - length l)%nat with 0%nat by lia; reflexivity|].
      split; [exact Ve|]. rewrite (nth_last xs i x X Ei) in Ef. now apply edge_value.
    + destruct (nth_error xs (S i)) as [y|] eqn:Y; [|apply nth_error_None in Y; lia]. destruct (Left (S i) y Y) as [g' [Eg' Er]].
      exists (fsub g f0_5), (fsub g' f0_5). split; [exact Ee|]. split; [exact Er|]. split; [exact Ve|].
      eapply has_value_comp; [|apply (edge_value y g'); [apply Sm; exact (nth_error_In _ _ Y)|exact Eg']].
      rewrite (C i x y X Y). unfold Qeq, Qminus, Qplus, Qopp, inject_Z. cbn [Qnum Qden Pos.mul]. lia.
Qed.

Lemma covers_consecutive : forall lo hi m, covers lo hi m -> consecutive (map fst m).
Proof.
  intros lo hi m [S C]. set (xs := map fst m) in *. clearbody xs. intros i x y X Y.
  assert (Lt : forall l, StronglySorted Z.lt l -> forall i j x y, nth_error l i = Some x -> nth_error l j = Some y -> (i < j)%nat -> x < y).
  { clear. intros l S. induction S as [|a l S IH F]; intros i j x y X Y L; [destruct i; discriminate|]. destruct j; [lia|]. destruct i.
    - injection X as <-. rewrite Forall_forall in F. apply F. exact (nth_error_In l j Y).
    - apply (IH i j); auto. lia. }
  pose proof (Lt xs S i _ x y X Y ltac:(lia)) as L. assert (Ix : lo <= x <= hi) by exact (proj1 (C x) (nth_error_In _ _ X)). assert (Iy : lo <= y <= hi) by exact (proj1 (C y) (nth_error_In _ _ Y)).
  destruct (Z.eq_dec y (x + 1)) as [->|Ne]; [reflexivity|exfalso].
  assert (I : In (x + 1) xs) by (apply C; lia). apply In_nth_error in I. destruct I as [j J].
  destruct (Nat.lt_trichotomy j i) as [H|[H|H]].
  - pose proof (Lt xs S j i _ _ J X H). lia.
  - subst. rewrite J in X. injection X. lia.
  - destruct (Nat.eq_dec j (Datatypes.S i)) as [->|H']; [rewrite J in Y; injection Y; lia|]. pose proof (Lt xs S (Datatypes.S i) j _ _ Y J ltac:(lia)). lia.
Qed.

(** ** The line *)
Lemma value_le : forall f g x y, finite_float f -> finite_float g -> fvalue f = Some x -> fvalue g = Some y -> U f <= U g -> (x <= y)%Q.
Proof.
  intros f g x y F G X Y L. destruct (fvalue_units f F) as [x' [X' Hx]]. destruct (fvalue_units g G) as [y' [Y' Hy]].
  rewrite X in X'. rewrite Y in Y'. injection X' as <-. injection Y' as <-. rewrite Hx, Hy. now apply frac_le.
Qed.

Lemma line_tallest : forall m a h, plottable m -> make_histogram m (Some a) = Ok h -> exists top y, h_line h = Some (a, top) /\
  tallest m y /\ within_rounding 2 ((11 # 10) * y) top /\ forall t, fvalue top = Some t -> (y <= t)%Q.
Proof.
  intros m a h [B [v0 [f0 [I0 P0]]]] E. destruct (make_points m _ h E) as [_ [El [_ [_ [_ [_ [_ N]]]]]]]. cbn iota in El.
  set (g := fmax (map snd m)) in *.
  assert (G : In g (map snd m) /\ finite_float g /\ forall f, In f (map snd m) -> U f <= U g).
  { unfold g. destruct m as [|[v f] m]; [congruence|]. cbn [map snd fmax]. apply fold_max.
    - apply (B v). now left.
    - intros f' F'. apply in_map_iff in F'. destruct F' as [[v' f''] [<- I]]. apply (B v'). now right. }
  destruct G as [Ig [Fg Mg]]. apply in_map_iff in Ig. destruct Ig as [[vg g'] [Eg Ig]]. cbn [snd] in Eg. subst g'.
  assert (Bg : 0 <= U g <= 4 * K).
  { specialize (Mg f0 (in_map snd _ _ I0)). cbn [snd] in Mg. destruct (B vg g Ig) as [_ Bg]. lia. }
  destruct (line_end g Fg Bg) as [Ft [Lt Et]]. set (t := fmul g f1_1) in *. clearbody t.
  destruct (fvalue_units g Fg) as [y [Ey Hy]]. exists t, y. split; [exact El|]. split; [|split].
  - split; [exists vg, g; split; [exact Ig|]; exists y; split; [exact Ey|reflexivity]|]. intros v f x I X. destruct (B v f I) as [Ff _].
    apply (value_le f g x y Ff Fg X Ey). apply Mg. exact (in_map snd _ _ I).
  - pose proof K_pos as K0. pose proof E50_eq as EE. destruct (fvalue_units t Ft) as [z [Ez Hz]]. exists z. split; [exact Ez|].
    assert (X : (2 ^ (-50) == E50 # Kp)%Q).
    { change (-50) with (- (50)). rewrite Qpower_opp, <- (Zpower_Qpower 2 50) by lia. pose proof Kp_eq as Ke.
      unfold Qeq, Qinv. cbn [inject_Z Qnum Qden]. change (2 ^ 50) with (Z.pos (2 ^ 50)). cbn [Qnum Qden]. rewrite Ke.
      change (Z.pos (2 ^ 50)) with (2 ^ 50). lia. }
    rewrite X, Hz, Hy. assert (Y : ((U t # Kp) - (11 # 10) * (U g # Kp) == (10 * U t - 11 * U g) # (10 * Kp))%Q).
    { unfold Qeq, Qminus, Qplus, Qopp, Qmult. cbn [Qnum Qden]. rewrite !Pos2Z.inj_mul. ring. }
    rewrite Y. cbn [Qabs]. unfold Qle, Qmult. cbn [Qnum Qden inject_Z]. rewrite Pos.mul_1_l, Pos2Z.inj_mul, Kp_eq.
    set (d := Z.abs (10 * U t - 11 * U g)) in *. clearbody d. set (k := K) in *. clearbody k.
    replace (d * k) with (d * k) by ring. replace (2 * E50 * (10 * k)) with ((20 * E50) * k) by ring. apply Z.mul_le_mono_nonneg_r; lia.
  - intros x X. exact (value_le g t y x Fg Ft Ey X Lt).
Qed.

(** ** Figures of one distribution *)
Section Figures.
  Context (R : Runtime).
  Notation dist := (dist R).

  Lemma plottable_histogram : forall d m, obtainable R d -> histogram_data R d = Ok m -> plottable m.
  Proof.
    intros d m O E. pose proof K_pos as K0. destruct (table_extremes R (histogram_data R) d m O (fun x => histogram_raises R d x O) E) as [lo [hi Ex]].
    assert (T : total_ways R d <> 0).
    { apply (has_ways R d lo hi ZeroDivisionError O Ex); auto. intros P. apply (histogram_raises R d _ O) in P. congruence. }
    destruct (filled R d lo hi O T Ex) as [fs [h [Ef [Eh [Nh [Kh [Sh Un]]]]]]]. destruct (obtainable_counts R d O) as [_ [_ [_ T0]]].
    rewrite histogram_eq in E. unfold table_of in E. rewrite Ef in E. cbn [rbind] in E. rewrite Eh in E. cbn [rbind] in E. injection E as <-.
    pose proof (sort_points_perm h) as P.
    assert (V : forall v f, In (v, f) (sort_points h) -> finite_float f /\ 0 <= U f <= K).
    { intros v f I. apply (Permutation_in _ P) in I. rewrite <- (fget_in h v f Nh I). split; [apply Un|].
      assert (Nt : 0 < total_ways R d) by lia.
      destruct (rounded_probability _ _ _ Nt (reported_range R d v O) (Un v)) as [A1 [A2 _]]. lia. }
    split; [intros v f I; destruct (V v f I); split; [assumption|lia]|].
    assert (L : In lo (map fst h)) by (apply Kh; destruct Ex as [Ll [Lh B]]; pose proof (B lo Ll); lia).
    apply in_map_iff in L. destruct L as [[v f] [_ I]]. apply (Permutation_in _ (Permutation_sym P)) in I. exists v, f. split; [exact I|]. apply (V v f I).
  Qed.

  Lemma plottable_at_least : forall d m, obtainable R d -> at_least R d = Ok m -> plottable m.
  Proof.
    intros d m O E. pose proof K_pos as K0. pose proof (at_least_survival R d m O E) as Sv.
    destruct (table_extremes R (at_least R) d m O (fun x => at_least_raises R d x O) E) as [lo [hi Ex]].
    assert (T : total_ways R d <> 0).
    { apply (has_ways R d lo hi ZeroDivisionError O Ex); auto. intros P. apply (at_least_raises R d _ O) in P. congruence. }
    destruct (filled R d lo hi O T Ex) as [fs [h [Ef [Eh [Nh [Kh [Sh Un]]]]]]].
    destruct (obtainable_counts R d O) as [Nd [Nn [_ T0]]]. destruct Ex as [Ll [Lh B]]. pose proof (B lo Ll) as Blo.
    assert (HN : 0 < total_ways R d) by lia.
    assert (Hlo : forall v, In v (map fst (get_result_map R d)) -> lo <= v) by (intros v V; apply (B v V)).
    unfold at_least in E. rewrite Ef in E. cbn [rbind] in E. rewrite Eh in E. cbn [rbind] in E. rewrite Sh in E. injection E as <-.
    pose proof (at_least_loop_eq h lo (Z.to_nat (hi + 1 - lo)) 0) as L. cbn [Z.of_nat] in L. rewrite Z.add_0_r in L.
    replace (lo + Z.of_nat (Z.to_nat (hi + 1 - lo))) with (hi + 1) in L by lia. change (left_after h lo 0) with fone in L. rewrite L in *. clear L.
    set (M := get_result_map R d) in *. set (N := total_ways R d) in *.
    pose proof (fun n => left_after_inv N M h lo HN Nd Nn eq_refl Hlo Un n) as Inv. cbn zeta in Inv.
    assert (V : forall i, finite_float (fdiv (left_after h lo i) fone) /\ U (fdiv (left_after h lo i) fone) = U (left_after h lo i)).
    { intros i. apply fdiv_one; [lia|]. apply Inv. }
    split.
    - intros v f I. apply in_map_seq in I. destruct I as [i [-> [-> _]]]. destruct (V i) as [Fi Ui]. split; [exact Fi|]. rewrite Ui.
      destruct (Inv i) as [_ [Up [Dn _]]]. pose proof (below_range N M Nn eq_refl (lo + Z.of_nat i)) as Br.
      assert (- (3 * K) <= U (left_after h lo i)); [|lia]. assert (- (3 * K) * N <= U (left_after h lo i) * N); [|nia]. nia.
    - exists lo, (fdiv (left_after h lo 0) fone). split; [|destruct (V 0%nat) as [_ ->]; cbn [left_after]; destruct one_units as [_ ->]; lia].
      apply in_map_iff. exists 0%nat. cbn [Z.of_nat]. rewrite Z.add_0_r. split; [reflexivity|]. apply in_seq. lia.
  Qed.

  Lemma plottable_at_most : forall d m, obtainable R d -> at_most R d = Ok m -> plottable m.
  Proof.
    intros d m O E. pose proof K_pos as K0.
    destruct (table_extremes R (at_most R) d m O (fun x => at_most_raises R d x O) E) as [lo [hi Ex]].
    assert (T : total_ways R d <> 0).
    { apply (has_ways R d lo hi ZeroDivisionError O Ex); auto. intros P. apply (at_most_raises R d _ O) in P. congruence. }
    destruct (filled R d lo hi O T Ex) as [fs [h [Ef [Eh [Nh [Kh [Sh Un]]]]]]].
    destruct (obtainable_counts R d O) as [Nd [Nn [_ T0]]]. destruct Ex as [Ll [Lh B]]. pose proof (B lo Ll) as Blo.
    assert (HN : 0 < total_ways R d) by lia.
    assert (Hlo : forall v, In v (map fst (get_result_map R d)) -> lo <= v) by (intros v V; apply (B v V)).
    unfold at_most in E. rewrite Ef in E. cbn [rbind] in E. rewrite Eh in E. cbn [rbind] in E. rewrite Sh in E. injection E as <-.
    pose proof (at_most_loop_eq h lo (Z.to_nat (hi + 1 - lo)) 0) as L. cbn [Z.of_nat] in L. rewrite Z.add_0_r in L.
    replace (lo + Z.of_nat (Z.to_nat (hi + 1 - lo))) with (hi + 1) in L by lia. change (added_up h lo 0) with fzero in L. rewrite L. clear L.
    set (M := get_result_map R d) in *. set (N := total_ways R d) in *.
    pose proof (fun n => added_up_inv N M h lo HN Nd Nn eq_refl Hlo Un n) as Inv. cbn zeta in Inv.
    assert (V : forall i, finite_float (fdiv (added_up h lo i) fone) /\ 0 <= U (fdiv (added_up h lo i) fone) <= 4 * K).
    { intros i. destruct (fdiv_one (-1074) (added_up h lo i) ltac:(lia) (proj1 (Inv i))) as [F ->]. split; [exact F|].
      destruct (Inv i) as [_ [Up [Dn _]]]. pose proof (below_range N M Nn eq_refl (lo + Z.of_nat i)) as Br.
      split; [exact Up|]. assert (U (added_up h lo i) * N <= 4 * K * N); [|nia]. nia. }
    split.
    - intros v f I. apply (in_map_seq (fun i => fdiv (added_up h lo (Datatypes.S i)) fone)) in I. destruct I as [i [-> [-> _]]]. destruct (V (Datatypes.S i)) as [Fi Ui]. split; [exact Fi|lia].
    - exists lo, (fdiv (added_up h lo 1) fone). split; [|apply (V 1%nat)].
      apply in_map_iff. exists 0%nat. cbn [Z.of_nat]. rewrite Z.add_0_r. split; [reflexivity|]. apply in_seq. lia.
  Qed.

  (** *** When a figure fails *)
  Lemma too_large_abs : forall x, too_large (inject_Z x) <-> 2 ^ 1024 - 2 ^ 970 <= Z.abs x.
  Proof. intros x. unfold too_large, Qle. cbn [Qabs inject_Z Qnum Qden]. rewrite !Z.mul_1_r. reflexivity. Qed.
  Lemma too_large_mean : forall d lo hi, obtainable R d -> total_ways R d <> 0 -> extremes R d lo hi -> too_large (mean R d) ->
    too_large (inject_Z lo) \/ too_large (inject_Z hi).
  Proof.
    intros d lo hi O T [_ [_ B]] L. rewrite !too_large_abs. destruct (obtainable_counts R d O) as [_ [Nn [_ T0]]].
    assert (SB : lo * total_ways R d <= sum_of_results R d <= hi * total_ways R d) by (apply sum_bounds; [exact Nn|exact B]).
    unfold mean, too_large in L. rewrite frac_pos in L by lia. unfold Qle in L. cbn [Qabs inject_Z Qnum Qden] in L. rewrite Z2Pos.id in L by lia.
    set (G := 2 ^ 1024 - 2 ^ 970) in *. clearbody G. rewrite Z.mul_1_r in L. nia.
  Qed.

  Lemma figure_raises : forall f d x, obtainable R d -> (forall x, f d = Raise x <-> plot_fails R d x) ->
    (forall m, f d = Ok m -> exists lo hi, extremes R d lo hi /\ covers lo hi m) -> (with_average R f d = Raise x <-> figure_fails R d x).
  Proof.
    intros f d x O Rf Cf. unfold with_average, figure_fails. destruct (f d) as [m|y]; cbn [rbind].
    - assert (NF : forall y, ~ plot_fails R d y) by (intros y P; apply Rf in P; discriminate).
      destruct (Cf m eq_refl) as [lo [hi [Ex [_ C]]]]. pose proof (has_ways R d lo hi ZeroDivisionError O Ex (NF _) eq_refl) as T.
      pose proof (average_raises R d) as Ra. destruct (d_average R d) as [a|z]; cbn [rbind].
      + destruct Ex as [Ll [Lh B]]. pose proof (B lo Ll) as Blo. assert (Nm : m <> []) by (intros ->; apply (C lo); lia).
        rewrite (make_raises m (Some a) x Nm). split.
        * intros [-> [v [V L]]]. right. split; [reflexivity|]. split; [exact NF|]. apply C in V. rewrite too_large_abs in L.
          destruct (Z.le_gt_cases (Z.abs v) (Z.abs lo)); [exists lo|exists hi]; split; auto; rewrite too_large_abs; lia.
        * intros [P|[-> [_ [v [V L]]]]]; [exfalso; exact (NF _ P)|]. split; [reflexivity|]. exists v. split; [apply C; now apply B|exact L].
      + assert (Z : z = OverflowError /\ exists v, listed R d v /\ too_large (inject_Z v)).
        { destruct (proj1 (Ra z O) eq_refl) as [[_ X]|[-> [_ L]]]; [contradiction|]. split; [reflexivity|].
          destruct (too_large_mean d lo hi O T Ex L) as [H|H]; [exists lo|exists hi]; split; auto; apply Ex. }
        destruct Z as [-> Z]. split; [intros X; injection X as <-; right; auto|]. intros [P|[-> _]]; [exfalso; exact (NF _ P)|reflexivity].
    - specialize (Rf x) as Rx. split; [intros X; injection X as ->; left; now apply Rx|]. intros [P|[_ [P _]]].
      + apply Rx in P. injection P as ->. reflexivity.
      + exfalso. apply (P y). now apply Rf.
  Qed.

  Lemma histogram_covers : forall d m, obtainable R d -> histogram_data R d = Ok m -> exists lo hi, extremes R d lo hi /\ covers lo hi m.
  Proof. intros d m O E. destruct (histogram_bars R d m O E) as [lo [hi [Ex [C _]]]]. eauto. Qed.
  Lemma at_least_covers : forall d m, obtainable R d -> at_least_histogram_data R d = Ok m -> exists lo hi, extremes R d lo hi /\ covers lo hi m.
  Proof. intros d m O E. rewrite (at_least_plotted R d O) in E. destruct (at_least_survival R d m O E) as [lo [hi [Ex [C _]]]]. eauto. Qed.
  Lemma at_most_covers : forall d m, obtainable R d -> at_most_histogram_data R d = Ok m -> exists lo hi, extremes R d lo hi /\ covers lo hi m.
  Proof. intros d m O E. rewrite (at_most_plotted R d O) in E. destruct (at_most_distribution R d m O E) as [lo [hi [Ex [C _]]]]. eauto. Qed.

  Lemma histogram_fails : forall d x, obtainable R d -> (histogram_plot R d = Raise x <-> figure_fails R d x).
  Proof. intros d x O. apply figure_raises; [exact O|intros y; now apply histogram_raises|intros m; now apply histogram_covers]. Qed.
  Lemma at_least_fails : forall d x, obtainable R d -> (at_least_plot R d = Raise x <-> figure_fails R d x).
  Proof.
    intros d x O. apply figure_raises; [exact O| |intros m; now apply at_least_covers].
    intros y. rewrite (at_least_plotted R d O). now apply at_least_raises.
  Qed.
  Lemma at_most_fails : forall d x, obtainable R d -> (at_most_plot R d = Raise x <-> figure_fails R d x).
  Proof.
    intros d x O. apply figure_raises; [exact O| |intros m; now apply at_most_covers].
    intros y. rewrite (at_most_plotted R d O). now apply at_most_raises.
  Qed.

  (** *** Bins *)
  Lemma figure_bins : forall f d h, (forall m, f d = Ok m -> exists lo hi, extremes R d lo hi /\ covers lo hi m) ->
    with_average R f d = Ok h -> (own_bins (map fst (h_points h)) (h_bins h) <-> forall v, listed R d v -> Z.abs v < 2 ^ 52).
  Proof.
    intros f d h Cf E. unfold with_average in E. destruct (f d) as [m|] eqn:Ef; [|discriminate]. cbn [rbind] in E.
    destruct (d_average R d) as [a|]; [|discriminate]. cbn [rbind] in E. destruct (Cf m eq_refl) as [lo [hi [[Ll [Lh B]] C]]].
    rewrite (bins_own m (Some a) h E). unfold small. split.
    - intros [_ S] v V. apply S. apply C. now apply B.
    - intros S. split; [exact (covers_consecutive lo hi m C)|]. intros v V. apply C in V. specialize (S lo Ll) as S1. specialize (S hi Lh) as S2. lia.
  Qed.
  Lemma figure_own_bins : forall d h, obtainable R d -> histogram_plot R d = Ok h \/ at_least_plot R d = Ok h \/ at_most_plot R d = Ok h ->
    (own_bins (map fst (h_points h)) (h_bins h) <-> forall v, listed R d v -> Z.abs v < 2 ^ 52).
  Proof.
    intros d h O [E|[E|E]]; revert E; apply figure_bins; intros m; [now apply histogram_covers|now apply at_least_covers|now apply at_most_covers].
  Qed.

  (** *** The line *)
  Lemma figure_line : forall f d h, obtainable R d -> (forall m, f d = Ok m -> plottable m) -> with_average R f d = Ok h -> f d = Ok (h_points h) /\ marks_mean R d h.
  Proof.
    intros f d h O P E. unfold with_average in E. destruct (f d) as [m|] eqn:Ef; [|discriminate]. cbn [rbind] in E.
    destruct (d_average R d) as [a|] eqn:Ea; [|discriminate]. cbn [rbind] in E. destruct (make_points m _ h E) as [Em _]. split; [now rewrite Em|].
    destruct (line_tallest m a h (P m eq_refl) E) as [top [y H]]. exists a, top, y. split; [apply H|]. split; [now apply average_nearest|]. rewrite Em. apply H.
  Qed.
End Figures.
