(** * SpecProb: floats as numbers, and the exact probabilities that they are meant to show *)
From Coq Require Import QArith Qabs Sorted Floats.SpecFloat.
From Verif Require Import Py Constraint Distribution SpecDice SpecAlgebra PyFloat.
Local Open Scope Z_scope.

(** ** IEEE-754 binary64 numbers *)

(** The value of a float; none for infinities and NaN *)
Definition fvalue (f : pyfloat) : option Q :=
  match f with
  | S754_zero _ => Some 0%Q
  | S754_finite s m e => Some (inject_Z (if s then Z.neg m else Z.pos m) * 2 ^ e)%Q
  | S754_infinity _ | S754_nan => None
  end.
Definition has_value (f : pyfloat) (x : Q) : Prop := exists y, fvalue f = Some y /\ (y == x)%Q.

(** The numbers that a float can have as its value *)
Definition is_double (x : Q) : Prop :=
  exists m e, Z.abs m < 2 ^ 53 /\ -1074 <= e <= 971 /\ (x == inject_Z m * 2 ^ e)%Q.
(** Those with an even last bit *)
Definition is_even_double (x : Q) : Prop :=
  exists m e, Z.abs m < 2 ^ 53 /\ -1074 <= e <= 971 /\ (2 ^ 52 <= Z.abs m \/ e = -1074) /\ Z.even m = true /\ (x == inject_Z m * 2 ^ e)%Q.

(** [f] is the float nearest to [x], the even one of two equally near ones *)
Definition nearest (x : Q) (f : pyfloat) : Prop :=
  exists v, fvalue f = Some v /\ is_double v /\
    forall y, is_double y -> (Qabs (v - x) <= Qabs (y - x))%Q /\ ((Qabs (v - x) == Qabs (y - x))%Q -> (y == v)%Q \/ is_even_double v).
(** Too large to be rounded to a float *)
Definition too_large (x : Q) : Prop := (inject_Z (2 ^ 1024 - 2 ^ 970) <= Qabs x)%Q.

(** ** Exact probabilities *)
Section Spec.
  Context (R : Runtime).
  Notation dist := (dist R).

  Definition probability (d : dist) (v : Z) : Q := (inject_Z (reported R d v) / inject_Z (total_ways R d))%Q.
  Definition ways_where (d : dist) (test : Z -> bool) : Z := zsum (map snd (filter (fun vc => test (fst vc)) (get_result_map R d))).
  Definition probability_at_least (d : dist) (v : Z) : Q :=
    (inject_Z (ways_where d (fun w => v <=? w)) / inject_Z (total_ways R d))%Q.
  Definition probability_at_most (d : dist) (v : Z) : Q :=
    (inject_Z (ways_where d (fun w => w <=? v)) / inject_Z (total_ways R d))%Q.

  (** The smallest and the largest result *)
  Definition extremes (d : dist) (lo hi : Z) : Prop := listed R d lo /\ listed R d hi /\ forall v, listed R d v -> lo <= v <= hi.
End Spec.

(** ** Tables of floats *)

(** One entry for each integer from [lo] to [hi], in this order *)
Definition covers (lo hi : Z) (m : list (Z * pyfloat)) : Prop :=
  StronglySorted Z.lt (map fst m) /\ forall v, In v (map fst m) <-> lo <= v <= hi.
Definition never_increases (m : list (Z * pyfloat)) : Prop :=
  forall v f x v' f' x', In (v, f) m -> In (v', f') m -> v <= v' -> fvalue f = Some x -> fvalue f' = Some x' -> (x' <= x)%Q.
Definition never_decreases (m : list (Z * pyfloat)) : Prop :=
  forall v f x v' f' x', In (v, f) m -> In (v', f') m -> v <= v' -> fvalue f = Some x -> fvalue f' = Some x' -> (x <= x')%Q.
(** [f] has a value and it differs from [x] by at most [n] * 2^-50 *)
Definition within_rounding (n : Z) (x : Q) (f : pyfloat) : Prop :=
  exists y, fvalue f = Some y /\ (Qabs (y - x) <= inject_Z n * 2 ^ (-50))%Q.

(** Each of the integers [xs] in a bin of its own, from one half below it to one half above it; [bins]: the edges *)
Definition own_bins (xs : list Z) (bins : list pyfloat) : Prop :=
  length bins = S (length xs) /\
  forall i x, nth_error xs i = Some x -> exists l r, nth_error bins i = Some l /\ nth_error bins (S i) = Some r /\
    has_value l (inject_Z x - (1 # 2)) /\ has_value r (inject_Z x + (1 # 2)).
(** [y]: the largest of the values that a table shows *)
Definition tallest (m : list (Z * pyfloat)) (y : Q) : Prop :=
  (exists v f, In (v, f) m /\ has_value f y) /\ forall v f x, In (v, f) m -> fvalue f = Some x -> (x <= y)%Q.

(** How high a table piles up at [v]: the sum of the values that it shows there *)
Definition height (m : list (Z * pyfloat)) (v : Z) : Q :=
  fold_right (fun p h => if fst p =? v then (match fvalue (snd p) with Some x => x | None => 0 end + h)%Q else h) 0%Q m.

Section Spec2.
  Context (R : Runtime).
  Notation dist := (dist R).

  (** [m] shows, for each result of [d] in the order of get_result_map(), the float nearest to its probability, between 0 and 1 *)
  Definition shows_probabilities (d : dist) (m : list (Z * pyfloat)) : Prop :=
    map fst m = map fst (get_result_map R d) /\
    forall v f, In (v, f) m -> nearest (probability R d v) f /\ exists x, fvalue f = Some x /\ (0 <= x <= 1)%Q.

  (** How the probabilities and plots of [d] can fail: no ways at all, or (plots only) no results at all *)
  Definition no_ways (d : dist) : Prop := total_ways R d = 0 /\ exists v, listed R d v.
  Definition plot_fails (d : dist) (x : exn) : Prop :=
    (x = ZeroDivisionError /\ no_ways d) \/ (x = IndexError /\ forall v, ~ listed R d v).

  (** [f] is the float nearest to the mean of [d], and lies between the floats around the extremes *)
  Definition shows_mean (d : dist) (f : pyfloat) : Prop :=
    total_ways R d <> 0 /\ nearest (mean R d) f /\
    forall lo hi, extremes R d lo hi -> exists x, fvalue f = Some x /\
      forall y, is_double y -> ((y <= inject_Z lo)%Q -> (y <= x)%Q) /\ ((inject_Z hi <= y)%Q -> (x <= y)%Q).

  (** A figure of [d] marks the mean by a line that is a tenth higher than the largest value shown *)
  Definition marks_mean (d : dist) (h : histogram) : Prop := exists a top y, h_line h = Some (a, top) /\ shows_mean d a /\
    tallest (h_points h) y /\ within_rounding 2 ((11 # 10) * y) top /\ forall t, fvalue top = Some t -> (y <= t)%Q.
  (** How a figure of [d] can fail: also when a result is too large for a float *)
  Definition figure_fails (d : dist) (x : exn) : Prop :=
    plot_fails d x \/ (x = OverflowError /\ (forall y, ~ plot_fails d y) /\ exists v, listed R d v /\ too_large (inject_Z v)).

  (** The results of at_least() and at_most() *)
  Definition is_survival_function (d : dist) (m : list (Z * pyfloat)) : Prop := exists lo hi, extremes R d lo hi /\
    covers lo hi m /\ (forall f, In (lo, f) m -> has_value f 1) /\ never_increases m /\
    forall v f, In (v, f) m -> within_rounding (v - lo) (probability_at_least R d v) f.
  Definition is_distribution_function (d : dist) (m : list (Z * pyfloat)) : Prop := exists lo hi, extremes R d lo hi /\
    covers lo hi m /\ (forall f, In (lo, f) m -> nearest (probability R d lo) f) /\ never_decreases m /\
    forall v f, In (v, f) m -> within_rounding (v - lo + 1) (probability_at_most R d v) f.
  (** The bars of a histogram *)
  Definition is_histogram (d : dist) (m : list (Z * pyfloat)) : Prop := exists lo hi, extremes R d lo hi /\
    covers lo hi m /\ forall v f, In (v, f) m -> nearest (probability R d v) f.
  (** The bars of a comparison of [a] with [b] as the code plots them: each integer once for each of the two ranges it lies in *)
  Definition between (lo hi v : Z) : nat := if (lo <=? v) && (v <=? hi) then 1%nat else 0%nat.
  Definition is_comparison (a b : dist) (m : list (Z * pyfloat)) : Prop := exists lo hi lo' hi', extremes R a lo hi /\ extremes R b lo' hi' /\
    StronglySorted Z.le (map fst m) /\
    (forall v, count_occ Z.eq_dec (map fst m) v = (between lo hi v + between lo' hi' v)%nat) /\
    forall v f, In (v, f) m -> within_rounding 1 (probability R a v - probability R b v) f.
  (** The two curves of a comparison: [shows] says what a curve shows of a distribution *)
  Definition compares (shows : dist -> list (Z * pyfloat) -> Prop) (a b : dist) (name name' : text) (p : line_plot) : Prop :=
    fst (lp_one p) = name /\ shows a (snd (lp_one p)) /\ fst (lp_two p) = name' /\ shows b (snd (lp_two p)).
  Definition comparison_fails (a b : dist) (x : exn) : Prop := plot_fails a x \/ ((forall y, ~ plot_fails a y) /\ plot_fails b x).
  (** What a comparison should show: each result of either distribution once *)
  Definition shows_each_once (a b : dist) (m : list (Z * pyfloat)) : Prop :=
    NoDup (map fst m) /\ forall v, listed R a v \/ listed R b v -> In v (map fst m).
End Spec2.
