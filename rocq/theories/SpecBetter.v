(** * SpecBetter: dice and parts of lines with better chances *)
From Coq Require Import QArith.
From Verif Require Import Py Constraint Distribution DiceModel Expr Parser Interp SpecDice SpecProgram SpecInterp SpecAlgebra SpecProb SpecSame.
Local Open Scope Z_scope.

Section Spec.
  Context (R : Runtime).

  (** [d'] reaches every value with at least the probability with which [d] reaches it *)
  Definition at_least_as_good (d d' : dist R) : Prop := forall v, (probability_at_least R d v <= probability_at_least R d' v)%Q.

  (** [e] and [e'] read no variables, and as a line of its own [e'] reports chances at least as good as those of [e] *)
  Definition better_alone (e e' : expr) : Prop :=
    simple e /\ simple e' /\ reads e = [] /\ reads e' = [] /\
    exists t t' s s' d d', parse t = Ok e /\ parse t' = Ok e' /\ reachable R s /\ reachable R s' /\
      reports R s [t] d /\ reports R s' [t'] d' /\ total_ways R d <> 0 /\ total_ways R d' <> 0 /\ at_least_as_good d d'.

  (** The weight of the runs of roll(lines) with a stdout of at least [v] *)
  Definition roll_reaches (s : state R) (lines : list text) (v : Z) : Z :=
    zsum (map fst (filter (fun wr => match stdout_of R (snd wr) with Some x => v <=? x | None => false end) (roll R lines s))).
End Spec.

(** The sign of all values that an expression can have, whatever the values of variables *)
Definition always (P : Z -> Prop) (e : expr) : Prop := forall env x, In (Some x) (joint faces env e) -> P x.

(** What is known about the values that a variable has in two programs *)
Inductive trend : Type := Rises | Falls | Stays.
Definition steady : text -> trend := fun _ => Stays.
Definition unmoved (move : text -> trend) (e : expr) : Prop := forall n, In n (reads e) -> move n = Stays.

(** [e'] is [e] with some parts exchanged for others.  [up = true]: where a larger value makes the value of the whole larger, for better ones, and
    where it makes it smaller, for worse ones.  [up = false]: the other way round.  [move] tells which variables have larger values for [e'] and which
    have smaller ones *)
Inductive improved (better : expr -> expr -> Prop) (move : text -> trend) : bool -> expr -> expr -> Prop :=
| im_better : forall e e', better e e' -> improved better move true e e'
| im_worse : forall e e', better e' e -> improved better move false e e'
| im_same : forall up e, unmoved move e -> improved better move up e e
| im_variable : forall (up : bool) n, move n = (if up then Rises else Falls) -> improved better move up (EVar n) (EVar n)
| im_paren : forall up e e', improved better move up e e' -> improved better move up (EParen e) (EParen e')
| im_not : forall up e e', improved better move (negb up) e e' -> improved better move up (ENot e) (ENot e')
| im_abs : forall up e e', improved better move up e e' -> always (fun x => 0 <= x) e -> always (fun x => 0 <= x) e' -> improved better move up (EAbs e) (EAbs e')
| im_abs_negative : forall up e e', improved better move (negb up) e e' -> always (fun x => x <= 0) e -> always (fun x => x <= 0) e' -> improved better move up (EAbs e) (EAbs e')
| im_add : forall up a a' b b', improved better move up a a' -> improved better move up b b' -> improved better move up (EAdd a b) (EAdd a' b')
| im_sub : forall up a a' b b', improved better move up a a' -> improved better move (negb up) b b' -> improved better move up (ESub a b) (ESub a' b')
| im_mul : forall up a a' b, improved better move up a a' -> unmoved move b -> always (fun x => 0 <= x) b -> improved better move up (EMul a b) (EMul a' b)
| im_mul_negative : forall up a a' b, improved better move (negb up) a a' -> unmoved move b -> always (fun x => x <= 0) b -> improved better move up (EMul a b) (EMul a' b)
| im_mul_right : forall up a b b', improved better move up b b' -> unmoved move a -> always (fun x => 0 <= x) a -> improved better move up (EMul a b) (EMul a b')
| im_mul_right_negative : forall up a b b', improved better move (negb up) b b' -> unmoved move a -> always (fun x => x <= 0) a ->
    improved better move up (EMul a b) (EMul a b')
| im_mul_both : forall up a a' b b', improved better move up a a' -> improved better move up b b' -> always (fun x => 0 <= x) a' ->
    always (fun x => 0 <= x) b -> always (fun x => 0 <= x) b' -> improved better move up (EMul a b) (EMul a' b')
| im_div : forall up a a' b, improved better move up a a' -> unmoved move b -> always (fun x => 0 < x) b -> improved better move up (EDiv a b) (EDiv a' b)
| im_div_negative : forall up a a' b, improved better move (negb up) a a' -> unmoved move b -> always (fun x => x < 0) b -> improved better move up (EDiv a b) (EDiv a' b)
| im_div_both : forall up a a' b b', improved better move up a a' -> improved better move (negb up) b b' -> always (fun x => 0 <= x) a' ->
    always (fun x => 0 < x) b -> always (fun x => 0 < x) b' -> improved better move up (EDiv a b) (EDiv a' b')
| im_above : forall up op a a' b b', op = $">" \/ op = $">=" -> improved better move up a a' -> improved better move (negb up) b b' ->
    improved better move up (EBin op a b) (EBin op a' b')
| im_below : forall up op a a' b b', op = $"<" \/ op = $"<=" -> improved better move (negb up) a a' -> improved better move up b b' ->
    improved better move up (EBin op a b) (EBin op a' b')
| im_logic : forall up op a a' b b', op = $"AND" \/ op = $"OR" -> improved better move up a a' -> improved better move up b b' ->
    improved better move up (EBin op a b) (EBin op a' b')
| im_minmax : forall up mm a a' b b', improved better move up a a' -> improved better move up b b' -> improved better move up (EMinMax mm a b) (EMinMax mm a' b').

(** After a line *)
Definition moved (move : text -> trend) (n : option text) (t : trend) : text -> trend :=
  match n with Some n => fun k => if text_eqb k n then t else move k | None => move end.
(** The same for programs: variables that are assigned better values are used where the value of the last line grows with them, and those that are
    assigned worse ones where it falls *)
Inductive improved_program (better : expr -> expr -> Prop) : (text -> trend) -> program -> program -> Prop :=
| ip_last : forall move m e e', improved better move true e e' -> improved_program better move [(m, e)] [(m, e')]
| ip_rises : forall move n e e' q q', improved better move true e e' -> improved_program better (moved move n Rises) q q' ->
    improved_program better move ((n, e) :: q) ((n, e') :: q')
| ip_falls : forall move n e e' q q', improved better move false e e' -> improved_program better (moved move n Falls) q q' ->
    improved_program better move ((n, e) :: q) ((n, e') :: q')
| ip_stays : forall move n e q q', unmoved move e -> improved_program better (moved move n Stays) q q' ->
    improved_program better move ((n, e) :: q) ((n, e) :: q').

(** ** Pools *)

(** The highest [k] of [n] dice with the faces [fs] are added up: sums of all dice, pools, and MAX of single dice *)
Inductive highest_of (fs vs : list Z) (k : nat) : nat -> expr -> Prop :=
| hi_sum : forall e, sum_of fs vs k e -> highest_of fs vs k k e
| hi_pool : forall dk n, such_die fs vs (dk_map dk) -> dk_keep dk = true -> dk_num dk = Z.of_nat n -> dk_k dk = Z.of_nat k -> (1 <= k <= n)%nat ->
    highest_of fs vs k n (EDropKeep dk)
| hi_best : forall n e, k = 1%nat -> best_of true fs vs n e -> highest_of fs vs k n e.
(** The lowest [k]: sums, pools, and MIN *)
Inductive lowest_of (fs vs : list Z) (k : nat) : nat -> expr -> Prop :=
| lo_sum : forall e, sum_of fs vs k e -> lowest_of fs vs k k e
| lo_pool : forall dk n, such_die fs vs (dk_map dk) -> dk_keep dk = false -> dk_num dk = Z.of_nat n -> dk_k dk = Z.of_nat (n - k) -> (1 <= k <= n)%nat ->
    lowest_of fs vs k n (EDropKeep dk)
| lo_best : forall n e, k = 1%nat -> best_of false fs vs n e -> lowest_of fs vs k n e.

(** A die with the faces [fs'] reaches every value with at least the probability with which one with the faces [fs] reaches it *)
Definition reaching (v : Z) (fs : list Z) : Z := Z.of_nat (length (filter (fun x => v <=? x) fs)).
Definition better_faces (fs fs' : list Z) : Prop :=
  fs <> [] /\ fs' <> [] /\ forall v, reaching v fs * Z.of_nat (length fs') <= reaching v fs' * Z.of_nat (length fs).

(** Both count the highest [k] of [n] dice, or both the lowest *)
Definition pools_alike (fs vs fs' vs' : list Z) (e e' : expr) : Prop :=
  exists k n, highest_of fs vs k n e /\ highest_of fs' vs' k n e' \/ lowest_of fs vs k n e /\ lowest_of fs' vs' k n e'.
