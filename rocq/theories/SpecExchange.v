(** * SpecExchange: parts of lines with the same results, and programs that differ in such parts *)
From Verif Require Import Py Constraint Distribution DiceModel Expr Parser Interp SpecDice SpecProgram SpecRoll SpecInterp SpecAlgebra.

Section Spec.
  Context (R : Runtime).

  (** The same results with the same exact probabilities *)
  Definition same_shares (d d' : dist R) : Prop :=
    (total_ways R d = 0 <-> total_ways R d' = 0) /\
    forall v, (listed R d v <-> listed R d' v) /\ reported R d v * total_ways R d' = reported R d' v * total_ways R d.

  (** [e] and [e'] read no variables, and as lines of their own they report the same probabilities *)
  Definition same_alone (e e' : expr) : Prop :=
    simple e /\ simple e' /\ reads e = [] /\ reads e' = [] /\ sided [(None, e)] /\ sided [(None, e')] /\
    exists t t' s s' d d', parse t = Ok e /\ parse t' = Ok e' /\ reachable R s /\ reachable R s' /\
      reports R s [t] d /\ reports R s' [t'] d' /\ same_shares d d'.

  (** The same for roll() *)
  Definition same_rolls (e e' : expr) : Prop :=
    no_assignment e /\ no_assignment e' /\ reads e = [] /\ reads e' = [] /\ drawable [(None, e)] /\ drawable [(None, e')] /\
    exists t t' s s', parse t = Ok e /\ parse t' = Ok e' /\ (forall x, ~ can_raise R s [t] x) /\ (forall x, ~ can_raise R s' [t'] x) /\
      forall v, roll_weight R s [t] v * roll_total R s' [t'] = roll_weight R s' [t'] v * roll_total R s [t].
End Spec.

(** [e'] is [e] with some of its parts exchanged *)
Inductive exchanged (same : expr -> expr -> Prop) : expr -> expr -> Prop :=
| ex_part : forall e e', same e e' -> exchanged same e e'
| ex_same : forall e, exchanged same e e
| ex_paren : forall e e', exchanged same e e' -> exchanged same (EParen e) (EParen e')
| ex_not : forall e e', exchanged same e e' -> exchanged same (ENot e) (ENot e')
| ex_abs : forall e e', exchanged same e e' -> exchanged same (EAbs e) (EAbs e')
| ex_add : forall a a' b b', exchanged same a a' -> exchanged same b b' -> exchanged same (EAdd a b) (EAdd a' b')
| ex_sub : forall a a' b b', exchanged same a a' -> exchanged same b b' -> exchanged same (ESub a b) (ESub a' b')
| ex_mul : forall a a' b b', exchanged same a a' -> exchanged same b b' -> exchanged same (EMul a b) (EMul a' b')
| ex_div : forall a a' b b', exchanged same a a' -> exchanged same b b' -> exchanged same (EDiv a b) (EDiv a' b')
| ex_bin : forall op a a' b b', exchanged same a a' -> exchanged same b b' -> exchanged same (EBin op a b) (EBin op a' b')
| ex_minmax : forall mm a a' b b', exchanged same a a' -> exchanged same b b' -> exchanged same (EMinMax mm a b) (EMinMax mm a' b').

(** The programs have the same lines, with parts exchanged *)
Definition exchanged_program (same : expr -> expr -> Prop) (p q : program) : Prop :=
  Forall2 (fun l l' => fst l = fst l' /\ exchanged same (snd l) (snd l')) p q.
