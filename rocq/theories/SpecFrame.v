(** * SpecFrame: lines that do not depend on each other *)
From Verif Require Import Py PyFloat Constraint Distribution DiceModel Expr Parser Interp SpecProgram SpecInterp SpecCalls.

(** The lines read or assign [n] *)
Definition touches (lines : list text) (n : text) : Prop := mentions_name lines n \/ assigns lines n.
(** Neither of the two reads or assigns what the other one assigns *)
Definition separate (l1 l2 : list text) : Prop := forall n, (assigns l1 n -> ~ touches l2 n) /\ (assigns l2 n -> ~ touches l1 n).

Definition same_entries {A} (d d' : list (text * A)) : Prop := forall n, dget text_eqb d n = dget text_eqb d' n.

(** The results [r] and [r'] of the same lines in two orders: both are values, alike according to [same], or both are
    exceptions, the same one unless both parts raise when they are run alone (with results [alone1] and [alone2]) *)
Definition exchanged {A} (same : A -> A -> Prop) (alone1 alone2 r r' : res A) : Prop :=
  match r, r' with
  | Ok a, Ok a' => same a a'
  | Raise x, Raise y => x = y \/ (alone1 = Raise x /\ alone2 = Raise y)
  | _, _ => False
  end.
(** The results [r] and [r'] with and without some lines: the same exception, or values alike according to [same] *)
Definition unaffected {A} (same : A -> A -> Prop) (r r' : res A) : Prop :=
  match r, r' with Ok a, Ok a' => same a a' | Raise x, Raise y => x = y | _, _ => False end.

Section Spec.
  Context (R : Runtime).
  Notation state := (state R).

  (** What a call of max() or min() returns *)
  Definition returned (r : state * res const_dict) : res (list (text * Z)) :=
    match r with (s', Ok d) => Ok (read_dict R s' d) | (_, Raise x) => Raise x end.

  (** The weight of the runs of roll() that return a dictionary with property [P] *)
  Definition event_weight (P : (text -> option Z) -> bool) (runs : list (Z * (state * res const_dict))) : Z :=
    zsum (map fst (filter (fun run => match snd run with (s', Ok d) => P (dget text_eqb (read_dict R s' d)) | (_, Raise _) => false end) runs)).
  (** [P] only depends on the entries in [N] *)
  Definition about (N : text -> Prop) (P : (text -> option Z) -> bool) : Prop := forall f g, (forall n, N n -> f n = g n) -> P f = P g.
End Spec.
