(** * SpecPool: dice and pools of the same dice *)
From Verif Require Import Py Constraint Distribution DiceModel Expr Parser Interp SpecDice SpecProgram SpecInterp SpecAlgebra SpecCases.

(** [n] dice with the faces [m] *)
Definition dice_roll (m : list (Z * Z)) (n : Z) (e : expr) : Prop := exists d, e = EDice d /\ dice_map d = m /\ dice_num d = n.
(** [n] dice with the faces [m] of which the highest [k] are kept, or dropped *)
Definition pool (keep : bool) (m : list (Z * Z)) (n k : Z) (e : expr) : Prop :=
  exists dk, e = EDropKeep dk /\ dk_map dk = m /\ dk_num dk = n /\ dk_k dk = k /\ dk_keep dk = keep.

Section Spec.
  Context (R : Runtime).
  (** [d] is what is reported for [n] such dice in a line of their own *)
  Definition dice_report (m : list (Z * Z)) (n : Z) (d : dist R) : Prop := exists e, dice_roll m n e /\ simple e /\ alone R e d.
  Definition keep_report (m : list (Z * Z)) (n k : Z) (d : dist R) : Prop := exists e, pool true m n k e /\ simple e /\ alone R e d.
  Definition drop_report (m : list (Z * Z)) (n k : Z) (d : dist R) : Prop := exists e, pool false m n k e /\ simple e /\ alone R e d.
End Spec.
