(** * SpecRollCount: lines with dice or a pool that roll() can roll *)
From Verif Require Import Py DiceModel Expr Parser SpecDice SpecProgram SpecPool.

(** The line [t] is [n] dice with the faces [m], which can be rolled *)
Definition dice_line (m : list (Z * Z)) (n : Z) (t : text) : Prop := exists e, parse t = Ok e /\ dice_roll m n e /\ simple e /\ can_choose m.
(** The line [t] is such dice of which the highest [k] are kept, or dropped *)
Definition pool_line (keep : bool) (m : list (Z * Z)) (n k : Z) (t : text) : Prop := exists e, parse t = Ok e /\ pool keep m n k e /\ simple e /\ can_choose m.
