(** * SpecFormula: formulas with letters, and lines that are made of equal ones *)
From Verif Require Import Py Constraint Distribution DiceModel Expr Parser Interp SpecDice SpecProgram SpecRoll SpecInterp SpecAlgebra SpecExchange.
Local Open Scope Z_scope.

(** A formula is an expression without dice, its variables are the letters.  [fill put f]: the formula [f] with the expressions [put] for its letters *)
Fixpoint fill (put : text -> expr) (f : expr) : expr :=
  match f with
  | EParen a => EParen (fill put a)
  | ENot a => ENot (fill put a)
  | EAbs a => EAbs (fill put a)
  | EAssign n a => EAssign n (fill put a)
  | EDropKeep _ | EDice _ | EInt _ | EBool _ => f
  | EAdd a b => EAdd (fill put a) (fill put b)
  | ESub a b => ESub (fill put a) (fill put b)
  | EMul a b => EMul (fill put a) (fill put b)
  | EDiv a b => EDiv (fill put a) (fill put b)
  | EBin op a b => EBin op (fill put a) (fill put b)
  | EMinMax mm a b => EMinMax mm (fill put a) (fill put b)
  | EVar n => put n
  end.

(** [x] is a value that an expression can have, for some values of its variables *)
Definition can_be (e : expr) (x : option Z) : Prop := exists env, In x (joint (map fst) env e).

(** The formulas [f] and [g] have the same letters, and the same value for all values that the letters can have *)
Definition equal_formulas (put : text -> expr) (f g : expr) : Prop :=
  simple f /\ simple g /\ dice_of f = [] /\ dice_of g = [] /\ (forall n, In n (reads f) <-> In n (reads g)) /\
  forall env, (forall n, In n (reads f) -> can_be (put n) (env n)) -> joint faces env f = joint faces env g.

(** [e] and [e'] are made of equal formulas.  Every letter stands in each formula exactly once; with [several = true] letters for expressions without
    dice may stand there more often *)
Definition same_formula (several : bool) (e e' : expr) : Prop :=
  exists put f g, e = fill put f /\ e' = fill put g /\ equal_formulas put f g /\ (forall n, In n (reads f) -> simple (put n)) /\
    forall n, In n (reads f) -> times_read n f = 1 /\ times_read n g = 1 \/ several = true /\ dice_of (put n) = [].
