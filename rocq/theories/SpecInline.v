(** * SpecInline: writing the definition of a variable where the variable is read *)
From Verif Require Import Py Constraint Distribution DiceModel Expr SpecDice SpecProgram.

(** [f] with [(e)] for the variable [x] *)
Fixpoint put (x : text) (e f : expr) : expr :=
  match f with
  | EParen a => EParen (put x e a)
  | ENot a => ENot (put x e a)
  | EAbs a => EAbs (put x e a)
  | EAssign n a => EAssign n (put x e a)
  | EDropKeep _ | EDice _ | EInt _ | EBool _ => f
  | EAdd a b => EAdd (put x e a) (put x e b)
  | ESub a b => ESub (put x e a) (put x e b)
  | EMul a b => EMul (put x e a) (put x e b)
  | EDiv a b => EDiv (put x e a) (put x e b)
  | EBin op a b => EBin op (put x e a) (put x e b)
  | EMinMax mm a b => EMinMax mm (put x e a) (put x e b)
  | EVar n => if text_eqb n x then EParen e else f
  end.

(** The value that [x] has before these lines is not read *)
Fixpoint not_read (x : text) (p : program) : Prop :=
  match p with
  | [] => True
  | (n, f) :: p' => ~ In x (reads f) /\ (n = Some x \/ not_read x p')
  end.
