(** * SpecCases: distinguishing the values of a variable *)
From Coq Require Import QArith.
From Verif Require Import Py Constraint Distribution DiceModel Expr Parser Interp SpecDice SpecProgram SpecInterp SpecAlgebra.
Local Open Scope Z_scope.

(** [lines] are a program in which the variable [n] is set to the number [x], between the lines [before] and [rest] *)
Definition case_lines (before : program) (n : text) (rest : program) (x : Z) (lines : list text) : Prop :=
  exists t, int_of_text t = Ok x /\ program_text lines (before ++ (Some n, EInt t) :: rest).

Section Spec.
  Context (R : Runtime).
  (** [d] is what is reported for [e] as a line of its own *)
  Definition alone (e : expr) (d : dist R) : Prop := exists t s, parse t = Ok e /\ reachable R s /\ reports R s [t] d.
  (** [d] is what is reported for the program in which [n] is set to [x] *)
  Definition case (before : program) (n : text) (rest : program) (x : Z) (d : dist R) : Prop :=
    exists lines s, case_lines before n rest x lines /\ reachable R s /\ reports R s lines d.
End Spec.

Definition qtotal (l : list Q) : Q := fold_right Qplus 0%Q l.
