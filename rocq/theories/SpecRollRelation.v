(** * SpecRollRelation: rolls of lines that calculate different things with the same two operands *)
From Verif Require Import Py Constraint Distribution DiceModel Expr Parser Interp SpecProgram SpecRoll SpecInterp SpecCost SpecSplit.

(** The lines of text [lines] are the lines [q] followed by a line with the operation [E] on [a] and [b]; roll() can roll their dice *)
Definition rolls_operation (q : program) (a b E : expr) (lines : list text) : Prop :=
  operands E = Some (a, b) /\ runnable (q ++ [(None, E)]) /\ drawable (q ++ [(None, E)]) /\ program_text lines (q ++ [(None, E)]).

(** Some roll of [e] gives [x], for some values of the variables *)
Definition can_come_up (e : expr) (x : Z) : Prop := exists env, In (Some x) (rolled env e).

Section Spec.
  Context (R : Runtime).
  (** Events: the roll of such lines, by an interpreter in some state, gives some value; each with a factor *)
  Record event := { e_factor : Z; e_expr : expr; e_value : Z; e_state : state R; e_lines : list text }.
  Definition events_of (q : program) (a b : expr) (l : list event) : Prop := forall i, In i l -> rolls_operation q a b (e_expr i) (e_lines i).
  (** The factors of the events that happen when the values of [a] and [b] are [x] and [y], added up *)
  Definition happening (l : list event) (x y : Z) : Z := zsum (map (fun i => if roll_gives (e_expr i) x y (e_value i) then e_factor i else 0) l).
  (** The weights of the events, with the factors *)
  Definition weighed (l : list event) : Z := zsum (map (fun i => e_factor i * roll_weight R (e_state i) (e_lines i) (e_value i)) l).
End Spec.
Arguments e_factor {R}. Arguments e_expr {R}. Arguments e_value {R}. Arguments e_state {R}. Arguments e_lines {R}.
