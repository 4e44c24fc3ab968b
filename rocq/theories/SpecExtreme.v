(** * SpecExtreme: what max() and min() return.

    MAX and MIN are worked out from the extremes of their operands, a variable has the extreme that was worked out on its
    line, and everything else has the extreme of the values that it can have. *)
From Verif Require Import Py Constraint Distribution DiceModel Expr SpecDice SpecProgram SpecInterp.

Definition values : Type := text -> option Z.

(** [v] is the largest (smallest) value of [e] when the variables have any of the values [E] *)
Definition largest (mx : bool) (E : values -> Prop) (e : expr) (v : Z) : Prop :=
  (exists env, E env /\ In (Some v) (joint (map fst) env e)) /\
  forall env x, E env -> In (Some x) (joint (map fst) env e) -> within mx x v.

Fixpoint worked_out (mx : bool) (E : values -> Prop) (stored : text -> Z -> Prop) (e : expr) (v : Z) : Prop :=
  match e with
  | EParen e | EAssign _ e => worked_out mx E stored e v
  | EMinMax mm a b => exists f x y, minmax_meaning mm = Some f /\ worked_out mx E stored a x /\ worked_out mx E stored b y /\ v = f x y
  | EVar n => stored n v
  | _ => largest mx E e v
  end.

(** After the line [(n, e)] *)
Definition values_after (E : values -> Prop) (n : option text) (e : expr) : values -> Prop :=
  fun env' => exists env x, E env /\ In (Some x) (joint (map fst) env e) /\ forall m, env' m = bind_value env n x m.
Definition stored_after (stored : text -> Z -> Prop) (n : option text) (w : Z) : text -> Z -> Prop :=
  match n with Some n => fun m v => if text_eqb m n then v = w else stored m v | None => stored end.

Fixpoint line_extreme (mx : bool) (E : values -> Prop) (stored : text -> Z -> Prop) (p : program) (v : Z) : Prop :=
  match p with
  | [] => False
  | [(_, e)] => worked_out mx E stored e v
  | (n, e) :: p' => exists w, worked_out mx E stored e w /\ line_extreme mx (values_after E n e) (stored_after stored n w) p' v
  end.

(** The extreme of the last line of a program *)
Definition program_extreme (mx : bool) (p : program) (v : Z) : Prop :=
  line_extreme mx (fun env => forall n, env n = None) (fun _ _ => False) p v.
