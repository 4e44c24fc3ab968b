(** * SpecRoll: what one roll of a program gives.

    As [joint] of SpecProgram.v, but with the truth values of roll(): AND and OR are Python's bitwise operators with
    the result compared to 0, and NOT is the truth of an integer, so that every value but 0 is true. *)
From Verif Require Import Py Constraint Distribution DiceModel Expr SpecDice SpecProgram.

Definition roll_operator (op : text) : option (Z -> Z -> Z) :=
  if text_eqb op $"AND" then Some (fun x y => truth (negb (Z.land x y =? 0)))
  else if text_eqb op $"OR" then Some (fun x y => truth (negb (Z.lor x y =? 0)))
  else operator_meaning op.

Fixpoint rolled (env : text -> option Z) (e : expr) : list (option Z) :=
  match e with
  | EParen e => rolled env e
  | ENot e => map (option_map (fun x => truth (x =? 0))) (rolled env e)
  | EAbs e => map (option_map Z.abs) (rolled env e)
  | EDice d => map (fun t => Some (total t)) (tuples (Z.to_nat (dice_num d)) (faces (dice_map d)))
  | EDropKeep dk => map Some (pool_results faces dk)
  | EInt n => [match int_of_text n with Ok z => Some z | Raise _ => None end]
  | EBool s => [Some (truth (text_eqb s $"True"))]
  | EAdd a b => both (fun x y => Some (x + y)) (rolled env a) (rolled env b)
  | ESub a b => both (fun x y => Some (x - y)) (rolled env a) (rolled env b)
  | EMul a b => both (fun x y => Some (x * y)) (rolled env a) (rolled env b)
  | EDiv a b => both (fun x y => if y =? 0 then None else Some (x / y)) (rolled env a) (rolled env b)
  | EBin op a b => both (meaning (roll_operator op)) (rolled env a) (rolled env b)
  | EMinMax mm a b => both (meaning (minmax_meaning mm)) (rolled env a) (rolled env b)
  | EAssign _ e => rolled env e
  | EVar n => [env n]
  end.

Fixpoint rolled_program (env : text -> option Z) (p : program) : list (option Z) :=
  match p with
  | [] => []
  | [(_, e)] => rolled env e
  | (n, e) :: p' =>
      flat_map (fun x => match x with Some x => rolled_program (bind_value env n x) p' | None => [None] end) (rolled env e)
  end.

Fixpoint no_assignment (e : expr) : Prop :=
  match e with
  | EParen e | ENot e | EAbs e => no_assignment e
  | EDropKeep _ | EDice _ | EInt _ | EBool _ | EVar _ => True
  | EAdd a b | ESub a b | EMul a b | EDiv a b | EBin _ a b | EMinMax _ a b => no_assignment a /\ no_assignment b
  | EAssign _ _ => False
  end.

(** Programs of lines [VAR n = e] and [e] that read only variables assigned on earlier lines; any number of dice, also 0 *)
Definition runnable (p : program) : Prop :=
  p <> [] /\ closed [] p /\
  forall n e, In (n, e) p -> well_formed e /\ no_assignment e /\ match n with Some n => var_name n | None => True end.
