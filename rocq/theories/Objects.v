(** * Objects: the public methods of outcomes and distributions, given any Python object.

    The rest of the model gives them operands of the right class, as the interpreter does. *)
From Verif Require Import Py Constraint Distribution.

Section Model.
  Context (R : Runtime).

  (** A Python object, as far as the code looks at it.  [PElse]: any object of a built-in class other than int and bool
      (None, str, float, list, ...); all of them answer NotImplemented, or raise TypeError, when an operator combines them
      with an object of these two classes. *)
  Inductive pyobj :=
  | PInt (z : Z)
  | PBool (b : bool)
  | POutcome (o : outcome R)
  | PDist (d : dist R)
  | PElse.

  (** isinstance(x, int), and the number: bool is a subclass of int, True is 1 and False is 0 *)
  Definition as_int (x : pyobj) : option Z :=
    match x with
    | PInt z => Some z
    | PBool b => Some (binary_to_int b)
    | _ => None
    end.

  (** probability_outcome.py:9-14: ProbabilityOutcome(value, constraint_set).  A bool stays a bool inside; it equals the
      number, has the same hash and behaves like it in arithmetic (only str() prints it differently). *)
  Definition new_outcome (value : pyobj) (cs : cset (rt_c R)) : res (outcome R) :=
    match as_int value with
    | None => Raise TypeError
    | Some z => Ok {| o_value := z; o_cs := cs |}
    end.

  (** probability_outcome.py:24-44, 57-91, 97-101: the binary methods of an outcome *)
  Definition outcome_method (op : vop) (self : outcome R) (other : pyobj) : res (outcome R) :=
    match other with
    | POutcome o => o_combine R op self o
    | _ => Raise TypeError
    end.

  (** probability_outcome.py:117-120: ProbabilityOutcome.__eq__ *)
  Definition outcome_eq (self : outcome R) (other : pyobj) : res bool :=
    match other with
    | POutcome o => Ok (o_eqb R self o)
    | _ => Raise TypeError
    end.

  (** probability_distribution.py:268-338, 352-362: the binary methods of a distribution *)
  Definition dist_method (op : vop) (self : dist R) (other : pyobj) : res (dist R) :=
    match other with
    | PDist d => d_binop R op self d
    | _ => Raise TypeError
    end.

  (** The operators for which Python asks the right operand when the left one does not know the answer, with the
      method it then calls; neither class has __radd__ and the like, so there is none for the others *)
  Definition reflected (op : vop) : option vop :=
    match op with
    | VLt => Some VGt
    | VLe => Some VGe
    | VGt => Some VLt
    | VGe => Some VLe
    | _ => None
    end.

  (** [x op y] for the operators that Python writes between its operands: + - * // < <= > >= & |, one of the operands
      being an outcome or a distribution.  Python calls the method of the left operand; ints and the like answer
      NotImplemented. *)
  Definition py_operator (op : vop) (x y : pyobj) : res pyobj :=
    match x with
    | PDist a => rmap PDist (dist_method op a y)
    | POutcome a => rmap POutcome (outcome_method op a y)
    | _ =>
        match reflected op, y with
        | Some op', PDist b => rmap PDist (dist_method op' b x)
        | Some op', POutcome b => rmap POutcome (outcome_method op' b x)
        | _, _ => Raise TypeError
        end
    end.

  (** [x == y], one of the operands being an outcome.  A distribution has object's __eq__, which answers NotImplemented for
      an object other than itself. *)
  Definition py_equal (x y : pyobj) : res bool :=
    match x, y with
    | POutcome a, _ => outcome_eq a y
    | _, POutcome b => outcome_eq b x
    | _, _ => Raise OutOfFuel   (* not an outcome: outside this definition *)
    end.

  (** probability_distribution.py:28-33: the entries that reach safe_add, in order; entries with another key are passed
      over.  An object is not both an int and an outcome, so at most one of the two tests succeeds. *)
  Fixpoint known_entries (m : list (pyobj * Z)) : res (list (outcome R * Z)) :=
    match m with
    | [] => Ok []
    | (k, c) :: m' =>
        match as_int k, k with
        | Some z, _ => rbind (create_empty R z) (fun o => rmap (cons (o, c)) (known_entries m'))
        | None, POutcome o => rmap (cons (o, c)) (known_entries m')
        | None, _ => known_entries m'
        end
    end.

  (** probability_distribution.py:15-36, probability_distribution_factory.py:19-23: a distribution from a dictionary
      with any keys, and from None *)
  Definition new_dist (result_map : option (list (pyobj * Z))) : res (dist R) :=
    match result_map with
    | None => Ok (mk_dist R [])
    | Some m => rmap (mk_dist R) (known_entries m)
    end.
End Model.

Arguments PInt {R}. Arguments PBool {R}. Arguments POutcome {R}. Arguments PDist {R}. Arguments PElse {R}.
