(** * SpecSplit: a last line that combines the results of two separate groups of lines *)
From Coq Require Import QArith.
From Verif Require Import Py Constraint Distribution DiceModel Expr Parser Interp SpecProgram SpecRoll SpecInterp SpecAlgebra SpecProb SpecFormula SpecCases SpecCost SpecAfresh.
Local Open Scope Z_scope.

(** No variable is assigned in both groups *)
Definition separate (p q : program) : Prop := forall n, assigned p n -> assigned q n -> False.

(** The result of the operation in [e], an expression with two operands, for the values [x] and [y] of the operands; none for a division by zero *)
Definition combined (e : expr) (x y : Z) : option Z :=
  match e with
  | EAdd _ _ => Some (x + y)
  | ESub _ _ => Some (x - y)
  | EMul _ _ => Some (x * y)
  | EDiv _ _ => if y =? 0 then None else Some (x / y)
  | EBin op _ _ => match operator_meaning op with Some f => Some (f x y) | None => None end
  | EMinMax mm _ _ => match minmax_meaning mm with Some f => Some (f x y) | None => None end
  | _ => None
  end.
Definition gives (e : expr) (x y v : Z) : bool := match combined e x y with Some w => w =? v | None => false end.

(** The same for roll(), which has other meanings for AND and OR *)
Definition roll_combined (e : expr) (x y : Z) : option Z :=
  match e with
  | EBin op _ _ => match roll_operator op with Some f => Some (f x y) | None => None end
  | _ => combined e x y
  end.
Definition roll_gives (e : expr) (x y v : Z) : bool := match roll_combined e x y with Some w => w =? v | None => false end.

(** The mean of the square of the distance to the mean *)
Definition variance (R : Runtime) (d : dist R) : Q :=
  qtotal (map (fun x => probability R d x * ((inject_Z x - mean R d) * (inject_Z x - mean R d)))%Q (map fst (get_result_map R d))).

(** [d1] is the result of the lines [q1], [e1], [d2] that of the lines [q2], [e2], and [d] that of the lines [q1], [q2] and the operation [E] on [e1] and [e2] *)
Definition combines (R : Runtime) (E e1 e2 : expr) (q1 q2 : program) (d d1 d2 : dist R) : Prop :=
  operands E = Some (e1, e2) /\ simple E /\ good_program (q1 ++ [(None, e1)]) /\ good_program (q2 ++ [(None, e2)]) /\ separate q1 q2 /\
  exists s s1 s2 lines lines1 lines2, reachable R s /\ reachable R s1 /\ reachable R s2 /\
    program_text lines (q1 ++ q2 ++ [(None, E)]) /\ program_text lines1 (q1 ++ [(None, e1)]) /\ program_text lines2 (q2 ++ [(None, e2)]) /\
    reports R s lines d /\ reports R s1 lines1 d1 /\ reports R s2 lines2 d2.
