(** * SpecRelation: lines that calculate different things with the same two operands *)
From Coq Require Import QArith.
From Verif Require Import Py Constraint Distribution DiceModel Expr Parser Interp SpecDice SpecProgram SpecRoll SpecInterp SpecAlgebra SpecProb SpecFormula SpecCases SpecCost SpecSplit.
Local Open Scope Z_scope.

(** [E] uses the operands [a] and [b] once each, in this order; [h]: its value for the values of [a] and [b].  [E] is an operation on [a] and [b], followed by
    any ABS, NOT and operations with numbers *)
Inductive computed (a b : expr) : expr -> (Z -> Z -> option Z) -> Prop :=
| co_operation : forall E, operands E = Some (a, b) -> computed a b E (combined E)
| co_paren : forall E h, computed a b E h -> computed a b (EParen E) h
| co_abs : forall E h, computed a b E h -> computed a b (EAbs E) (fun x y => option_map Z.abs (h x y))
| co_not : forall E h, computed a b E h -> computed a b (ENot E) (fun x y => option_map (fun v => truth (negb (is_true v))) (h x y))
| co_number_right : forall E h E' t z, computed a b E h -> operands E' = Some (E, EInt t) -> int_of_text t = Ok z ->
    computed a b E' (fun x y => match h x y with Some v => combined E' v z | None => None end)
| co_number_left : forall E h E' t z, computed a b E h -> operands E' = Some (EInt t, E) -> int_of_text t = Ok z ->
    computed a b E' (fun x y => match h x y with Some v => combined E' z v | None => None end).

Section Spec.
  Context (R : Runtime).
  (** [d] is what is reported for the lines [q] followed by a line that calculates [h] of [a] and [b] *)
  Definition calculates (q : program) (a b : expr) (h : Z -> Z -> option Z) (d : dist R) : Prop :=
    exists E s lines, computed a b E h /\ good_program (q ++ [(None, E)]) /\ rollable (q ++ [(None, E)]) /\ program_text lines (q ++ [(None, E)]) /\ reachable R s /\ reports R s lines d.
  (** Several such results, each with a factor *)
  Definition results_of := list (Z * (Z -> Z -> option Z) * dist R).
  Definition calculated (q : program) (a b : expr) (l : results_of) : Prop := forall c h d, In (c, h, d) l -> calculates q a b h d.
  (** [a] and [b] can have the values [x] and [y], and all of the calculations have a value for them *)
  Definition possible_pair (a b : expr) (l : results_of) (x y : Z) : Prop :=
    can_be a (Some x) /\ can_be b (Some y) /\ forall c h d, In (c, h, d) l -> h x y <> None.
  (** The sum of the values, and the sum of the means, with the factors *)
  Definition sum_at (l : results_of) (x y : Z) : Z := zsum (map (fun t => fst (fst t) * match snd (fst t) x y with Some v => v | None => 0 end) l).
  Definition sum_of_means (l : results_of) : Q := qtotal (map (fun t => inject_Z (fst (fst t)) * mean R (snd t))%Q l).
End Spec.
