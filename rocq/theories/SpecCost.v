(** * SpecCost: what the estimated cost of a line is made of *)
From Coq Require Import QArith Qround.
From Verif Require Import Py PyFloat Constraint Distribution DiceModel Expr Parser Interp SpecDice SpecProgram SpecCalls SpecProb.
Local Open Scope Z_scope.

(** The product of [c] and 1.1 as floats, rounded down: [c] is rounded to a float, multiplied by the float nearest to
    11/10, the product is rounded to a float, and what is after the point is dropped *)
Definition one_point_one (z : Q) : Prop := exists p, nearest (11 # 10) p /\ fvalue p = Some z.
Definition float_product (c : Z) (x : Q) : Prop :=
  exists f y z, nearest (inject_Z c) f /\ fvalue f = Some y /\ one_point_one z /\ x = (y * z)%Q.
Definition increased (c r : Z) : Prop :=
  ~ too_large (inject_Z c) /\ exists x g y, float_product c x /\ ~ too_large x /\ nearest x g /\ fvalue g = Some y /\ r = Qfloor y.
(** It is too large for a float *)
Definition cannot_increase (c : Z) : Prop := too_large (inject_Z c) \/ exists x, float_product c x /\ too_large x.

(** The operands of an operator with two operands, and the operand of the transparent ones *)
Definition operands (e : expr) : option (expr * expr) :=
  match e with
  | EAdd a b | ESub a b | EMul a b | EDiv a b | EBin _ a b | EMinMax _ a b => Some (a, b)
  | _ => None
  end.
Definition inside (e : expr) : option expr := match e with EParen a | EAbs a => Some a | _ => None end.

(** An expression that contains a NOT *)
Fixpoint has_not (e : expr) : Prop :=
  match e with
  | ENot _ => True
  | EParen a | EAbs a | EAssign _ a => has_not a
  | EAdd a b | ESub a b | EMul a b | EDiv a b | EBin _ a b | EMinMax _ a b => has_not a \/ has_not b
  | EDropKeep _ | EDice _ | EInt _ | EBool _ | EVar _ => False
  end.

(** Each line parses, and reads only names of [known] and names that an earlier line assigns *)
Fixpoint assigned_before_use (known : list text) (lines : list text) : Prop :=
  match lines with
  | [] => True
  | l :: lines' => exists e, parse l = Ok e /\ (forall n, In n (reads e) -> In n known) /\ assigned_before_use (assigned e ++ known) lines'
  end.

(** The different sides of a die, listed once each *)
Definition lists_sides (m : list (Z * Z)) (sides : list Z) : Prop := NoDup sides /\ forall v, In v sides <-> In v (map fst m).
(** The number of dice that count *)
Definition dice_kept (dk : dropkeep) : Z := if dk_keep dk then Z.min (dk_k dk) (dk_num dk) else Z.max 0 (dk_num dk - dk_k dk).

Section Spec.
  Context (R : Runtime).
  (** No name stands for a negative number, as in a new interpreter *)
  Definition no_negatives (s : state R) : Prop := forall n v, constant R s n = Some v -> 0 <= v.
  (** [s'] is [s] with [v] stored under [n] *)
  Definition stored (n : text) (v : Z) (s s' : state R) : Prop :=
    constant R s' n = Some v /\ (forall m, m <> n -> constant R s' m = constant R s m) /\ st_var s' = st_var s.
End Spec.
