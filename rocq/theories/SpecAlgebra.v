(** * SpecAlgebra: comparing distributions by what a user sees of them *)
From Coq Require Import QArith.
From Verif Require Import Py Constraint Distribution SpecDice.
Local Open Scope Z_scope.

(** What the operators do to two values: comparisons give 1 or 0, values above 0 are true *)
Definition op_value (op : vop) (x y : Z) : option Z :=
  let yes (b : bool) := Some (if b then 1 else 0) in
  match op with
  | VAdd => Some (x + y)
  | VSub => Some (x - y)
  | VMul => Some (x * y)
  | VDiv => if y =? 0 then None else Some (x / y)
  | VEq => yes (x =? y)
  | VNe => yes (negb (x =? y))
  | VLt => yes (x <? y)
  | VLe => yes (x <=? y)
  | VGt => yes (y <? x)
  | VGe => yes (y <=? x)
  | VAnd => yes ((0 <? x) && (0 <? y))
  | VOr => yes ((0 <? x) || (0 <? y))
  | VMax => Some (Z.max x y)
  | VMin => Some (Z.min x y)
  end.

Section Spec.
  Context (R : Runtime).
  Notation dist := (dist R).

  (** get_result_map() of both are equal dictionaries *)
  Definition same_results (a b : dist) : Prop := forall v, (listed R a v <-> listed R b v) /\ reported R a v = reported R b v.

  (** The number of ways of all results together *)
  Definition total_ways (d : dist) : Z := zsum (map snd (get_result_map R d)).
  (** The sum of all results, each as often as it has ways *)
  Definition sum_of_results (d : dist) : Z := zsum (map (fun vc => fst vc * snd vc) (get_result_map R d)).
  (** The exact mean *)
  Definition mean (d : dist) : Q := (inject_Z (sum_of_results d) / inject_Z (total_ways d))%Q.

  (** Some outcome of the distribution depends on the value of the variable instance [n] *)
  Definition mentions (d : dist) (n : text) : Prop :=
    exists o c vs, In (o, c) (d_map d) /\ In (CVar n vs) (cs_iter (rt_c R) (o_cs o)).
  Definition no_shared_variable (a b : dist) : Prop := forall n, mentions a n -> ~ mentions b n.

  (** [d] lists the results of [op] on a result of [a] and an independent result of [b] *)
  Definition combined_independently (op : vop) (a b d : dist) : Prop := forall v,
    (listed R d v <-> exists x y, listed R a x /\ listed R b y /\ op_value op x y = Some v) /\
    reported R d v = zsum (map (fun xc => zsum (map (fun yc =>
      match op_value op (fst xc) (fst yc) with Some r => if r =? v then snd xc * snd yc else 0 | None => 0 end)
      (get_result_map R b))) (get_result_map R a)).

  (** The operators whose operands can be swapped *)
  Definition commutative (op : vop) : Prop := In op [VAdd; VMul; VMin; VMax; VAnd; VOr; VEq; VNe].
  (** The operators for which brackets can be moved *)
  Definition associative (op : vop) : Prop := In op [VAdd; VMul; VMin; VMax; VAnd; VOr].
End Spec.
