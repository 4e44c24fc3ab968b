(** * SpecConstraint: what constraint sets are meant to be (no reference to how merging is done) *)
From Verif Require Import Py Constraint.

Section Spec.
  Context (R : Runtime).
  Notation con := (constraint (rt_z R)).

  (** ** How client code can make a ConstraintSet object *)

  (** A Python set holding the constraints of a list, added one by one *)
  Definition py_set (l : list con) : cset (rt_c R) := fold_left (fun s c => cs_add (rt_c R) c s) l (cs_empty (rt_c R)).

  Inductive build :=
  | BNew (l : list con)                    (* ConstraintSet({...}) *)
  | BAdd (b : build) (c : con)             (* b.add_constraint(c) *)
  | BCombine (a b : build).                (* a.combine_sets(b) *)

  Fixpoint run_build (b : build) : res (cset (rt_c R)) :=
    match b with
    | BNew l => new_constraint_set R (py_set l)
    | BAdd b c => rbind (run_build b) (fun s => add_constraint R s c)
    | BCombine a b => rbind (run_build a) (fun s => rbind (run_build b) (fun t => combine_sets R s t))
    end.

  (** Every constraint that went in *)
  Fixpoint given (b : build) : list con :=
    match b with
    | BNew l => l
    | BAdd b c => given b ++ [c]
    | BCombine a b => given a ++ given b
    end.

  (** No ConstraintSet is made from an empty set (the constructor rejects it) *)
  Fixpoint nonempty_build (b : build) : Prop :=
    match b with
    | BNew l => l <> []
    | BAdd b _ => nonempty_build b
    | BCombine a b => nonempty_build a /\ nonempty_build b
    end.

  (** ** Meaning of one constraint for an assignment of an int to every variable *)
  Definition holds (h : text -> Z) (c : con) : Prop :=
    match c with
    | CNull => True
    | CImpossible => False
    | CVar n vs => In (h n) (z_iter (rt_z R) vs)
    end.

  Definition satisfiable (l : list con) : Prop := exists h, forall c, In c l -> holds h c.

  (** The constraint restricts variable [n] *)
  Definition about (n : text) (c : con) : Prop := match c with CVar n' _ => n' = n | _ => False end.

  Definition no_empty_values (l : list con) : Prop :=
    forall n vs, In (CVar n vs) l -> z_iter (rt_z R) vs <> [].

  (** The values that every constraint on [n] allows *)
  Definition common_value (l : list con) (n : text) (x : Z) : Prop :=
    forall vs, In (CVar n vs) l -> In x (z_iter (rt_z R) vs).

  (** The members a constraint set must have when the constraints [l] have gone in *)
  Inductive members_of (l : list con) : list con -> Prop :=
  | mem_impossible : ~ satisfiable l -> members_of l [CImpossible]
  | mem_null : (forall c, In c l -> c = CNull) -> members_of l [CNull]
  | mem_vars : forall ms, satisfiable l ->
      (exists c n, In c l /\ about n c) ->
      (forall c, In c ms -> exists n vs, c = CVar n vs /\ forall x, In x (z_iter (rt_z R) vs) <-> common_value l n x) ->
      NoDup (map (fun c => match c with CVar n _ => n | _ => [] end) ms) ->
      (forall n, (exists vs, In (CVar n vs) ms) <-> (exists c, In c l /\ about n c)) ->
      members_of l ms.

  (** Two lists of constraints that hold the same members, value sets being compared as sets *)
  Definition same_members (a b : list con) : Prop :=
    let included x y :=
      forall c, In c x -> exists d, In d y /\
        match c, d with
        | CNull, CNull | CImpossible, CImpossible => True
        | CVar n vs, CVar n' vs' => n = n' /\ forall v, In v (z_iter (rt_z R) vs) <-> In v (z_iter (rt_z R) vs')
        | _, _ => False
        end in
    included a b /\ included b a /\ length a = length b.

  (** The names in a constraint set *)
  Definition mentions (s : cset (rt_c R)) (n : text) : Prop := exists c, In c (cs_iter (rt_c R) s) /\ about n c.
  Definition comma_free (s : cset (rt_c R)) : Prop := forall n, mentions s n -> ~ In ","%char n.
End Spec.

Arguments BNew {R}. Arguments BAdd {R}. Arguments BCombine {R}.
