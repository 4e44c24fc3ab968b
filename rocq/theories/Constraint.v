(** * Constraint: model of python_dice/src/constraint/*.py

    Python's [set] objects are kept abstract.  Their iteration order depends on string hashes (which
    are randomised per process), on the capacity of the table and on its history; so a set is a value
    of an unspecified type of "table states", with the operations of the code as functions on it and
    laws that fix only which elements it holds.  Every theorem is stated for every such [Runtime]. *)
From Verif Require Import Py.

(** ** Sets of integers (the [values] of a constraint) *)
Record ZSets := {
  zset : Type;
  z_iter : zset -> list Z;                 (* iteration order; also the order in which str() prints it *)
  z_of : list Z -> zset;                   (* {x}, {x, y}, set(l) *)
  z_inter : zset -> zset -> zset;          (* a.intersection(b) *)
  z_nodup : forall s, NoDup (z_iter s);
  z_of_spec : forall l x, In x (z_iter (z_of l)) <-> In x l;
  z_inter_spec : forall a b x, In x (z_iter (z_inter a b)) <-> In x (z_iter a) /\ In x (z_iter b)
}.

(** ** Constraints: null_constraint.py, impossible_constraint.py, var_value_constraint.py:8-20 *)
Inductive constraint (Z : ZSets) :=
| CNull
| CImpossible
| CVar (name : text) (values : zset Z).
Arguments CNull {Z}. Arguments CImpossible {Z}. Arguments CVar {Z}.

Section ConstraintText.
  Context {Z : ZSets}.

  (** [str] of a set of ints: ["set()"] or ["{1, 2}"], in iteration order *)
  Definition z_str (s : zset Z) : text :=
    match z_iter Z s with
    | [] => $"set()"
    | l => $"{" ++ join $", " (map text_of_Z l) ++ $"}"
    end.

  (** null_constraint.py:29-30, impossible_constraint.py:29-30, var_value_constraint.py:58-59 *)
  Definition c_str (c : constraint Z) : text :=
    match c with
    | CNull => $"NullConstraint"
    | CImpossible => $"ImpossibleConstraint"
    | CVar n vs => $"VarValueConstraint: name=" ++ n ++ $", values=" ++ z_str vs
    end.

  (** null_constraint.py:23-24, impossible_constraint.py:23-24, var_value_constraint.py:52-53:
      all three compare the printed forms *)
  Definition c_eqb (a b : constraint Z) : bool := text_eqb (c_str a) (c_str b).
End ConstraintText.

(** [c] is in the list up to the classes' own [__eq__]. *)
Definition c_in {Z} (c : constraint Z) (l : list (constraint Z)) : bool := existsb (fun d => c_eqb d c) l.

(** ** Sets of constraints *)
Record CSets (Z : ZSets) := {
  cset : Type;
  cs_iter : cset -> list (constraint Z);       (* iteration order, also the printing order *)
  cs_empty : cset;                             (* set() *)
  cs_sing : constraint Z -> cset;              (* {c} *)
  cs_copy : cset -> cset;                      (* s.copy() *)
  cs_deepcopy : cset -> cset;                  (* copy.deepcopy(s): a new set built from the listed members *)
  cs_add : constraint Z -> cset -> cset;       (* s.add(c) *)
  cs_remove : constraint Z -> cset -> cset;    (* s.remove(c), for a member c *)
  cs_union : cset -> cset -> cset;             (* a.union(b) *)
  cs_nodup : forall s l1 c l2, cs_iter s = l1 ++ c :: l2 -> c_in c l1 = false /\ c_in c l2 = false;
  cs_empty_spec : cs_iter cs_empty = [];
  cs_sing_spec : forall c, cs_iter (cs_sing c) = [c];
  cs_copy_spec : forall s c, In c (cs_iter (cs_copy s)) <-> In c (cs_iter s);
  cs_deepcopy_spec : forall s c, In c (cs_iter (cs_deepcopy s)) <-> In c (cs_iter s);
  cs_add_spec : forall x s c,
    In c (cs_iter (cs_add x s)) <-> In c (cs_iter s) \/ (c = x /\ c_in x (cs_iter s) = false);
  cs_remove_spec : forall x s c,
    In c (cs_iter (cs_remove x s)) <-> In c (cs_iter s) /\ c_eqb c x = false;
  cs_union_spec : forall a b c,
    In c (cs_iter (cs_union a b)) <-> In c (cs_iter a) \/ (In c (cs_iter b) /\ c_in c (cs_iter a) = false)
}.
Arguments cset {Z}. Arguments cs_iter {Z}. Arguments cs_empty {Z}. Arguments cs_sing {Z}.
Arguments cs_copy {Z}. Arguments cs_deepcopy {Z}. Arguments cs_add {Z}. Arguments cs_remove {Z}.
Arguments cs_union {Z}.

(** Everything about one Python process that the code cannot choose: how sets of ints and sets of
    constraints are laid out, and the string hash function. *)
Record Runtime := {
  rt_z : ZSets;
  rt_c : CSets rt_z;
  rt_hash : text -> Z
}.

Section Model.
  Context (R : Runtime).
  Let Zs := rt_z R.
  Let Cs := rt_c R.
  Notation con := (constraint Zs).
  Notation iter := (cs_iter Cs).

  (** null_constraint.py:8-9, impossible_constraint.py:8-9, var_value_constraint.py:22-26.
      [var_values] is a dict from names to ints. *)
  Definition c_complies (c : con) (var_values : list (text * Z)) : bool :=
    match c with
    | CNull => true
    | CImpossible => true
    | CVar n vs =>
        match dget text_eqb var_values n with
        | Some x => existsb (Z.eqb x) (z_iter Zs vs)
        | None => true
        end
    end.

  (** null_constraint.py:14-15, impossible_constraint.py:14-15, var_value_constraint.py:28-29 *)
  Definition c_is_possible (c : con) : bool :=
    match c with
    | CNull => true
    | CImpossible => false
    | CVar _ vs => negb (match z_iter Zs vs with [] => true | _ => false end)
    end.

  (** null_constraint.py:11-12, impossible_constraint.py:11-12, var_value_constraint.py:31-34 *)
  Definition c_can_merge (self other : con) : bool :=
    match self with
    | CNull => true
    | CImpossible => true
    | CVar n _ => match other with CVar n' _ => text_eqb n' n | _ => false end
    end.

  (** null_constraint.py:17-18, impossible_constraint.py:17-18, var_value_constraint.py:36-47
      (with constraint_factory.py:16-25 for the objects it creates) *)
  Definition c_merge (self other : con) : res con :=
    match self with
    | CNull => Ok other
    | CImpossible => Ok CImpossible
    | CVar n vs =>
        if negb (c_can_merge self other) then Raise ValueError
        else match other with
             | CVar _ vs' =>
                 let common := z_inter Zs vs vs' in
                 match z_iter Zs common with
                 | [] => Ok CImpossible
                 | _ => Ok (CVar n common)
                 end
             | _ => Raise ValueError
             end
    end.

  (** constraint_merger.py:36-48, the [for] loop of __merge_new_constraint over [cs] (the members of
      [constraint_set] still to be visited): the first mergeable member.  [None]: no member merges. *)
  Fixpoint merge_loop (new : con) (s : cset Cs) (cs : list con) : res (option (cset Cs * cset Cs)) :=
    match cs with
    | [] => Ok None
    | c :: cs' =>
        if c_can_merge c new then
          rbind (c_merge c new) (fun m => Ok (Some (cs_sing Cs m, cs_remove Cs c (cs_copy Cs s))))
        else if c_can_merge new c then
          rbind (c_merge new c) (fun m => Ok (Some (cs_sing Cs m, cs_remove Cs c (cs_copy Cs s))))
        else merge_loop new s cs'
    end.

  (** constraint_merger.py:32-51: __merge_new_constraint, returning (changed, unchanged) *)
  Definition merge_new_constraint (new : con) (s : cset Cs) : res (cset Cs * cset Cs) :=
    rbind (merge_loop new s (iter s)) (fun r =>
      match r with
      | Some p => Ok p
      | None => Ok (cs_empty Cs, cs_add Cs new s)
      end).

  (** constraint_merger.py:21-30: the [while values_to_merge] loop.  [todo] is values_to_merge with its
      last element (the one [pop] takes) first.  [OutOfFuel] stands for a loop that is still running, not for
      a result. *)
  Fixpoint merge_while (fuel : nat) (todo : list con) (clean : cset Cs) : res (cset Cs) :=
    match fuel with
    | O => Raise OutOfFuel
    | S fuel' =>
        match todo with
        | [] => Ok clean
        | c :: todo' =>
            match merge_new_constraint c clean with
            | Raise e => Raise e
            | Ok (unclean, clean') => merge_while fuel' (rev (iter unclean) ++ todo') clean'
            end
        end
    end.

  (** constraint_merger.py:14-30: __merge_new_constraints.  That the fuel is enough for every input is
      property C27. *)
  Definition merge_new_constraints_set (new s : cset Cs) : res (cset Cs) :=
    let todo := rev (iter (cs_copy Cs new)) in
    let clean := cs_copy Cs s in
    merge_while (S (2 * length todo + length (iter clean))) todo clean.

  (** constraint_merger.py:8-9 *)
  Definition merge_constraints (s : cset Cs) : res (cset Cs) :=
    merge_new_constraints_set s (cs_empty Cs).

  (** constraint_merger.py:11-12 *)
  Definition merge_new_constraints (s : cset Cs) (c : con) : res (cset Cs) :=
    merge_new_constraints_set (cs_sing Cs c) s.

  (** ** constraint_set.py.  A ConstraintSet object is its [_constraints_set]. *)

  (** constraint_set.py:23-26 *)
  Definition add_constraint (s : cset Cs) (c : con) : res (cset Cs) := merge_new_constraints s c.

  Fixpoint add_all (s : cset Cs) (l : list con) : res (cset Cs) :=
    match l with
    | [] => Ok s
    | c :: l' => rbind (add_constraint s c) (fun s' => add_all s' l')
    end.

  (** constraint_set.py:10-17: ConstraintSet.__init__ *)
  Definition new_constraint_set (cs : cset Cs) : res (cset Cs) :=
    match iter cs with
    | [] => Raise ValueError
    | l => add_all (cs_empty Cs) l
    end.

  (** constraint_set.py:28-32 *)
  Definition cset_complies (s : cset Cs) (var_values : list (text * Z)) : bool :=
    forallb (fun c => c_complies c var_values) (iter s).

  (** constraint_set.py:34-38 *)
  Definition cset_is_possible (s : cset Cs) : bool := forallb c_is_possible (iter s).

  (** constraint_set.py:40-42 ([constraints] is a copy, constraint_set.py:19-21) *)
  Definition combine_sets (a b : cset Cs) : res (cset Cs) :=
    new_constraint_set (cs_union Cs a (cs_copy Cs b)).

  (** constraint_set.py:50-51, with the printed form of a Python set *)
  Definition cset_str (s : cset Cs) : text :=
    $"ConstraintSet: " ++
    match iter s with
    | [] => $"set()"
    | l => $"{" ++ join $", " (map c_str l) ++ $"}"
    end.

  (** constraint_set.py:44-45 *)
  Definition cset_eqb (a b : cset Cs) : bool := text_eqb (cset_str a) (cset_str b).

  (** constraint_set.py:56-60; [__hash__] of the members: hash(str(c)) *)
  Definition cset_hash (s : cset Cs) : Z :=
    fold_left (fun h c => Z.lxor h (rt_hash R (c_str c))) (iter s) (rt_hash R $"ConstraintSet").

  (** constraint_set_factory.py:28-29 *)
  Definition create_constraint_set : res (cset Cs) := new_constraint_set (cs_sing Cs CNull).
End Model.
