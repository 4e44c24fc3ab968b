(** * Distribution: model of probability_outcome.py, probability_outcome_factory.py,
    probability_distribution.py and probability_distribution_factory.py
    (python_dice/src/probability_distribution/).

    All objects of these classes are used as immutable values by the code: a constraint set is only
    changed (add_constraint) on the deep copy made in probability_distribution_state.py:67-68. *)
From Coq Require Import Floats.SpecFloat.
From Verif Require Import Py PyFloat Constraint.

(** ** The value level of the operators *)

(** The operators that combine two outcomes. *)
Inductive vop :=
| VAdd | VSub | VMul | VDiv | VEq | VNe | VLt | VLe | VGt | VGe | VAnd | VOr | VMax | VMin.

(** probability_outcome.py:53-55 *)
Definition binary_to_int (b : bool) : Z := if b then 1 else 0.

(** probability_outcome.py:49-51 *)
Definition value_to_binary_value (v : Z) : bool := 0 <? v.

(** probability_outcome.py:24-42 (the value part of _combine) with the combination functions of
    probability_outcome.py:57-101.  Python's [//] is floor division, as Coq's [Z.div]. *)
Definition vop_apply (op : vop) (x y : Z) : res Z :=
  match op with
  | VAdd => Ok (x + y)
  | VSub => Ok (x - y)
  | VMul => Ok (x * y)
  | VDiv => if y =? 0 then Raise ZeroDivisionError else Ok (x / y)
  | VEq => Ok (binary_to_int (x =? y))
  | VNe => Ok (binary_to_int (negb (x =? y)))
  | VLt => Ok (binary_to_int (x <? y))
  | VLe => Ok (binary_to_int (x <=? y))
  | VGt => Ok (binary_to_int (y <? x))
  | VGe => Ok (binary_to_int (y <=? x))
  | VAnd => Ok (binary_to_int (value_to_binary_value x && value_to_binary_value y))
  | VOr => Ok (binary_to_int (value_to_binary_value x || value_to_binary_value y))
  | VMax => Ok (Z.max x y)
  | VMin => Ok (Z.min x y)
  end.

(** probability_outcome.py:93-95 (value part) *)
Definition vnot (x : Z) : Z := if value_to_binary_value x then 0 else 1.

(** Python's hash(int): reduction modulo the prime 2^61 - 1, keeping the sign, with -1 mapped to -2. *)
Definition py_int_hash (v : Z) : Z :=
  let h := Z.sgn v * (Z.abs v mod (2 ^ 61 - 1)) in if h =? -1 then -2 else h.

Section Model.
  Context (R : Runtime).
  Let Cs := rt_c R.

  (** probability_outcome.py:8-22.  The [isinstance(value, int)] test always succeeds here. *)
  Record outcome := { o_value : Z; o_cs : cset Cs }.

  (** probability_outcome.py:24-44: _combine *)
  Definition o_combine (op : vop) (a b : outcome) : res outcome :=
    rbind (vop_apply op (o_value a) (o_value b)) (fun v =>
    rbind (combine_sets R (o_cs a) (o_cs b)) (fun cs =>
    Ok {| o_value := v; o_cs := cs |})).

  (** probability_outcome.py:46-47 *)
  Definition o_is_possible (o : outcome) : bool := cset_is_possible R (o_cs o).

  (** probability_outcome.py:93-95, 103-104: unary operators keep the constraint set *)
  Definition o_map (f : Z -> Z) (o : outcome) : outcome := {| o_value := f (o_value o); o_cs := o_cs o |}.
  Definition o_not (o : outcome) : outcome := o_map vnot o.
  Definition o_abs (o : outcome) : outcome := o_map Z.abs o.

  (** probability_outcome.py:112-115 *)
  Definition o_hash (o : outcome) : Z :=
    Z.lxor (rt_hash R $"ProbabilityOutcome") (Z.lxor (py_int_hash (o_value o)) (cset_hash R (o_cs o))).

  (** probability_outcome.py:117-120, both operands being outcomes *)
  Definition o_eqb (a b : outcome) : bool := (o_value a =? o_value b) && cset_eqb R (o_cs a) (o_cs b).

  (** A dictionary finds a key when the hashes agree and the keys are equal. *)
  Definition o_match (a b : outcome) : bool := (o_hash a =? o_hash b) && o_eqb a b.

  (** probability_outcome_factory.py:16-17 *)
  Definition create_empty (v : Z) : res outcome :=
    rmap (fun cs => {| o_value := v; o_cs := cs |}) (create_constraint_set R).

  (** ** probability_distribution.py *)

  Notation omap := (list (outcome * Z)).
  Record dist := { d_map : omap; d_count : Z }.

  (** probability_distribution.py:15-36, for a dictionary keyed by outcomes *)
  Definition mk_dist (m : omap) : dist :=
    let m' := safe_add_all o_match m [] in
    {| d_map := m'; d_count := zsum (map snd m') |}.

  (** probability_distribution.py:29-32: an int key becomes an outcome with the empty constraint set *)
  Fixpoint lift_ints (m : list (Z * Z)) : res omap :=
    match m with
    | [] => Ok []
    | (v, c) :: m' => rbind (create_empty v) (fun o => rmap (cons (o, c)) (lift_ints m'))
    end.

  (** probability_distribution.py:15-36, for a dictionary keyed by ints
      (probability_distribution_factory.py:19-23) *)
  Definition mk_dist_ints (m : list (Z * Z)) : res dist := rmap mk_dist (lift_ints m).

  (** probability_distribution.py:254-266: the two nested loops of _combine_distributions,
      over the pairs of entries, outer loop first *)
  Fixpoint combine_loop (op : vop) (ps : list ((outcome * Z) * (outcome * Z))) (acc : omap) : res omap :=
    match ps with
    | [] => Ok acc
    | ((o1, c1), (o2, c2)) :: ps' =>
        rbind (o_combine op o1 o2) (fun o =>
          combine_loop op ps' (if o_is_possible o then safe_add o_match acc o (c1 * c2) else acc))
    end.

  (** probability_distribution.py:249-266 *)
  Definition combine_distributions (op : vop) (a b : dist) : res omap :=
    combine_loop op (pairs (d_map a) (d_map b)) [].

  (** probability_distribution.py:268-338, 352-362 *)
  Definition d_binop (op : vop) (a b : dist) : res dist := rmap mk_dist (combine_distributions op a b).

  (** probability_distribution.py:340-350 and 364-374 *)
  Definition d_unop (f : outcome -> outcome) (a : dist) : dist :=
    mk_dist (safe_add_all o_match (map (fun oc => (f (fst oc), snd oc)) (d_map a)) []).
  Definition d_not (a : dist) : dist := d_unop o_not a.
  Definition d_abs (a : dist) : dist := d_unop o_abs a.

  (** probability_distribution.py:221-231 *)
  Definition get_result_map (d : dist) : list (Z * Z) :=
    safe_add_all Z.eqb (map (fun oc => (o_value (fst oc), snd oc)) (d_map d)) [].

  (** probability_distribution.py:183-187 *)
  Definition d_max (d : dist) : res Z := pymax (map fst (get_result_map d)).
  Definition d_min (d : dist) : res Z := pymin (map fst (get_result_map d)).

  (** probability_distribution.py:189-191; [result_map != 0] compares a dict with an int: always True *)
  Definition contains_zero (d : dist) : bool := dmem Z.eqb (get_result_map d) 0.

  (** probability_distribution.py:193-197 *)
  Definition d_average (d : dist) : res pyfloat :=
    int_truediv (fold_left (fun t vc => t + fst vc * snd vc) (get_result_map d) 0) (d_count d).

  (** probability_distribution.py:236-237 *)
  Fixpoint divide_counts (m : list (Z * Z)) (n : Z) : res (list (Z * pyfloat)) :=
    match m with
    | [] => Ok []
    | (v, c) :: m' => rbind (int_truediv c n) (fun f => rmap (cons (v, f)) (divide_counts m' n))
    end.
  Definition get_dict_form (d : dist) : res (list (Z * pyfloat)) := divide_counts (get_result_map d) (d_count d).
End Model.

Arguments o_value {R}. Arguments o_cs {R}. Arguments d_map {R}. Arguments d_count {R}.
Arguments Build_outcome {R}. Arguments Build_dist {R}.

(** ** Float dictionaries (independent of the runtime) *)

(** probability_distribution.py:239-247.  [item_list.sort] is only used for its first and last key, i.e.
    the smallest and largest; IndexError when the dictionary is empty.  The filler is the int 0, which
    behaves as the float 0.0 in every use below. *)
Definition histogram_form (m : list (Z * pyfloat)) : res (list (Z * pyfloat)) :=
  match pymin (map fst m), pymax (map fst m) with
  | Ok lo, Ok hi =>
      Ok (fold_left (fun d v => if dmem Z.eqb d v then d else dset Z.eqb d v fzero) (zrange lo (hi + 1)) m)
  | _, _ => Raise IndexError
  end.

Definition fget (m : list (Z * pyfloat)) (v : Z) : pyfloat :=
  match dget Z.eqb m v with Some f => f | None => fzero end.

(** probability_distribution.py:205-207: the loop of at_least over the sorted keys *)
Fixpoint at_least_loop (h : list (Z * pyfloat)) (keys : list Z) (total_above : pyfloat) : list (Z * pyfloat) :=
  match keys with
  | [] => []
  | v :: keys' => (v, fdiv total_above fone) :: at_least_loop h keys' (fsub total_above (fget h v))
  end.

(** probability_distribution.py:216-218: the loop of at_most *)
Fixpoint at_most_loop (h : list (Z * pyfloat)) (keys : list Z) (at_or_below : pyfloat) : list (Z * pyfloat) :=
  match keys with
  | [] => []
  | v :: keys' =>
      let t := fadd at_or_below (fget h v) in
      (v, fdiv t fone) :: at_most_loop h keys' t
  end.

(** [sorted(zip(x_values, y_values))] followed by the unzip of probability_distribution.py:135: the pairs
    by increasing x.  (Equal x always come with equal y here, so the second component never decides.) *)
Fixpoint insert_point (p : Z * pyfloat) (l : list (Z * pyfloat)) : list (Z * pyfloat) :=
  match l with
  | [] => [p]
  | q :: l' => if fst p <=? fst q then p :: l else q :: insert_point p l'
  end.
Definition sort_points (l : list (Z * pyfloat)) : list (Z * pyfloat) := fold_right insert_point [] l.

(** What probability_distribution.py:140 hands to axis.hist (the points in order, the edges of the bins) and
    146-148 to axis.plot (the x of the average line, and its upper end; it starts at 0) *)
Record histogram := { h_points : list (Z * pyfloat); h_bins : list pyfloat; h_line : option (pyfloat * pyfloat) }.

(** probability_distribution.py:136 *)
Fixpoint edges (xs : list Z) : res (list pyfloat) :=
  match xs with
  | [] => Ok []
  | x :: xs' => rbind (float_of_Z x) (fun f => rmap (cons (fsub f f0_5)) (edges xs'))
  end.

(** Python's [max] on a list of floats: the first of the largest ones; [] cannot occur *)
Definition fmax (l : list pyfloat) : pyfloat :=
  match l with
  | [] => fzero
  | f :: l' => fold_left (fun m y => if SFltb m y then y else m) l' f
  end.

(** probability_distribution.py:136-152 for points that are sorted already (135); the unpacking in 135 raises
    ValueError if there is no point *)
Definition make_histogram (points : list (Z * pyfloat)) (average : option pyfloat) : res histogram :=
  match points with
  | [] => Raise ValueError
  | _ :: _ =>
      let xs := map fst points in
      rbind (edges xs) (fun bins =>
      rbind (float_of_Z (last xs 0)) (fun f =>
        Ok {| h_points := points; h_bins := bins ++ [fadd f f0_5];
              h_line := match average with
                        | None => None
                        | Some a => Some (a, fmul (fmax (map snd points)) f1_1)
                        end |}))
  end.

(** The two lines that probability_distribution.py:168-172 hands to axis.plot: each with its label *)
Record line_plot := { lp_one : text * list (Z * pyfloat); lp_two : text * list (Z * pyfloat) }.

Section Plots.
  Context (R : Runtime).
  Notation dist := (dist R).

  (** probability_distribution.py:199-208 *)
  Definition at_least (d : dist) : res (list (Z * pyfloat)) :=
    rbind (get_dict_form R d) (fun m => rbind (histogram_form m) (fun h =>
      Ok (at_least_loop h (zsort (map fst h)) fone))).

  (** probability_distribution.py:210-219 *)
  Definition at_most (d : dist) : res (list (Z * pyfloat)) :=
    rbind (get_dict_form R d) (fun m => rbind (histogram_form m) (fun h =>
      Ok (at_most_loop h (zsort (map fst h)) fzero))).

  (** probability_distribution.py:38-41 with 135: the (x, weight) data handed to axis.hist, in order *)
  Definition histogram_data (d : dist) : res (list (Z * pyfloat)) :=
    rbind (get_dict_form R d) (fun m => rmap sort_points (histogram_form m)).

  (** probability_distribution.py:43-46 with 135 *)
  Definition at_least_histogram_data (d : dist) : res (list (Z * pyfloat)) := rmap sort_points (at_least d).

  (** probability_distribution.py:48-51 with 135 *)
  Definition at_most_histogram_data (d : dist) : res (list (Z * pyfloat)) := rmap sort_points (at_most d).

  (** probability_distribution.py:59-65 *)
  Definition y_value (this other : list (Z * pyfloat)) (key : Z) : pyfloat :=
    let v0 := fzero in
    let v1 := match dget Z.eqb this key with Some f => fadd v0 f | None => v0 end in
    match dget Z.eqb other key with Some f => fsub v1 f | None => v1 end.

  (** probability_distribution.py:53-67 with 135: the (x, weight) data handed to axis.hist, in order *)
  Definition compare_histogram_data (a b : dist) : res (list (Z * pyfloat)) :=
    rbind (get_dict_form R a) (fun ma => rbind (histogram_form ma) (fun ha =>
    rbind (get_dict_form R b) (fun mb => rbind (histogram_form mb) (fun hb =>
      Ok (sort_points (map (fun x => (x, y_value ha hb x)) (map fst ha ++ map fst hb))))))).

  (** probability_distribution.py:41, 46, 51: the data first, then the average, then the plot *)
  Definition with_average (f : dist -> res (list (Z * pyfloat))) (d : dist) : res histogram :=
    rbind (f d) (fun points => rbind (d_average R d) (fun a => make_histogram points (Some a))).
  (** probability_distribution.py:38-41 *)
  Definition histogram_plot : dist -> res histogram := with_average histogram_data.
  (** probability_distribution.py:43-46 *)
  Definition at_least_plot : dist -> res histogram := with_average at_least_histogram_data.
  (** probability_distribution.py:48-51 *)
  Definition at_most_plot : dist -> res histogram := with_average at_most_histogram_data.
  (** probability_distribution.py:53-67 *)
  Definition compare_plot (a b : dist) : res histogram :=
    rbind (compare_histogram_data a b) (fun points => make_histogram points None).

  (** probability_distribution.py:69-127 with 168-172: the data of both first, then the plot *)
  Definition line_plot_of (f : dist -> res (list (Z * pyfloat))) (a b : dist) (name name' : text) : res line_plot :=
    rbind (f a) (fun points => rbind (f b) (fun points' =>
      Ok {| lp_one := (name, points); lp_two := (name', points') |})).
  (** probability_distribution.py:69-87 *)
  Definition get_compare : dist -> dist -> text -> text -> res line_plot := line_plot_of histogram_data.
  (** probability_distribution.py:89-107 *)
  Definition get_compare_at_least : dist -> dist -> text -> text -> res line_plot := line_plot_of at_least_histogram_data.
  (** probability_distribution.py:109-127 *)
  Definition get_compare_at_most : dist -> dist -> text -> text -> res line_plot := line_plot_of at_most_histogram_data.
End Plots.
