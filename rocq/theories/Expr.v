(** * Expr: model of probability_distribution_state.py and of the remaining expression classes
    (python_dice/src/expression/*.py). *)
From Verif Require Import Py PyFloat Constraint Distribution DiceModel.

(** ** Expression objects.  Each constructor is one class, with the fields its __init__ stores. *)
Inductive expr :=
| EParen (e : expr)                                (* parentheses_enclosed_expression.py:25-26 *)
| ENot (e : expr)                                  (* not_expression.py:26-27 *)
| EDropKeep (d : dropkeep)                         (* drop_keep_expression.py:30-36 *)
| EDice (d : dice)                                 (* dice_expression.py:27-31 *)
| EInt (number : text)                             (* constant_integer_expression.py:25-27 *)
| EBool (binary_string : text)                     (* constant_binary_expression.py:25-27 *)
| EAdd (a b : expr)                                (* add_expression.py:25-31 *)
| ESub (a b : expr)                                (* subtract_expression.py:25-31 *)
| EMul (a b : expr)                                (* multiply_expression.py:25-31 *)
| EDiv (a b : expr)                                (* integer_division_expression.py:25-31 *)
| EBin (operator : text) (a b : expr)              (* binary_operator_expression.py:48-56 *)
| EMinMax (min_max : text) (a b : expr)            (* minmax_expression.py:26-34 *)
| EAbs (e : expr)                                  (* abs_expression.py:25-26 *)
| EAssign (name : text) (e : expr)                 (* var_assignment_expression.py:26-34 *)
| EVar (name : text).                              (* get_var_expression.py:28-30 *)

(** binary_operator_expression.py:27-36: OPERATOR_MAP on distributions.  Python's operator.le etc. call
    the distribution's __le__ etc. *)
Definition dist_operator (op : text) : option vop :=
  if text_eqb op $"==" then Some VEq
  else if text_eqb op $"!=" then Some VNe
  else if text_eqb op $"<=" then Some VLe
  else if text_eqb op $"<" then Some VLt
  else if text_eqb op $">=" then Some VGe
  else if text_eqb op $">" then Some VGt
  else if text_eqb op $"AND" then Some VAnd
  else if text_eqb op $"OR" then Some VOr
  else None.

(** The same OPERATOR_MAP on the ints of roll(), with the truth test of binary_operator_expression.py:59:
    operator.and_ and operator.or_ are bitwise. *)
Definition int_operator (op : text) : option (Z -> Z -> Z) :=
  let b (f : Z -> Z -> bool) := Some (fun x y => if f x y then 1 else 0) in
  if text_eqb op $"==" then b Z.eqb
  else if text_eqb op $"!=" then b (fun x y => negb (x =? y))
  else if text_eqb op $"<=" then b Z.leb
  else if text_eqb op $"<" then b Z.ltb
  else if text_eqb op $">=" then b (fun x y => y <=? x)
  else if text_eqb op $">" then b (fun x y => y <? x)
  else if text_eqb op $"AND" then b (fun x y => negb (Z.land x y =? 0))
  else if text_eqb op $"OR" then b (fun x y => negb (Z.lor x y =? 0))
  else None.

(** minmax_expression.py:14: OPERATOR_MAP *)
Definition minmax_operator (op : text) : option (Z -> Z -> Z) :=
  if text_eqb op $"MAX" then Some Z.max else if text_eqb op $"MIN" then Some Z.min else None.

(** constant_binary_expression.py:29-30 *)
Definition bool_value (s : text) : Z := if text_eqb s $"True" then 1 else 0.

(** __str__ of the classes: parentheses_enclosed_expression.py:37-38, not_expression.py:38-39,
    drop_keep_expression.py:98-99, dice_expression.py:55-56, constant_integer_expression.py:38-39,
    constant_binary_expression.py:41-42, add_expression.py:42-43, subtract_expression.py:42-43,
    multiply_expression.py:42-43, integer_division_expression.py:51-52,
    binary_operator_expression.py:67-68, minmax_expression.py:45-46, abs_expression.py:37-38,
    var_assignment_expression.py:53-54, get_var_expression.py:41-42 *)
Fixpoint expr_str (e : expr) : text :=
  match e with
  | EParen e => $"(" ++ expr_str e ++ $")"
  | ENot e => $"!" ++ expr_str e
  | EDropKeep d => dk_form d
  | EDice d => dice_form d
  | EInt n => n
  | EBool s => s
  | EAdd a b => expr_str a ++ $" + " ++ expr_str b
  | ESub a b => expr_str a ++ $" - " ++ expr_str b
  | EMul a b => expr_str a ++ $" * " ++ expr_str b
  | EDiv a b => expr_str a ++ $" // " ++ expr_str b
  | EBin op a b => expr_str a ++ $" " ++ op ++ $" " ++ expr_str b
  | EMinMax mm a b => mm ++ $"(" ++ expr_str a ++ $", " ++ expr_str b ++ $")"
  | EAbs e => $"ABS(" ++ expr_str e ++ $")"
  | EAssign n e => $"VAR " ++ n ++ $" = " ++ expr_str e
  | EVar n => n
  end.

(** get_contained_variables of the classes (a set; here a list whose order and repetitions do not
    matter): get_var_expression.py:50-53, var_assignment_expression.py:66-69 (the empty set), the union
    for the binary classes, the operand's for the unary ones, the empty set for the leaves. *)
Fixpoint contained_variables (e : expr) : list text :=
  match e with
  | EParen e | ENot e | EAbs e => contained_variables e
  | EDropKeep _ | EDice _ | EInt _ | EBool _ | EAssign _ _ => []
  | EAdd a b | ESub a b | EMul a b | EDiv a b | EBin _ a b | EMinMax _ a b =>
      contained_variables a ++ contained_variables b
  | EVar n => [n]
  end.

(** not_expression.py:41-42: int(math.floor(cost * 1.1)) *)
Definition not_cost (cost : Z) : res Z :=
  rbind (float_of_Z cost) (fun f => ffloor (fmul f f1_1)).

Section Model.
  Context (R : Runtime).
  Notation dist := (dist R).

  (** ** probability_distribution_state.py:14-22 *)
  Record state := {
    st_var : list (text * dist);
    st_const : list (text * Z);
    st_times : list (text * Z)                  (* _number_of_times_set *)
  }.

  (** probability_distribution_state_factory.py:32-36 *)
  Definition empty_state : state := {| st_var := []; st_const := []; st_times := [] |}.

  (** ** Computations on the state; changes made before an exception stay. *)
  Definition M (A : Type) : Type := state -> state * res A.
  Definition ret {A} (a : A) : M A := fun s => (s, Ok a).
  Definition lift {A} (r : res A) : M A := fun s => (s, r).
  Definition bind {A B} (m : M A) (f : A -> M B) : M B :=
    fun s => match m s with (s', Ok a) => f a s' | (s', Raise e) => (s', Raise e) end.

  (** Weighted rolls: every possible run with its weight. *)
  Definition W (A : Type) : Type := state -> list (Z * (state * res A)).
  Definition wret {A} (a : A) : W A := fun s => [(1, (s, Ok a))].
  Definition wlift {A} (r : res A) : W A := fun s => [(1, (s, r))].
  Definition wrolls {A} (l : rolls A) : W A := fun s => map (fun wr => (fst wr, (s, snd wr))) l.
  Definition wbind {A B} (m : W A) (f : A -> W B) : W B :=
    fun s => flat_map (fun wr =>
      match wr with
      | (w, (s', Ok a)) => map (fun wr2 => (w * fst wr2, snd wr2)) (f a s')
      | (w, (s', Raise e)) => [(w, (s', Raise e))]
      end) (m s).

  (** probability_distribution_state.py:36-39 *)
  Definition get_constant (n : text) : state -> res Z :=
    fun s => match dget text_eqb (st_const s) n with Some v => Ok v | None => Raise KeyError end.

  (** probability_distribution_state.py:41-44 *)
  Definition get_var (n : text) : state -> res dist :=
    fun s => match dget text_eqb (st_var s) n with Some d => Ok d | None => Raise KeyError end.

  (** probability_distribution_state.py:48-50 and 57-59: the per-name counter *)
  Definition bump (times : list (text * Z)) (n : text) : list (text * Z) := safe_add text_eqb times n 1.

  (** probability_distribution_state.py:46-50 *)
  Definition set_constant (n : text) (v : Z) (s : state) : state :=
    {| st_var := st_var s; st_const := dset text_eqb (st_const s) n v; st_times := bump (st_times s) n |}.

  Definition times_of (s : state) (n : text) : Z :=
    match dget text_eqb (st_times s) n with Some k => k | None => 0 end.

  (** probability_distribution_state.py:61 *)
  Definition instance_name (n : text) (k : Z) : text := n ++ $"_" ++ text_of_Z k.

  (** probability_distribution_state.py:64-68: the tagged copy of one outcome *)
  Definition tag_outcome (inst : text) (o : outcome R) : res (outcome R) :=
    rmap (fun cs => {| o_value := o_value o; o_cs := cs |})
         (add_constraint R (cs_deepcopy (rt_c R) (o_cs o)) (CVar inst (z_of (rt_z R) [o_value o]))).

  (** probability_distribution_state.py:62-69: an assignment (not an addition) per outcome *)
  Fixpoint tag_loop (inst : text) (m : list (outcome R * Z)) (acc : list (outcome R * Z)) : res (list (outcome R * Z)) :=
    match m with
    | [] => Ok acc
    | (o, c) :: m' => rbind (tag_outcome inst o) (fun o' => tag_loop inst m' (dset (o_match R) acc o' c))
    end.

  (** probability_distribution_state.py:61-70: the distribution stored for the variable *)
  Definition tag_dist (inst : text) (d : dist) : res dist := rmap (mk_dist R) (tag_loop inst (d_map d) []).

  (** probability_distribution_state.py:52-70 *)
  Definition set_var (n : text) (d : dist) : M unit :=
    fun s =>
      let s1 := {| st_var := st_var s; st_const := st_const s; st_times := bump (st_times s) n |} in
      match tag_dist (instance_name n (times_of s1 n)) d with
      | Raise e => (s1, Raise e)
      | Ok d' => ({| st_var := dset text_eqb (st_var s1) n d'; st_const := st_const s1; st_times := st_times s1 |}, Ok tt)
      end.

  Definition set_const_m (n : text) (v : Z) : M unit := fun s => (set_constant n v s, Ok tt).

  Definition binop_m (op : vop) (a b : M dist) : M dist :=
    bind a (fun x => bind b (fun y => lift (d_binop R op x y))).

  (** ** get_probability_distribution of the classes *)
  Fixpoint dist_of (e : expr) : M dist :=
    match e with
    | EParen e => dist_of e                                          (* parentheses_enclosed_expression.py:43-44 *)
    | ENot e => bind (dist_of e) (fun d => ret (d_not R d))          (* not_expression.py:44-45 *)
    | EDropKeep dk =>                                                (* drop_keep_expression.py:111-128 *)
        match dk_simple dk with
        | Some (SDice d) => lift (dice_dist R d)
        | Some (SInt n) => lift (rbind (int_of_text n) (fun z => mk_dist_ints R [(z, 1)]))
        | None => lift (dk_dist_full R dk)
        end
    | EDice d => lift (dice_dist R d)                                (* dice_expression.py:58-67 *)
    | EInt n => lift (rbind (int_of_text n) (fun z => mk_dist_ints R [(z, 1)]))
                                                                     (* constant_integer_expression.py:44-45 *)
    | EBool s => lift (mk_dist_ints R [(bool_value s, 1)])           (* constant_binary_expression.py:47-48 *)
    | EAdd a b => binop_m VAdd (dist_of a) (dist_of b)               (* add_expression.py:48-49 *)
    | ESub a b => binop_m VSub (dist_of a) (dist_of b)               (* subtract_expression.py:48-49 *)
    | EMul a b => binop_m VMul (dist_of a) (dist_of b)               (* multiply_expression.py:48-49 *)
    | EDiv a b => binop_m VDiv (dist_of a) (dist_of b)               (* integer_division_expression.py:57-60 *)
    | EBin op a b =>                                                 (* binary_operator_expression.py:73-77 *)
        match dist_operator op with
        | None => lift (Raise KeyError)
        | Some v => binop_m v (dist_of a) (dist_of b)
        end
    | EMinMax mm a b =>                                              (* minmax_expression.py:51-58 *)
        binop_m (if text_eqb mm $"MAX" then VMax else VMin) (dist_of a) (dist_of b)
    | EAbs e => bind (dist_of e) (fun d => ret (d_abs R d))          (* abs_expression.py:43-44 *)
    | EAssign n e =>                                                 (* var_assignment_expression.py:61-64 *)
        bind (dist_of e) (fun d => bind (set_var n d) (fun _ => ret d))
    | EVar n => fun s => (s, get_var n s)                            (* get_var_expression.py:47-48 *)
    end.

  (** ** roll of the classes *)
  Definition wbinop (f : Z -> Z -> Z) (a b : W Z) : W Z :=
    wbind a (fun x => wbind b (fun y => wret (f x y))).

  Fixpoint roll_of (e : expr) : W Z :=
    match e with
    | EParen e => roll_of e                                          (* parentheses_enclosed_expression.py:28-29 *)
    | ENot e => wbind (roll_of e) (fun x => wret (if x =? 0 then 1 else 0))   (* not_expression.py:29-30 *)
    | EDropKeep dk =>                                                (* drop_keep_expression.py:68-80 *)
        match dk_simple dk with
        | Some (SDice d) => wrolls (dice_roll d)
        | Some (SInt n) => wlift (int_of_text n)
        | None => wrolls (dk_roll_full dk)
        end
    | EDice d => wrolls (dice_roll d)                                (* dice_expression.py:37-44 *)
    | EInt n => wlift (int_of_text n)                                (* constant_integer_expression.py:29-30 *)
    | EBool s => wret (bool_value s)                                 (* constant_binary_expression.py:32-33 *)
    | EAdd a b => wbinop Z.add (roll_of a) (roll_of b)               (* add_expression.py:33-34 *)
    | ESub a b => wbinop Z.sub (roll_of a) (roll_of b)               (* subtract_expression.py:33-34 *)
    | EMul a b => wbinop Z.mul (roll_of a) (roll_of b)               (* multiply_expression.py:33-34 *)
    | EDiv a b =>                                                    (* integer_division_expression.py:33-37 *)
        wbind (roll_of b) (fun divisor =>
          if divisor =? 0 then wlift (Raise ZeroDivisionError)
          else wbind (roll_of a) (fun x => wret (x / divisor)))
    | EBin op a b =>                                                 (* binary_operator_expression.py:58-59 *)
        match int_operator op with
        | None => wlift (Raise KeyError)
        | Some f => wbinop f (roll_of a) (roll_of b)
        end
    | EMinMax mm a b =>                                              (* minmax_expression.py:36-37 *)
        match minmax_operator mm with
        | None => wlift (Raise KeyError)
        | Some f => wbinop f (roll_of a) (roll_of b)
        end
    | EAbs e => wbind (roll_of e) (fun x => wret (Z.abs x))          (* abs_expression.py:28-29 *)
    | EAssign n e =>                                                 (* var_assignment_expression.py:36-39 *)
        wbind (roll_of e) (fun x => fun s => [(1, (set_constant n x s, Ok x))])
    | EVar n => fun s => [(1, (s, get_constant n s))]                (* get_var_expression.py:32-33 *)
    end.

  (** ** max and min of the classes.  [mx] says which of the two. *)
  Definition dice_ext (mx : bool) (d : dice) : res Z := if mx then dice_max d else dice_min d.
  Definition dk_ext_full (mx : bool) (d : dropkeep) : res Z := if mx then dk_max_full d else dk_min_full d.
  Definition d_ext (mx : bool) (d : dist) : res Z := if mx then d_max R d else d_min R d.

  (** max/min through the distribution, e.g. add_expression.py:36-40 *)
  Definition ext_via_dist (mx : bool) (e : expr) : M Z := bind (dist_of e) (fun d => lift (d_ext mx d)).

  Fixpoint ext_of (mx : bool) (e : expr) : M Z :=
    match e with
    | EParen e => ext_of mx e                                        (* parentheses_enclosed_expression.py:31-35 *)
    | ENot _ | EAdd _ _ | ESub _ _ | EMul _ _ | EBin _ _ _ | EAbs _ =>
        ext_via_dist mx e                                            (* not_expression.py:32-36 and alike *)
    | EDropKeep dk =>                                                (* drop_keep_expression.py:82-96 *)
        match dk_simple dk with
        | Some (SDice d) => lift (dice_ext mx d)
        | Some (SInt n) => lift (int_of_text n)
        | None => lift (dk_ext_full mx dk)
        end
    | EDice d => lift (dice_ext mx d)                                (* dice_expression.py:46-50 *)
    | EInt n => lift (int_of_text n)                                 (* constant_integer_expression.py:32-36 *)
    | EBool s => ret (bool_value s)                                  (* constant_binary_expression.py:35-39 *)
    | EDiv _ b =>                                                    (* integer_division_expression.py:39-49 *)
        bind (dist_of b) (fun divisor =>
          if contains_zero R divisor then lift (Raise ZeroDivisionError) else ext_via_dist mx e)
    | EMinMax mm a b =>                                              (* minmax_expression.py:39-43 *)
        match minmax_operator mm with
        | None => lift (Raise KeyError)
        | Some f => bind (ext_of mx a) (fun x => bind (ext_of mx b) (fun y => ret (f x y)))
        end
    | EAssign n e =>                                                 (* var_assignment_expression.py:41-51 *)
        bind (ext_of mx e) (fun v =>
        bind (set_const_m n v) (fun _ =>
        bind (dist_of e) (fun d =>
        bind (set_var n d) (fun _ => ret v))))
    | EVar n => fun s => (s, get_constant n s)                       (* get_var_expression.py:35-39 *)
    end.

  (** ** estimated_cost of the classes *)
  Definition cost_sum (a b : M Z) : M Z := bind a (fun x => bind b (fun y => ret (x + y))).

  Fixpoint cost_of (e : expr) : M Z :=
    match e with
    | EParen e | EAbs e => cost_of e             (* parentheses_enclosed_expression.py:40-41, abs_expression.py:40-41 *)
    | ENot e => bind (cost_of e) (fun c => lift (not_cost c))        (* not_expression.py:41-42 *)
    | EDropKeep dk =>                                                (* drop_keep_expression.py:101-109 *)
        match dk_simple dk with
        | Some (SDice d) => ret (dice_cost d)
        | Some (SInt _) => ret 2
        | None => ret (dk_cost_full dk)
        end
    | EDice d => ret (dice_cost d)                                   (* dice_expression.py:52-53 *)
    | EInt _ | EBool _ => ret 2      (* constant_integer_expression.py:41-42, constant_binary_expression.py:44-45 *)
    | EAdd a b | ESub a b | EMul a b | EDiv a b | EBin _ a b | EMinMax _ a b =>
        cost_sum (cost_of a) (cost_of b)                             (* add_expression.py:45-46 and alike *)
    | EAssign n e =>                                                 (* var_assignment_expression.py:56-59 *)
        bind (cost_of e) (fun c => bind (set_const_m n c) (fun _ => ret (2 + c)))
    | EVar n => fun s => (s, get_constant n s)                       (* get_var_expression.py:44-45 *)
    end.
End Model.

Arguments st_var {R}. Arguments st_const {R}. Arguments st_times {R}. Arguments Build_state {R}.
