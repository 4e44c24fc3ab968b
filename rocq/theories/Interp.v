(** * Interp: model of python_dice_interpreter.py. *)
From Verif Require Import Py PyFloat Constraint Distribution DiceModel Expr Lexer Parser.

(** [d["stdout"] = x] *)
Definition stdout : text := $"stdout".

(** The dict returned by roll, max and min is the interpreter's own dictionary of constants
    (python_dice_interpreter.py:49-51, probability_distribution_state.py:27-28), not a copy; for an empty
    program it is a new empty dict (line 45). *)
Inductive const_dict := LiveConstants | EmptyDict.

Section Model.
  Context (R : Runtime).
  Notation state := (state R).
  Notation dist := (dist R).

  (** What a dict returned by roll, max or min holds when it is looked at in state [s]. *)
  Definition read_dict (s : state) (d : const_dict) : list (text * Z) :=
    match d with LiveConstants => st_const s | EmptyDict => [] end.

  Definition set_stdout_const (x : Z) (s : state) : state :=
    {| st_var := st_var s; st_const := dset text_eqb (st_const s) stdout x; st_times := st_times s |}.
  Definition set_stdout_var (x : dist) (s : state) : state :=
    {| st_var := dset text_eqb (st_var s) stdout x; st_const := st_const s; st_times := st_times s |}.

  (** python_dice_interpreter.py:47-50: one line of roll *)
  Definition roll_line (line : text) : W R const_dict :=
    wbind R (wlift R (parse line)) (fun e =>
    wbind R (roll_of R e) (fun v s => [(1, (set_stdout_const v s, Ok LiveConstants))])).

  (** python_dice_interpreter.py:44-51: roll *)
  Fixpoint roll_from (return_dict : const_dict) (lines : list text) : W R const_dict :=
    match lines with
    | [] => wret R return_dict
    | l :: lines' => wbind R (roll_line l) (fun d => roll_from d lines')
    end.
  Definition roll (lines : list text) : W R const_dict := roll_from EmptyDict lines.

  (** python_dice_interpreter.py:56-59, 65-68: one line of max or min *)
  Definition ext_line (mx : bool) (line : text) : M R const_dict :=
    bind R (lift R (parse line)) (fun e =>
    bind R (ext_of R mx e) (fun v s => (set_stdout_const v s, Ok LiveConstants))).

  (** python_dice_interpreter.py:53-69: max and min *)
  Fixpoint ext_from (mx : bool) (return_dict : const_dict) (lines : list text) : M R const_dict :=
    match lines with
    | [] => ret R return_dict
    | l :: lines' => bind R (ext_line mx l) (fun d => ext_from mx d lines')
    end.
  Definition max_call (lines : list text) : M R const_dict := ext_from true EmptyDict lines.
  Definition min_call (lines : list text) : M R const_dict := ext_from false EmptyDict lines.

  (** python_dice_interpreter.py:83-86: one line of get_probability_distributions (and of
      get_probability_distributions_dict, get_average); the result says that return_dict is now the
      interpreter's dictionary of variables *)
  Definition dist_line (line : text) : M R dist :=
    bind R (lift R (parse line)) (fun e =>
    bind R (dist_of R e) (fun d s => (set_stdout_var d s, Ok d))).

  (** python_dice_interpreter.py:81-87.  [ran]: at least one line was run. *)
  Fixpoint dist_lines (ran : bool) (lines : list text) : M R (list (text * dist)) :=
    match lines with
    | [] => fun s => (s, Ok (if ran then st_var s else []))
    | l :: lines' => bind R (dist_line l) (fun _ => dist_lines true lines')
    end.

  (** python_dice_interpreter.py:80-87: a new dict with the same entries *)
  Definition get_probability_distributions (lines : list text) : M R (list (text * dist)) := dist_lines false lines.

  Fixpoint map_res {A B} (f : A -> res B) (l : list (text * A)) : res (list (text * B)) :=
    match l with
    | [] => Ok []
    | (k, a) :: l' => rbind (f a) (fun b => rmap (cons (k, b)) (map_res f l'))
    end.

  (** python_dice_interpreter.py:71-78 *)
  Definition get_probability_distributions_dict (lines : list text) : M R (list (text * list (Z * pyfloat))) :=
    bind R (dist_lines false lines) (fun d => lift R (map_res (get_dict_form R) d)).

  (** python_dice_interpreter.py:89-96 *)
  Definition get_average (lines : list text) : M R (list (text * pyfloat)) :=
    bind R (dist_lines false lines) (fun d => lift R (map_res (d_average R) d)).

  (** python_dice_interpreter.py:98-103, 105-110, 112-117: the loop shared by the histogram functions.
      Here stdout is a local variable: the dictionary of variables does not get a "stdout" entry. *)
  Fixpoint last_dist (current : dist) (lines : list text) : M R dist :=
    match lines with
    | [] => ret R current
    | l :: lines' =>
        bind R (lift R (parse l)) (fun e => bind R (dist_of R e) (fun d => last_dist d lines'))
    end.

  (** probability_distribution_factory.py:19-23 without an argument *)
  Definition empty_dist : dist := mk_dist R [].

  (** python_dice_interpreter.py:98-117 *)
  Definition get_histogram (lines : list text) : M R histogram :=
    bind R (last_dist empty_dist lines) (fun d => lift R (histogram_plot R d)).
  Definition get_at_least_histogram (lines : list text) : M R histogram :=
    bind R (last_dist empty_dist lines) (fun d => lift R (at_least_plot R d)).
  Definition get_at_most_histogram (lines : list text) : M R histogram :=
    bind R (last_dist empty_dist lines) (fun d => lift R (at_most_plot R d)).

  (** python_dice_interpreter.py:119-125 *)
  Fixpoint cost_from (total : Z) (lines : list text) : M R Z :=
    match lines with
    | [] => ret R total
    | l :: lines' =>
        bind R (lift R (parse l)) (fun e => bind R (cost_of R e) (fun c => cost_from (total + c) lines'))
    end.
  Definition get_estimated_cost (lines : list text) : M R Z := cost_from 0 lines.
End Model.
