(** * SpecInterp: using an interpreter *)
From Verif Require Import Py PyFloat Constraint Distribution DiceModel Expr Parser Interp SpecDice SpecProgram.

Section Spec.
  Context (R : Runtime).
  Notation state := (state R).

  (** The states of an interpreter that was in state [s0], after any sequence of calls, whether or not they raise, and
      whatever the dice.  Its state object may have been given to it (starting_state): constants and variables may be
      set by hand before and between the calls. *)
  Inductive after : state -> state -> Prop :=
  | af_now : forall s0, after s0 s0
  | af_roll : forall s0 s lines w s' r, after s0 s -> In (w, (s', r)) (roll R lines s) -> after s0 s'
  | af_max : forall s0 s lines, after s0 s -> after s0 (fst (max_call R lines s))
  | af_min : forall s0 s lines, after s0 s -> after s0 (fst (min_call R lines s))
  | af_distributions : forall s0 s lines, after s0 s -> after s0 (fst (get_probability_distributions R lines s))
  | af_dict : forall s0 s lines, after s0 s -> after s0 (fst (get_probability_distributions_dict R lines s))
  | af_average : forall s0 s lines, after s0 s -> after s0 (fst (get_average R lines s))
  | af_histogram : forall s0 s lines, after s0 s -> after s0 (fst (get_histogram R lines s))
  | af_at_least : forall s0 s lines, after s0 s -> after s0 (fst (get_at_least_histogram R lines s))
  | af_at_most : forall s0 s lines, after s0 s -> after s0 (fst (get_at_most_histogram R lines s))
  | af_cost : forall s0 s lines, after s0 s -> after s0 (fst (get_estimated_cost R lines s))
  | af_set_constant : forall s0 s n v, after s0 s -> after s0 (set_constant R n v s)
  | af_set_var : forall s0 s n d, after s0 s -> ~ In ","%char n -> own s d -> after s0 (fst (set_var R n d s))
  (** The dictionaries that roll, max and min return are the interpreter's own: the caller may change them *)
  | af_change : forall s0 s c, after s0 s -> after s0 {| st_var := st_var s; st_const := c; st_times := st_times s |}

  (** The distributions that a user of an interpreter in the given state may hold: its variables, now or at an earlier
      time, those made of a dictionary from ints to natural numbers, and all that the operators make of them *)
  with own : state -> dist R -> Prop :=
  | own_variable : forall s n d, after (empty_state R) s -> In (n, d) (st_var s) -> own s d
  | own_made : forall s m d, after (empty_state R) s -> natural_counts m -> mk_dist_ints R m = Ok d -> own s d
  | own_binary : forall s op a b d, own s a -> own s b -> d_binop R op a b = Ok d -> own s d
  | own_not : forall s a, own s a -> own s (d_not R a)
  | own_abs : forall s a, own s a -> own s (d_abs R a)
  | own_before : forall s s' d, own s d -> after s s' -> own s' d.

  Scheme after_both := Minimality for after Sort Prop
  with own_both := Minimality for own Sort Prop.
  Combined Scheme after_own from after_both, own_both.

  Definition reachable (s : state) : Prop := after (empty_state R) s.

  (** The distributions that a user of the library can get hold of: those returned by
      get_probability_distributions, the one a histogram shows, the variables of states, those made of a dictionary from ints to natural numbers
      (ProbabilityDistributionFactory().create), and all that the operators make of them (they may come from different
      interpreters) *)
  Inductive obtainable : dist R -> Prop :=
  | ob_returned : forall s lines s' dict n d, reachable s -> get_probability_distributions R lines s = (s', Ok dict) ->
      In (n, d) dict -> obtainable d
  | ob_shown : forall s lines s' d, reachable s -> last_dist R (empty_dist R) lines s = (s', Ok d) -> obtainable d
  | ob_held : forall s d, own s d -> obtainable d
  | ob_made : forall m d, natural_counts m -> mk_dist_ints R m = Ok d -> obtainable d
  | ob_binary : forall op a b d, obtainable a -> obtainable b -> d_binop R op a b = Ok d -> obtainable d
  | ob_not : forall a, obtainable a -> obtainable (d_not R a)
  | ob_abs : forall a, obtainable a -> obtainable (d_abs R a).

  (** The lines are texts of the lines of [p] *)
  Definition program_text (lines : list text) (p : program) : Prop :=
    Forall2 (fun t l => parse t = Ok (line_expr l)) lines p.

  (** get_probability_distributions(lines)["stdout"] is [d] *)
  Definition reports (s : state) (lines : list text) (d : dist R) : Prop :=
    exists s' dict, get_probability_distributions R lines s = (s', Ok dict) /\ dget text_eqb dict stdout = Some d.
  Definition distribution_raises (s : state) (lines : list text) (x : exn) : Prop :=
    snd (get_probability_distributions R lines s) = Raise x.

  (** get_probability_distributions(lines)[n] is [d], and leads from [s] to [s'] *)
  Definition gives (s : state) (lines : list text) (s' : state) (n : text) (d : dist R) : Prop :=
    exists dict, get_probability_distributions R lines s = (s', Ok dict) /\ dget text_eqb dict n = Some d.
  (** Every outcome of [d] is tied to its own value of the variable instance [inst] *)
  Definition tied_to (inst : text) (d : dist R) : Prop := forall o c, In (o, c) (d_map d) ->
    exists vs, In (CVar inst vs) (cs_iter (rt_c R) (o_cs o)) /\ forall x, In x (z_iter (rt_z R) vs) <-> x = o_value o.

  (** max(lines)["stdout"] is [v] (min for [mx = false]) *)
  Definition extreme (mx : bool) (lines : list text) : M R const_dict := if mx then max_call R lines else min_call R lines.
  Definition extreme_is (mx : bool) (s : state) (lines : list text) (v : Z) : Prop :=
    exists s' dict, extreme mx lines s = (s', Ok dict) /\ dget text_eqb (read_dict R s' dict) stdout = Some v.
  Definition extreme_raises (mx : bool) (s : state) (lines : list text) (x : exn) : Prop :=
    snd (extreme mx lines s) = Raise x.

  (** The runs of roll(lines) with their weights; a run of weight zero does not happen *)
  Definition stdout_of (run : state * res const_dict) : option Z :=
    match run with (s', Ok dict) => dget text_eqb (read_dict R s' dict) stdout | (_, Raise _) => None end.
  (** some run of roll(lines) gives [v] as the value of stdout *)
  Definition can_roll (s : state) (lines : list text) (v : Z) : Prop :=
    exists w run, In (w, run) (roll R lines s) /\ w <> 0 /\ stdout_of run = Some v.
  Definition can_raise (s : state) (lines : list text) (x : exn) : Prop :=
    exists w s', In (w, (s', Raise x)) (roll R lines s) /\ w <> 0.
  (** The total weight of the runs that give [v], and of all runs *)
  Definition roll_weight (s : state) (lines : list text) (v : Z) : Z :=
    zsum (map fst (filter (fun wr => match stdout_of (snd wr) with Some x => x =? v | None => false end) (roll R lines s))).
  Definition roll_total (s : state) (lines : list text) : Z := zsum (map fst (roll R lines s)).
End Spec.

(** ** When AND, OR and NOT of roll() agree with the README: roll() uses Python's bitwise operators and the
    truth of the whole integer, the README says that values above 0 are true. *)
Definition and_agrees (x y : Z) : Prop := Z.land x y <> 0 <-> 0 < x /\ 0 < y.
Definition or_agrees (x y : Z) : Prop := Z.lor x y <> 0 <-> 0 < x \/ 0 < y.
Definition not_agrees (x : Z) : Prop := x <> 0 <-> 0 < x.

(** Every AND, OR and NOT in [e] is only used on values for which they agree *)
Fixpoint logic_agrees (env : text -> option Z) (e : expr) : Prop :=
  match e with
  | EParen e | EAbs e | EAssign _ e => logic_agrees env e
  | ENot e => logic_agrees env e /\ forall x, In (Some x) (joint faces env e) -> not_agrees x
  | EDropKeep _ | EDice _ | EInt _ | EBool _ | EVar _ => True
  | EAdd a b | ESub a b | EMul a b | EDiv a b | EMinMax _ a b => logic_agrees env a /\ logic_agrees env b
  | EBin op a b => logic_agrees env a /\ logic_agrees env b /\
      forall x y, In (Some x) (joint faces env a) -> In (Some y) (joint faces env b) ->
        (op = $"AND" -> and_agrees x y) /\ (op = $"OR" -> or_agrees x y)
  end.

Fixpoint program_logic_agrees (env : text -> option Z) (p : program) : Prop :=
  match p with
  | [] => True
  | (n, e) :: p' => logic_agrees env e /\ forall x, In (Some x) (joint faces env e) -> program_logic_agrees (bind_value env n x) p'
  end.

(** A condition that can be read off the expression: AND, OR and NOT are only used on truth values *)
Fixpoint truth_valued (e : expr) : Prop :=
  match e with
  | EParen e | EAbs e => truth_valued e
  | ENot _ | EBool _ | EBin _ _ _ => True
  | EMul a b | EMinMax _ a b => truth_valued a /\ truth_valued b
  | _ => False
  end.
Fixpoint logical (e : expr) : Prop :=
  match e with
  | EParen e | EAbs e | EAssign _ e => logical e
  | ENot e => logical e /\ truth_valued e
  | EDropKeep _ | EDice _ | EInt _ | EBool _ | EVar _ => True
  | EAdd a b | ESub a b | EMul a b | EDiv a b | EMinMax _ a b => logical a /\ logical b
  | EBin op a b => logical a /\ logical b /\ (op = $"AND" \/ op = $"OR" -> truth_valued a /\ truth_valued b)
  end.

(** [x] is not beyond [v]: not above it for max, not below it for min *)
Definition within (mx : bool) (x v : Z) : Prop := if mx then x <= v else v <= x.

(** ** When max() and min() of an expression are exact: MAX inside max() and MIN inside min() always are;
    otherwise the operands must not depend on a common roll of a variable.  [origins n]: the assignments that the value
    of [n] goes back to.  [ok n]: the stored extreme of [n] is exact. *)
Definition unrelated (origins : text -> list nat) (a b : expr) : Prop :=
  forall m n k, In m (reads a) -> In n (reads b) -> In k (origins m) -> ~ In k (origins n).

Fixpoint extreme_exact (mx : bool) (origins : text -> list nat) (ok : text -> Prop) (e : expr) : Prop :=
  match e with
  | EParen e | EAssign _ e => extreme_exact mx origins ok e
  | EMinMax mm a b => extreme_exact mx origins ok a /\ extreme_exact mx origins ok b /\
      (mm = (if mx then $"MAX" else $"MIN") \/ unrelated origins a b)
  | EVar n => ok n
  | _ => True
  end.

(** The lines of [p] are numbered from [i] on *)
Definition next_origins (i : nat) (origins : text -> list nat) (n : option text) (e : expr) : text -> list nat :=
  match n with Some n => fun m => if text_eqb m n then i :: flat_map origins (reads e) else origins m | None => origins end.
Definition next_exact (mx : bool) (origins : text -> list nat) (ok : text -> Prop) (n : option text) (e : expr) : text -> Prop :=
  match n with Some n => fun m => (m = n /\ extreme_exact mx origins ok e) \/ (m <> n /\ ok m) | None => ok end.
Fixpoint exact_lines (mx : bool) (i : nat) (origins : text -> list nat) (ok : text -> Prop) (p : program) : Prop :=
  match p with
  | [] => False
  | [(_, e)] => extreme_exact mx origins ok e
  | (n, e) :: p' => exact_lines mx (S i) (next_origins i origins n e) (next_exact mx origins ok n e) p'
  end.
Definition program_extreme_exact (mx : bool) (p : program) : Prop := exact_lines mx 0 (fun _ => []) (fun _ => False) p.
