(** * SpecCalls: single calls on an interpreter, and what it stores *)
From Verif Require Import Py PyFloat Constraint Distribution DiceModel Expr Parser Interp SpecDice SpecProgram SpecInterp.

(** The calls of python_dice_interpreter.py:44-125 with their programs *)
Inductive call :=
| CRoll (lines : list text) | CMax (lines : list text) | CMin (lines : list text)
| CDistributions (lines : list text) | CDict (lines : list text) | CAverage (lines : list text)
| CHistogram (lines : list text) | CAtLeast (lines : list text) | CAtMost (lines : list text)
| CCost (lines : list text).

Definition call_lines (c : call) : list text :=
  match c with
  | CRoll l | CMax l | CMin l | CDistributions l | CDict l | CAverage l | CHistogram l | CAtLeast l | CAtMost l | CCost l => l
  end.

(** Calls that work out distributions only *)
Definition asks_distribution (c : call) : Prop :=
  match c with CDistributions _ | CDict _ | CAverage _ | CHistogram _ | CAtLeast _ | CAtMost _ => True | _ => False end.

(** The names that an expression assigns *)
Fixpoint assigned (e : expr) : list text :=
  match e with
  | EParen e | ENot e | EAbs e => assigned e
  | EDropKeep _ | EDice _ | EInt _ | EBool _ | EVar _ => []
  | EAdd a b | ESub a b | EMul a b | EDiv a b | EBin _ a b | EMinMax _ a b => assigned a ++ assigned b
  | EAssign n e => n :: assigned e
  end.

(** Some line assigns (reads) [n] *)
Definition assigns (lines : list text) (n : text) : Prop := exists t e, In t lines /\ parse t = Ok e /\ In n (assigned e).
Definition mentions_name (lines : list text) (n : text) : Prop := exists t e, In t lines /\ parse t = Ok e /\ In n (reads e).

Definition some_line (lines : list text) (P : expr -> Prop) : Prop := exists t e, In t lines /\ parse t = Ok e /\ P e.
(** Some line reads [n] although neither it nor an earlier line assigns it *)
Definition reads_unassigned (lines : list text) (n : text) : Prop :=
  exists before t after e, lines = before ++ t :: after /\ parse t = Ok e /\ In n (reads e) /\ ~ In n (assigned e) /\ ~ assigns before n.

(** Some line reads [n] although no earlier line assigns it; [set e] are the names that count as assigned by [e] *)
Definition reads_first (set : expr -> list text) (lines : list text) (n : text) : Prop :=
  exists before t after e, lines = before ++ t :: after /\ parse t = Ok e /\ In n (reads e) /\ ~ some_line before (fun b => In n (set b)).

(** An integer division occurs in the expression *)
Fixpoint divides (e : expr) : Prop :=
  match e with
  | EParen e | ENot e | EAbs e | EAssign _ e => divides e
  | EDropKeep _ | EDice _ | EInt _ | EBool _ | EVar _ => False
  | EAdd a b | ESub a b | EMul a b | EBin _ a b | EMinMax _ a b => divides a \/ divides b
  | EDiv a b => True
  end.

(** Assignments that are not inside an operator other than MAX and MIN *)
Fixpoint assigned_outside (e : expr) : list text :=
  match e with
  | EParen e => assigned_outside e
  | EAssign n e => n :: assigned_outside e
  | EMinMax _ a b => assigned_outside a ++ assigned_outside b
  | _ => []
  end.

Section Spec.
  Context (R : Runtime).
  Notation state := (state R).

  (** What roll(), max(), min() and estimated_cost() have stored for [n]: the entry of the dictionary that roll() returns *)
  Definition constant (s : state) (n : text) : option Z := dget text_eqb (st_const s) n.
  (** The entry of the dictionary that get_probability_distributions() returns *)
  Definition variable (s : state) (n : text) : option (dist R) := dget text_eqb (st_var s) n.

  (** [does c s s']: the call [c] can lead from [s] to [s'], whether or not it raises *)
  Inductive does : call -> state -> state -> Prop :=
  | do_roll : forall lines s w s' r, In (w, (s', r)) (roll R lines s) -> does (CRoll lines) s s'
  | do_max : forall lines s, does (CMax lines) s (fst (max_call R lines s))
  | do_min : forall lines s, does (CMin lines) s (fst (min_call R lines s))
  | do_distributions : forall lines s, does (CDistributions lines) s (fst (get_probability_distributions R lines s))
  | do_dict : forall lines s, does (CDict lines) s (fst (get_probability_distributions_dict R lines s))
  | do_average : forall lines s, does (CAverage lines) s (fst (get_average R lines s))
  | do_histogram : forall lines s, does (CHistogram lines) s (fst (get_histogram R lines s))
  | do_at_least : forall lines s, does (CAtLeast lines) s (fst (get_at_least_histogram R lines s))
  | do_at_most : forall lines s, does (CAtMost lines) s (fst (get_at_most_histogram R lines s))
  | do_cost : forall lines s, does (CCost lines) s (fst (get_estimated_cost R lines s)).

  Inductive history : state -> list call -> state -> Prop :=
  | hi_start : forall s, history s [] s
  | hi_call : forall s c s1 cs s2, does c s s1 -> history s1 cs s2 -> history s (c :: cs) s2.

  (** The runs of a roll, with the random choices that the second program makes after the first one *)
  Definition then_rolls (l1 : list (Z * (state * res const_dict))) (next : state -> list (Z * (state * res const_dict))) :=
    flat_map (fun run => match run with
                         | (w1, (s1, Ok _)) => map (fun run2 => (w1 * fst run2, snd run2)) (next s1)
                         | (w1, (s1, Raise x)) => [(w1, (s1, Raise x))]
                         end) l1.
  (** A call and, unless it raises, a second one *)
  Definition then_call {A} (r1 : state * res A) (next : state -> A -> state * res A) : state * res A :=
    match r1 with (s1, Ok a) => next s1 a | (s1, Raise x) => (s1, Raise x) end.

  (** What a user sees of a run of roll(): its weight, the constants afterwards, and the result *)
  Definition seen_run (run : Z * (state * res const_dict)) : Z * list (text * Z) * res const_dict :=
    (fst run, st_const (fst (snd run)), snd (snd run)).

  (** The two states hold the same for the variables that get_contained_variables of [e] reports *)
  Definition alike (e : expr) (s s' : state) : Prop :=
    forall n, In n (contained_variables e) -> constant s n = constant s' n /\ variable s n = variable s' n.
End Spec.
