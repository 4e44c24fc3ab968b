(** * SpecSeed: sessions with the library, and what is visible of them *)
From Verif Require Import Py PyFloat Constraint Distribution DiceModel Expr Parser Interp Random Show SpecCalls.

(** What can be asked of a distribution, apart from its printed form *)
Record view := {
  v_result_map : list (Z * Z); v_max : res Z; v_min : res Z; v_contains_zero : bool; v_average : res pyfloat;
  v_dict : res (list (Z * pyfloat)); v_at_least : res (list (Z * pyfloat)); v_at_most : res (list (Z * pyfloat));
  v_histogram : res histogram; v_at_least_histogram : res histogram; v_at_most_histogram : res histogram
}.

(** What can be asked of two distributions *)
Record comparison := {
  c_histogram : res histogram;
  c_lines : res line_plot; c_at_least : res line_plot; c_at_most : res line_plot
}.

(** What is seen of one step; the entries of dictionaries in their order *)
Inductive sight :=
| SeenConstants (r : res (list (text * Z)))
| SeenDistributions (r : res (list (text * view)))
| SeenDict (r : res (list (text * list (Z * pyfloat))))
| SeenAverages (r : res (list (text * pyfloat)))
| SeenHistogram (r : res histogram)
| SeenCost (r : res Z)
| SeenRolls (l : list (Z * (list (text * Z) * res const_dict)))
| SeenDistribution (r : res view)
| SeenComparison (c : comparison)
| SeenNothing.

(** The steps of a session with any number of interpreters.  The distributions that were handed out are numbered. *)
Inductive action :=
| ACall (i : nat) (c : call)                                 (* a call on interpreter i *)
| ALook (i : nat)                                            (* look again at a dict that roll, max or min of i returned *)
| ARolls (i : nat) (lines : list text)                       (* all results that roll could give now, with their weights *)
| ACombine (op : vop) (x y : nat) | ANot (x : nat) | AAbs (x : nat)
| ACompare (x y : nat) (name name' : text).

Section Session.
  Context (R : Runtime) (G : Generator).

  Definition view_of (d : dist R) : view :=
    {| v_result_map := get_result_map R d; v_max := d_max R d; v_min := d_min R d; v_contains_zero := contains_zero R d;
       v_average := d_average R d; v_dict := get_dict_form R d; v_at_least := at_least R d; v_at_most := at_most R d;
       v_histogram := histogram_plot R d; v_at_least_histogram := at_least_plot R d; v_at_most_histogram := at_most_plot R d |}.
  Definition comparison_of (a b : dist R) (name name' : text) : comparison :=
    {| c_histogram := compare_plot R a b; c_lines := get_compare R a b name name';
       c_at_least := get_compare_at_least R a b name name'; c_at_most := get_compare_at_most R a b name name' |}.

  Record world := { interpreter : nat -> state R; held : list (dist R); source : gen G }.
  (** New interpreters, and a random generator in a given state *)
  Definition start (g : gen G) : world := {| interpreter := fun _ => empty_state R; held := []; source := g |}.

  Definition at_interpreter (i : nat) (s : state R) (w : world) : world :=
    {| interpreter := fun j => if Nat.eqb j i then s else interpreter w j; held := held w; source := source w |}.
  Definition hold (ds : list (dist R)) (w : world) : world :=
    {| interpreter := interpreter w; held := held w ++ ds; source := source w |}.
  Definition with_source (g : gen G) (w : world) : world := {| interpreter := interpreter w; held := held w; source := g |}.

  Definition do_call (i : nat) (c : call) (w : world) : world * sight :=
    let s := interpreter w i in
    match c with
    | CRoll lines => let '((s', r), g) := roll_drawn R G lines s (source w) in
        (with_source g (at_interpreter i s' w), SeenConstants (rmap (read_dict R s') r))
    | CMax lines => let (s', r) := max_call R lines s in (at_interpreter i s' w, SeenConstants (rmap (read_dict R s') r))
    | CMin lines => let (s', r) := min_call R lines s in (at_interpreter i s' w, SeenConstants (rmap (read_dict R s') r))
    | CDistributions lines => let (s', r) := get_probability_distributions R lines s in
        (match r with Ok l => hold (map snd l) (at_interpreter i s' w) | Raise _ => at_interpreter i s' w end,
         SeenDistributions (rmap (map (fun nd => (fst nd, view_of (snd nd)))) r))
    | CDict lines => let (s', r) := get_probability_distributions_dict R lines s in (at_interpreter i s' w, SeenDict r)
    | CAverage lines => let (s', r) := get_average R lines s in (at_interpreter i s' w, SeenAverages r)
    | CHistogram lines => let (s', r) := get_histogram R lines s in (at_interpreter i s' w, SeenHistogram r)
    | CAtLeast lines => let (s', r) := get_at_least_histogram R lines s in (at_interpreter i s' w, SeenHistogram r)
    | CAtMost lines => let (s', r) := get_at_most_histogram R lines s in (at_interpreter i s' w, SeenHistogram r)
    | CCost lines => let (s', r) := get_estimated_cost R lines s in (at_interpreter i s' w, SeenCost r)
    end.

  Definition make (r : res (dist R)) (w : world) : world * sight :=
    (match r with Ok d => hold [d] w | Raise _ => w end, SeenDistribution (rmap view_of r)).

  Definition do_action (a : action) (w : world) : world * sight :=
    match a with
    | ACall i c => do_call i c w
    | ALook i => (w, SeenConstants (Ok (read_dict R (interpreter w i) LiveConstants)))
    | ARolls i lines => (w, SeenRolls (map (fun run => (fst run, (st_const (fst (snd run)), snd (snd run)))) (roll R lines (interpreter w i))))
    | ACombine op x y => match nth_error (held w) x, nth_error (held w) y with
                         | Some a, Some b => make (d_binop R op a b) w
                         | _, _ => (w, SeenNothing)
                         end
    | ANot x => match nth_error (held w) x with Some a => make (Ok (d_not R a)) w | None => (w, SeenNothing) end
    | AAbs x => match nth_error (held w) x with Some a => make (Ok (d_abs R a)) w | None => (w, SeenNothing) end
    | ACompare x y name name' =>
        match nth_error (held w) x, nth_error (held w) y with
        | Some a, Some b => (w, SeenComparison (comparison_of a b name name'))
        | _, _ => (w, SeenNothing)
        end
    end.

  Fixpoint session (acts : list action) (w : world) : list sight :=
    match acts with
    | [] => []
    | a :: acts' => let (w', x) := do_action a w in x :: session acts' w'
    end.
  Fixpoint world_after (acts : list action) (w : world) : world :=
    match acts with
    | [] => w
    | a :: acts' => world_after acts' (fst (do_action a w))
    end.

  (** str() of the distribution with number [x] *)
  Definition printed (acts : list action) (x : nat) (w : world) : option text :=
    option_map (d_str R) (nth_error (held (world_after acts w)) x).
End Session.
