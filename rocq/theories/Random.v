(** * Random: roll() with the numbers of a random generator.

    [random.choices] as CPython 3.9 and later compute it from the results of [random.random()], and [roll] of the
    classes and of the interpreter on top of it.  [roll] of Expr.v and Interp.v, which lists all results with
    their ideal weights, is compared with this in C56. *)
From Verif Require Import Py PyFloat Constraint Distribution DiceModel Expr Parser Interp.
From Coq Require Import Floats.SpecFloat.

(** random.random() for the 53 random bits that it takes from the generator *)
Definition random_float (bits : Z) : pyfloat := binary_normalize prec64 emax64 bits (-53) false.

(** A generator: its state and the next 53 random bits *)
Record Generator := {
  gen : Type;
  next_bits : gen -> Z * gen;
  bits_range : forall g, 0 <= fst (next_bits g) < 2 ^ 53
}.

(** itertools.accumulate *)
Fixpoint accumulate (acc : Z) (ws : list Z) : list Z :=
  match ws with [] => [] | w :: ws' => (acc + w) :: accumulate (acc + w) ws' end.

(** float < int: exact (CPython float_richcompare) *)
Definition flt_int (x : pyfloat) (z : Z) : bool :=
  match x with
  | S754_zero _ => 0 <? z
  | S754_infinity s => s
  | S754_nan => false
  | S754_finite s m e =>
      let n := if s then Z.neg m else Z.pos m in
      if 0 <=? e then n * 2 ^ e <? z else n <? z * 2 ^ (- e)
  end.

(** float <= 0.0 *)
Definition fle_zero (x : pyfloat) : bool :=
  match x with S754_zero _ => true | S754_infinity s => s | S754_nan => false | S754_finite s _ _ => s end.

(** bisect.bisect_right(a, x, lo, hi); at most [fuel] rounds *)
Fixpoint bisect_right (fuel : nat) (a : list Z) (x : pyfloat) (lo hi : nat) : nat :=
  match fuel with
  | O => lo
  | S fuel' =>
      if Nat.ltb lo hi then
        let mid := Nat.div2 (lo + hi) in
        if flt_int x (nth mid a 0) then bisect_right fuel' a x lo mid else bisect_right fuel' a x (S mid) hi
      else lo
  end.

(** random.choices(keys, weights=weights, k=len(bits)) *)
Definition choices_drawn (m : list (Z * Z)) (bits : list Z) : res (list Z) :=
  match m with
  | [] => Raise IndexError
  | _ =>
      let cum_weights := accumulate 0 (map snd m) in
      rbind (float_of_Z (last cum_weights 0)) (fun total =>
      if fle_zero total then Raise ValueError
      else
        let hi := (length m - 1)%nat in
        Ok (map (fun r => nth (bisect_right (length m) cum_weights (fmul (random_float r) total) 0 hi) (map fst m) 0) bits))
  end.

Section Random.
  Context (R : Runtime) (G : Generator).
  Notation state := (state R).

  Fixpoint draw (k : nat) (g : gen G) : list Z * gen G :=
    match k with
    | O => ([], g)
    | S k' => let (r, g1) := next_bits G g in let (rs, g2) := draw k' g1 in (r :: rs, g2)
    end.

  (** Computations that draw *)
  Definition D (A : Type) : Type := state -> gen G -> (state * res A) * gen G.
  Definition gret {A} (a : A) : D A := fun s g => ((s, Ok a), g).
  Definition glift {A} (r : res A) : D A := fun s g => ((s, r), g).
  Definition gbind {A B} (m : D A) (f : A -> D B) : D B :=
    fun s g => match m s g with ((s', Ok a), g') => f a s' g' | ((s', Raise e), g') => ((s', Raise e), g') end.
  (** random.choices on a dice map.  (An exception comes before the first draw.) *)
  Definition gchoices (m : list (Z * Z)) (k : Z) (f : list Z -> Z) : D Z :=
    fun s g => match choices_drawn m [] with
               | Raise e => ((s, Raise e), g)
               | Ok _ => let (rs, g') := draw (Z.to_nat k) g in ((s, rmap f (choices_drawn m rs)), g')
               end.
  Definition gbinop (f : Z -> Z -> Z) (a b : D Z) : D Z := gbind a (fun x => gbind b (fun y => gret (f x y))).

  (** ** roll of the classes: the lines are those of [roll_of] in Expr.v *)
  Fixpoint drawn_of (e : expr) : D Z :=
    match e with
    | EParen e => drawn_of e
    | ENot e => gbind (drawn_of e) (fun x => gret (if x =? 0 then 1 else 0))
    | EDropKeep dk =>                                                (* drop_keep_expression.py:68-80 *)
        match dk_simple dk with
        | Some (SDice d) => gchoices (dice_map d) (dice_num d) zsum
        | Some (SInt n) => glift (int_of_text n)
        | None => gchoices (dk_map dk) (dk_num dk) (dk_select dk)
        end
    | EDice d => gchoices (dice_map d) (dice_num d) zsum             (* dice_expression.py:37-44 *)
    | EInt n => glift (int_of_text n)
    | EBool s => gret (bool_value s)
    | EAdd a b => gbinop Z.add (drawn_of a) (drawn_of b)
    | ESub a b => gbinop Z.sub (drawn_of a) (drawn_of b)
    | EMul a b => gbinop Z.mul (drawn_of a) (drawn_of b)
    | EDiv a b =>                                                    (* integer_division_expression.py:33-37 *)
        gbind (drawn_of b) (fun divisor =>
          if divisor =? 0 then glift (Raise ZeroDivisionError) else gbind (drawn_of a) (fun x => gret (x / divisor)))
    | EBin op a b =>
        match int_operator op with
        | None => glift (Raise KeyError)
        | Some f => gbinop f (drawn_of a) (drawn_of b)
        end
    | EMinMax mm a b =>
        match minmax_operator mm with
        | None => glift (Raise KeyError)
        | Some f => gbinop f (drawn_of a) (drawn_of b)
        end
    | EAbs e => gbind (drawn_of e) (fun x => gret (Z.abs x))
    | EAssign n e => gbind (drawn_of e) (fun x s g => ((set_constant R n x s, Ok x), g))
    | EVar n => fun s g => ((s, get_constant R n s), g)
    end.

  (** python_dice_interpreter.py:44-51: roll *)
  Definition drawn_line (line : text) : D const_dict :=
    gbind (glift (parse line)) (fun e =>
    gbind (drawn_of e) (fun v s g => ((set_stdout_const R v s, Ok LiveConstants), g))).
  Fixpoint drawn_from (return_dict : const_dict) (lines : list text) : D const_dict :=
    match lines with
    | [] => gret return_dict
    | l :: lines' => gbind (drawn_line l) (fun d => drawn_from d lines')
    end.
  Definition roll_drawn (lines : list text) : D const_dict := drawn_from EmptyDict lines.
End Random.
