(** * SpecRepeat: calls of roll() one after the other *)
From Verif Require Import Py PyFloat Constraint Distribution DiceModel Expr Parser Interp SpecProgram SpecInterp SpecRoll SpecFrame SpecProb Random SpecRandom SpecNear.
From Coq Require Import QArith.
Open Scope Z_scope.

(** What the calls of roll() with the programs, one after the other on one interpreter with one random generator, give.  (Exceptions
    are caught: the next call is made in the state that the exception leaves behind.) *)
Fixpoint drawn_results (R : Runtime) (G : Generator) (s : state R) (programs : list (list text)) (g : gen G) : list (res (option Z)) :=
  match programs with
  | [] => []
  | lines :: rest =>
      drawn_result R G s lines g :: match roll_drawn R G lines s g with ((s', _), g') => drawn_results R G s' rest g' end
  end.

(** A program that reads only variables that it has assigned *)
Definition self_contained (lines : list text) : Prop := exists p, program_text lines p /\ runnable p.

(** The first event holds for the first result, and so on *)
Fixpoint all_hold (events : list (res (option Z) -> bool)) (results : list (res (option Z))) : bool :=
  match events, results with
  | [], [] => true
  | P :: events', r :: results' => P r && all_hold events' results'
  | _, _ => false
  end.
Definition is_value (v : Z) (r : res (option Z)) : bool := match r with Ok (Some x) => x =? v | _ => false end.

(** The share of the lists of [n] random numbers for which [P] holds *)
Definition share (n : nat) (P : list Z -> bool) : Q := (inject_Z (count_draws n P) / inject_Z (2 ^ (53 * Z.of_nat n)))%Q.
Definition product (l : list Q) : Q := fold_right Qmult 1%Q l.
Definition all_dice (programs : list (list text)) : nat := length (flat_map dice_thrown programs).

(** The same with the ideal weights of random.choices: the weighted lists of results *)
Fixpoint weighted_rolls (R : Runtime) (s : state R) (programs : list (list text)) : list (Z * list (option Z)) :=
  match programs with
  | [] => [(1, [])]
  | lines :: rest =>
      flat_map (fun run => map (fun wl => (fst run * fst wl, stdout_of R (snd run) :: snd wl)) (weighted_rolls R (fst (snd run)) rest)) (roll R lines s)
  end.
Fixpoint same_values (a : list (option Z)) (b : list Z) : bool :=
  match a, b with [], [] => true | Some x :: a', y :: b' => (x =? y) && same_values a' b' | _, _ => false end.
Definition weight_of (runs : list (Z * list (option Z))) (vs : list Z) : Z :=
  zsum (map fst (filter (fun wl => same_values (snd wl) vs) runs)).

(** [d] is reported for the program, under the conditions under which C57 says that roll() gives its results as often as reported *)
Definition well_reported (R : Runtime) (lines : list text) (d : dist R) : Prop :=
  exists s p, reachable R s /\ program_text lines p /\ good_program p /\ drawable p /\ program_logic_agrees no_values p /\ used_once_or_uniform p /\ reports R s lines d.
