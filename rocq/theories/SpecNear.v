(** * SpecNear: how many sequences of random numbers give a result, and the dice that a program throws *)
From Verif Require Import Py Constraint Distribution DiceModel Expr Parser Interp SpecInterp Random SpecRandom.

(** The number of lists of [n] of the numbers for which [P] holds *)
Fixpoint count_lists (numbers : list Z) (n : nat) (P : list Z -> bool) : Z :=
  match n with
  | O => if P [] then 1 else 0
  | S n' => zsum (map (fun r => count_lists numbers n' (fun l => P (r :: l))) numbers)
  end.
Definition count_draws : nat -> (list Z -> bool) -> Z := count_lists (zrange 0 (2 ^ 53)).

(** The dice that are thrown, one by one *)
Fixpoint thrown (e : expr) : list (list (Z * Z)) :=
  match e with
  | EParen e | ENot e | EAbs e | EAssign _ e => thrown e
  | EDropKeep dk => repeat (dk_map dk) (Z.to_nat (dk_num dk))
  | EDice d => repeat (dice_map d) (Z.to_nat (dice_num d))
  | EInt _ | EBool _ | EVar _ => []
  | EAdd a b | ESub a b | EMul a b | EDiv a b | EBin _ a b | EMinMax _ a b => thrown a ++ thrown b
  end.
Definition dice_thrown (lines : list text) : list (list (Z * Z)) :=
  flat_map (fun t => match parse t with Ok e => thrown e | Raise _ => [] end) lines.
(** The number of different sides of all these dice *)
Definition sides_thrown (dice : list (list (Z * Z))) : Z := zsum (map (fun m => Z.of_nat (length m)) dice).

(** roll() returns a dictionary with property [P]; stdout is [v] *)
Definition drawn_event (R : Runtime) (s : state R) (lines : list text) (P : (text -> option Z) -> bool) (bits : list Z) : bool :=
  match fst (roll_drawn R list_gen lines s bits) with (s', Ok d) => P (dget text_eqb (read_dict R s' d)) | (_, Raise _) => false end.
Definition stdout_is (v : Z) (f : text -> option Z) : bool := match f stdout with Some x => x =? v | None => false end.
