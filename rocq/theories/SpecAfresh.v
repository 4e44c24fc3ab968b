(** * SpecAfresh: what a self-contained program gives, whatever was done before *)
From Coq Require Import Permutation.
From Verif Require Import Py PyFloat Constraint Distribution DiceModel Expr Parser Interp SpecProgram SpecInterp.

(** The same value up to [same], or the same exception *)
Definition same_answer {A B} (same : A -> B -> Prop) (a : res A) (b : res B) : Prop :=
  match a, b with
  | Ok x, Ok y => same x y
  | Raise x, Raise y => x = y
  | _, _ => False
  end.

(** Two distributions, possibly of interpreters with different hash seeds, that show the same: get_result_map() and get_dict_form() have the
    same entries, average(), at_least() and at_most() and the data of the histograms are the same *)
Definition shows_same (R1 R2 : Runtime) (d1 : dist R1) (d2 : dist R2) : Prop :=
  Permutation (get_result_map R1 d1) (get_result_map R2 d2) /\
  same_answer (@Permutation _) (get_dict_form R1 d1) (get_dict_form R2 d2) /\
  d_average R1 d1 = d_average R2 d2 /\
  at_least R1 d1 = at_least R2 d2 /\ at_most R1 d1 = at_most R2 d2 /\ histogram_data R1 d1 = histogram_data R2 d2.

(** A line of the program assigns [n] *)
Definition assigned (p : program) (n : text) : Prop := exists e, In (Some n, e) p.
