(** * SpecSum: adding up what tables of floats show *)
From Coq Require Import QArith Qabs.
From Verif Require Import Py SpecProb.
Local Open Scope Z_scope.

(** The sum of [g v] times the value shown for [v], over all entries of a table; exact, without rounding *)
Definition shown_sum (g : Z -> Z) (m : list (Z * PyFloat.pyfloat)) : Q :=
  fold_right (fun p sum => (inject_Z (g (fst p)) * match fvalue (snd p) with Some x => x | None => 0 end + sum)%Q) 0%Q m.
(** What the rounding of each value shown, by at most 2^-54, can change in that sum *)
Definition rounding_of_sum (g : Z -> Z) (m : list (Z * PyFloat.pyfloat)) : Q :=
  (inject_Z (zsum (map (fun p => Z.abs (g (fst p))) m)) * 2 ^ (-54))%Q.

(** The weight of 1 for the integers that pass a test *)
Definition counted (test : Z -> bool) (v : Z) : Z := if test v then 1 else 0.
