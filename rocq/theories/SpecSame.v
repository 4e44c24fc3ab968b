(** * SpecSame: different ways to write the same dice *)
From Coq Require Import Permutation.
From Verif Require Import Py Constraint Distribution DiceModel Expr SpecDice.

(** ** Dice with the faces [fs], in any order, written with the values [vs] (also those with no copies) *)
Definition such_die (fs vs : list Z) (m : list (Z * Z)) : Prop := Permutation (faces m) fs /\ forall v, In v (map fst m) <-> In v vs.

(** The expression adds up [n] such dice: dice, sums and parentheses *)
Inductive sum_of (fs vs : list Z) : nat -> expr -> Prop :=
| so_dice : forall d, such_die fs vs (dice_map d) -> 1 <= dice_num d -> sum_of fs vs (Z.to_nat (dice_num d)) (EDice d)
| so_paren : forall n e, sum_of fs vs n e -> sum_of fs vs n (EParen e)
| so_add : forall i j a b, sum_of fs vs i a -> sum_of fs vs j b -> sum_of fs vs (i + j) (EAdd a b).

(** The expression takes the highest ([mx]) or the lowest of [n] such dice: one die, a pool of which one die counts, MAX or
    MIN, and parentheses *)
Inductive best_of (mx : bool) (fs vs : list Z) : nat -> expr -> Prop :=
| bo_die : forall d, such_die fs vs (dice_map d) -> dice_num d = 1 -> best_of mx fs vs 1 (EDice d)
| bo_pool : forall dk, such_die fs vs (dk_map dk) -> 1 <= dk_num dk -> dk_keep dk = mx -> dk_k dk = (if mx then 1 else dk_num dk - 1) ->
    best_of mx fs vs (Z.to_nat (dk_num dk)) (EDropKeep dk)
| bo_paren : forall n e, best_of mx fs vs n e -> best_of mx fs vs n (EParen e)
| bo_pick : forall i j a b, best_of mx fs vs i a -> best_of mx fs vs j b ->
    best_of mx fs vs (i + j) (EMinMax (if mx then $"MAX" else $"MIN") a b).

(** ** Dice that are symmetric: [c - x] is as frequent as [x] *)
Definition mirrored (c : Z) (fs vs : list Z) : Prop :=
  Permutation (map (fun x => c - x) fs) fs /\ forall v, In v vs <-> In (c - v) vs.

(** [k] consecutive integers, from [a] on *)
Definition consecutive (a : Z) (k : nat) : list Z := map (fun i => a + Z.of_nat i) (seq 0 k).

(** The two expressions add up the same [n] dice, or take the highest of the same [n] dice, or the lowest *)
Definition same_dice (fs vs : list Z) (n : nat) (e1 e2 : expr) : Prop :=
  sum_of fs vs n e1 /\ sum_of fs vs n e2 \/ exists mx, best_of mx fs vs n e1 /\ best_of mx fs vs n e2.
