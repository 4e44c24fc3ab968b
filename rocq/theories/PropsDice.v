(** * Properties C01 - C04, C25, C26: dice and dice notation *)
From Coq Require Import Permutation.
From Verif Require Import Py PyFacts Constraint Distribution DiceModel Expr Instances SpecDice SpecNotation SpecOps DiceFacts NotationFacts DiceProofs.

(** Reading a result in the examples *)
Definition counts (R : Runtime) (e : expr) : list (Z * Z) :=
  match dist_of R e (empty_state R) with (_, Ok d) => get_result_map R d | _ => [] end.

(** ** C01 NdS counts are the number of ways to roll *)
Theorem C01_dice_counts : forall (R : Runtime) s d, natural_counts (dice_map d) -> 1 <= dice_num d ->
  let n := Z.to_nat (dice_num d) in
  exists dd, dist_of R (EDice d) s = (s, Ok dd) /\
    (forall v, reported R dd v = ways total n (faces (dice_map d)) v) /\
    (forall v, listed R dd v <-> exists t, In t (tuples n (map fst (dice_map d))) /\ total t = v).
Proof. exact dice_counts. Qed.
Print Assumptions C01_dice_counts.

(** The same from the text of the expression *)
Theorem C01_dice_text_counts : forall (R : Runtime) s ct n sides fs,
  count_notation ct n -> 1 <= n -> die_notation sides fs ->
  exists d dd, mk_dice (ct ++ $"d" ++ sides) = Ok d /\ dist_of R (EDice d) s = (s, Ok dd) /\
    forall v, reported R dd v = ways total (Z.to_nat n) fs v.
Proof. exact dice_text_counts. Qed.
Print Assumptions C01_dice_text_counts.

(** Zero dice are counted as one (roll, max and min give 0): the condition n >= 1 is needed. *)
Theorem C01_zero_dice_count_as_one : forall (R : Runtime) s d, natural_counts (dice_map d) -> dice_num d = 0 ->
  exists dd, dist_of R (EDice d) s = (s, Ok dd) /\ forall v, reported R dd v = ways total 1 (faces (dice_map d)) v.
Proof. exact zero_dice_counts. Qed.
Print Assumptions C01_zero_dice_count_as_one.

Example C01_nonvacuous :
  (exists d, mk_dice $"2d[1*2,3]" = Ok d /\ natural_counts (dice_map d) /\ 1 <= dice_num d /\
     counts rt_fwd (EDice d) = [(2, 4); (4, 4); (6, 1)] /\ ways total 2 (faces (dice_map d)) 4 = 4) /\
  count_notation $"2" 2 /\ die_notation $"4" [1; 2; 3; 4].
Proof.
  split; [|split].
  - eexists. split; [vm_compute; reflexivity|]. split; [|vm_compute; intuition discriminate].
    intros v c [H|[H|[]]]; inversion H; lia.
  - right. split; [split; [discriminate | reflexivity] | reflexivity].
  - apply (die_numbered $"4"). split; [discriminate | reflexivity].
Qed.

(** ** C02 Keep-highest counts are exact *)
Theorem C02_keep_counts : forall (R : Runtime) s form dk, mk_dropkeep form = Ok dk -> dk_keep dk = true -> 0 < dk_k dk < dk_num dk ->
  let n := Z.to_nat (dk_num dk) in let k := Z.to_nat (dk_k dk) in
  exists dd, dist_of R (EDropKeep dk) s = (s, Ok dd) /\
    (forall v, reported R dd v = ways (keep_highest k) n (faces (dk_map dk)) v) /\
    (forall v, listed R dd v <-> exists t, In t (tuples n (map fst (dk_map dk))) /\ keep_highest k t = v).
Proof. exact keep_counts. Qed.
Print Assumptions C02_keep_counts.

Theorem C02_keep_text_counts : forall (R : Runtime) s ct n sides fs kt,
  count_notation ct n -> die_notation sides fs -> is_digits kt -> 0 < decimal kt < n ->
  exists dk dd, mk_dropkeep (ct ++ $"d" ++ sides ++ $"k" ++ kt) = Ok dk /\ dist_of R (EDropKeep dk) s = (s, Ok dd) /\
    forall v, reported R dd v = ways (keep_highest (Z.to_nat (decimal kt))) (Z.to_nat n) fs v.
Proof. exact keep_text_counts. Qed.
Print Assumptions C02_keep_text_counts.

Example C02_nonvacuous :
  (exists dk, mk_dropkeep $"3d[-1,2]k2" = Ok dk /\ dk_keep dk = true /\ 0 < dk_k dk < dk_num dk /\
     counts rt_fwd (EDropKeep dk) = [(-2, 1); (1, 3); (4, 4)] /\
     map (ways (keep_highest 2) 3 [-1; 2]) [-2; 1; 4] = [1; 3; 4]) /\
  is_digits $"2" /\ 0 < decimal $"2" < 3.
Proof.
  split; [|vm_compute; intuition discriminate].
  eexists. split; [vm_compute; reflexivity | vm_compute; intuition discriminate].
Qed.

(** ** C03 Drop-highest counts are exact *)
Theorem C03_drop_counts : forall (R : Runtime) s form dk, mk_dropkeep form = Ok dk -> dk_keep dk = false -> 0 < dk_k dk < dk_num dk ->
  let n := Z.to_nat (dk_num dk) in let k := Z.to_nat (dk_k dk) in
  exists dd, dist_of R (EDropKeep dk) s = (s, Ok dd) /\
    (forall v, reported R dd v = ways (drop_highest k) n (faces (dk_map dk)) v) /\
    (forall v, listed R dd v <-> exists t, In t (tuples n (map fst (dk_map dk))) /\ drop_highest k t = v).
Proof. exact drop_counts. Qed.
Print Assumptions C03_drop_counts.

Theorem C03_drop_text_counts : forall (R : Runtime) s ct n sides fs kt,
  count_notation ct n -> die_notation sides fs -> is_digits kt -> 0 < decimal kt < n ->
  exists dk dd, mk_dropkeep (ct ++ $"d" ++ sides ++ $"d" ++ kt) = Ok dk /\ dist_of R (EDropKeep dk) s = (s, Ok dd) /\
    forall v, reported R dd v = ways (drop_highest (Z.to_nat (decimal kt))) (Z.to_nat n) fs v.
Proof. exact drop_text_counts. Qed.
Print Assumptions C03_drop_text_counts.

Example C03_nonvacuous :
  exists dk, mk_dropkeep $"3d[-1,2]d2" = Ok dk /\ dk_keep dk = false /\ 0 < dk_k dk < dk_num dk /\
     counts rt_fwd (EDropKeep dk) = [(-1, 7); (2, 1)] /\ map (ways (drop_highest 2) 3 [-1; 2]) [-1; 2] = [7; 1].
Proof. eexists. split; [vm_compute; reflexivity | vm_compute; intuition discriminate]. Qed.

(** ** C04 Keep/drop boundary rules of the README *)
Theorem C04_all_dice_kept : forall (R : Runtime) form dk, mk_dropkeep form = Ok dk ->
  (dk_keep dk = true /\ dk_num dk <= dk_k dk) \/ (dk_keep dk = false /\ dk_k dk = 0 /\ 0 < dk_num dk) ->
  exists d, dice_map d = dk_map dk /\ dice_num d = dk_num dk /\ same_operations R (EDropKeep dk) (EDice d).
Proof. exact dropkeep_plain. Qed.
Print Assumptions C04_all_dice_kept.

Theorem C04_no_dice_kept_partial : forall (R : Runtime) form dk, mk_dropkeep form = Ok dk ->
  (dk_keep dk = true /\ dk_k dk = 0 /\ 0 < dk_num dk) \/ (dk_keep dk = false /\ dk_num dk <= dk_k dk) ->
  same_operations R (EDropKeep dk) (EInt $"0").
Proof. exact dropkeep_zero. Qed.
Print Assumptions C04_no_dice_kept_partial.

(** The constant that C04_no_dice_kept_partial refers to always gives its value, in one way *)
Theorem C04_constant : forall (R : Runtime) s t z, int_of_text t = Ok z ->
  exists dd, dist_of R (EInt t) s = (s, Ok dd) /\
    (forall v, reported R dd v = if v =? z then 1 else 0) /\ (forall v, listed R dd v <-> v = z) /\
    roll_of R (EInt t) s = [(1, (s, Ok z))] /\ (forall mx, ext_of R mx (EInt t) s = (s, Ok z)) /\
    cost_of R (EInt t) s = (s, Ok 2).
Proof. exact constant_counts. Qed.
Print Assumptions C04_constant.

(** Missing: keeping zero of zero dice.  That is not the constant 0: its distribution is that of one die. *)
Theorem C04_keep_zero_of_zero_refuted : exists (R : Runtime) form dk, mk_dropkeep form = Ok dk /\
  dk_keep dk = true /\ dk_k dk = 0 /\ ~ same_operations R (EDropKeep dk) (EInt $"0").
Proof.
  exists rt_fwd, $"0d2k0". eexists. split; [vm_compute; reflexivity|]. split; [reflexivity|]. split; [reflexivity|].
  intros [_ [_ [_ H]]]. specialize (H (empty_state rt_fwd)).
  apply (f_equal (fun x => match x with (_, Ok d) => Z.of_nat (length (get_result_map rt_fwd d)) | _ => 0 end)) in H.
  vm_compute in H. discriminate.
Qed.
Print Assumptions C04_keep_zero_of_zero_refuted.

Example C04_nonvacuous :
  (exists dk, mk_dropkeep $"2dFk3" = Ok dk /\ dk_keep dk = true /\ dk_num dk <= dk_k dk) /\
  (exists dk, mk_dropkeep $"2dFd0" = Ok dk /\ dk_keep dk = false /\ dk_k dk = 0 /\ 0 < dk_num dk) /\
  (exists dk, mk_dropkeep $"2dFk0" = Ok dk /\ dk_keep dk = true /\ dk_k dk = 0 /\ 0 < dk_num dk) /\
  (exists dk, mk_dropkeep $"2dFd2" = Ok dk /\ dk_keep dk = false /\ dk_num dk <= dk_k dk).
Proof. repeat split; eexists; (split; [vm_compute; reflexivity | vm_compute; intuition discriminate]). Qed.

(** ** C25 Dice notation means what the README says *)
Theorem C25_notation : forall s fs, die_notation s fs ->
  exists m, get_single_dice_outcome_map s = Ok m /\ NoDup (map fst m) /\ natural_counts m /\ Permutation (faces m) fs.
Proof. exact notation_means. Qed.
Print Assumptions C25_notation.

(** Whatever the text, the multiplicities of a die are natural numbers and each face has one entry. *)
Theorem C25_natural_counts : forall s m, get_single_dice_outcome_map s = Ok m -> natural_counts m /\ NoDup (map fst m).
Proof. exact single_map_natural. Qed.
Print Assumptions C25_natural_counts.

Theorem C25_same_faces_same_die : forall (R : Runtime) st ct n s1 s2 fs1 fs2, count_notation ct n -> 1 <= n ->
  die_notation s1 fs1 -> die_notation s2 fs2 -> Permutation fs1 fs2 ->
  exists d1 d2 dd1 dd2, mk_dice (ct ++ $"d" ++ s1) = Ok d1 /\ mk_dice (ct ++ $"d" ++ s2) = Ok d2 /\
    dist_of R (EDice d1) st = (st, Ok dd1) /\ dist_of R (EDice d2) st = (st, Ok dd2) /\
    forall v, reported R dd1 v = reported R dd2 v.
Proof. exact same_faces_same_die. Qed.
Print Assumptions C25_same_faces_same_die.

(** The README's own example: d[1,1,1,2,2,3,3,4] == d[1-3*2,1,4], and a backwards negative range *)
Definition num (z : Z) : numeral := {| n_minus := z <? 0; n_digits := text_of_Z (Z.abs z) |}.
Definition one (z : Z) : entry := {| e_from := num z; e_to := None; e_copies := None |}.
Definition entries : list entry :=
  [{| e_from := num 1; e_to := Some (num 3); e_copies := Some $"2" |}; one 1; one 4].
Example C25_nonvacuous :
  is_custom $"[1-3*2, 1,4]" entries /\ Permutation (custom_faces entries) [1; 1; 1; 2; 2; 3; 3; 4] /\
  is_custom $"[-2--5]" [{| e_from := num (-2); e_to := Some (num (-5)); e_copies := None |}] /\
  custom_faces [{| e_from := num (-2); e_to := Some (num (-5)); e_copies := None |}] = [-5; -4; -3; -2].
Proof.
  split; [|split; [|split]].
  - split; [discriminate|]. split.
    + intros e [<- |[<- |[<- |[]]]]; repeat split; discriminate.
    + exists $"1-3*2, 1,4". repeat split; try reflexivity; intros H; vm_compute in H; intuition discriminate.
  - rewrite <- (zsort_perm (custom_faces entries)). vm_compute. reflexivity.
  - split; [discriminate|]. split.
    + intros e [<- |[]]; repeat split; discriminate.
    + exists $"-2--5". repeat split; try reflexivity; intros H; vm_compute in H; intuition discriminate.
  - reflexivity.
Qed.

(** ** C26 A trailing comma in a custom die is accepted.  False: reading the die raises ValueError, always. *)
Theorem C26_trailing_comma_refuted : exists s es, is_custom_trailing s es /\ forall m, get_single_dice_outcome_map s <> Ok m.
Proof.
  exists $"[1,2,]", [one 1; one 2]. split.
  - split; [discriminate|]. split.
    + intros e [<- |[<- |[]]]; repeat split; discriminate.
    + exists $"1,2,". repeat split; try reflexivity; intros H; vm_compute in H; intuition discriminate.
  - vm_compute. discriminate.
Qed.
Print Assumptions C26_trailing_comma_refuted.

Theorem C26_trailing_comma_always_raises : forall s es, is_custom_trailing s es ->
  get_single_dice_outcome_map s = Raise ValueError.
Proof. exact trailing_comma_raises. Qed.
Print Assumptions C26_trailing_comma_always_raises.

Example C26_nonvacuous : is_custom_trailing $"[ -3-1 , ]" [{| e_from := num (-3); e_to := Some (num 1); e_copies := None |}].
Proof.
  split; [discriminate|]. split.
  - intros e [<- |[]]; repeat split; discriminate.
  - exists $" -3-1 , ". repeat split; try reflexivity; intros H; vm_compute in H; intuition discriminate.
Qed.
