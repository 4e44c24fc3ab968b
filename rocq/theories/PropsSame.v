(** * Properties C65 and C66: the same dice written differently, and symmetric dice *)
From Coq Require Import Permutation.
From Verif Require Import Py Constraint Distribution DiceModel Expr Parser Interp SpecDice SpecProgram SpecRoll SpecInterp SpecCost Instances Checks SpecSame SpecAlgebra SameProofs.

(** ** C65 Different ways to write the same dice agree.

    [same_dice fs vs n e1 e2]: [n] dice of the faces [fs] are added up, or the highest of them is taken, or the lowest, in any
    grouping and by pools or by MAX and MIN *)
Theorem C65_report : forall (R : Runtime) (s1 s2 : state R) t1 t2 e1 e2 n fs vs, reachable R s1 -> reachable R s2 -> parse t1 = Ok e1 -> parse t2 = Ok e2 -> vs <> [] ->
  same_dice fs vs n e1 e2 -> exists d1 d2, reports R s1 [t1] d1 /\ reports R s2 [t2] d2 /\ same_results R d1 d2.
Proof. exact same_dice_reports. Qed.
Print Assumptions C65_report.

Theorem C65_rolls : forall (R : Runtime) (s1 s2 : state R) t1 t2 e1 e2 n fs vs, parse t1 = Ok e1 -> parse t2 = Ok e2 -> vs <> [] ->
  same_dice fs vs n e1 e2 -> drawable [(None, e1)] -> drawable [(None, e2)] -> forall v, roll_weight R s1 [t1] v = roll_weight R s2 [t2] v.
Proof. exact same_dice_rolls. Qed.
Print Assumptions C65_rolls.

Theorem C65_extremes : forall (R : Runtime) (s1 s2 : state R) t1 t2 e1 e2 n fs vs, reachable R s1 -> reachable R s2 -> parse t1 = Ok e1 -> parse t2 = Ok e2 -> vs <> [] ->
  same_dice fs vs n e1 e2 -> forall mx v, extreme_is R mx s1 [t1] v <-> extreme_is R mx s2 [t2] v.
Proof. exact same_dice_extremes. Qed.
Print Assumptions C65_extremes.

Theorem C65_cost : forall (R : Runtime) (s1 s2 : state R) t1 t2 e1 e2 n fs vs sides, parse t1 = Ok e1 -> parse t2 = Ok e2 -> same_dice fs vs n e1 e2 ->
  NoDup sides -> (forall v, In v sides <-> In v vs) ->
  get_estimated_cost R [t1] s1 = (s1, Ok (Z.of_nat n * Z.of_nat (length sides))) /\ get_estimated_cost R [t2] s2 = (s2, Ok (Z.of_nat n * Z.of_nat (length sides))).
Proof. exact same_dice_cost. Qed.
Print Assumptions C65_cost.

(** A sum of three dice, and the highest and the lowest of three *)
Example C65_nonvacuous : exists e1 e2 e3 e4 e5 e6, parse $"3d[2,1]" = Ok e1 /\ parse $"d2 + (2d[1-2])" = Ok e2 /\ parse $"3d2k1" = Ok e3 /\ parse $"MAX(d2, 2d2k1)" = Ok e4 /\
  parse $"3d2d2" = Ok e5 /\ parse $"MIN(MIN(d2, d2), d[2,1])" = Ok e6 /\
  same_dice [1; 2] [1; 2] 3 e1 e2 /\ same_dice [1; 2] [1; 2] 3 e3 e4 /\ same_dice [1; 2] [1; 2] 3 e5 e6 /\
  drawable [(None, e1)] /\ drawable [(None, e2)] /\ drawable [(None, e4)] /\ drawable [(None, e6)].
Proof.
  do 6 eexists. do 6 (split; [vm_compute; reflexivity|]).
  assert (D : such_die [1; 2] [1; 2] [(1, 1); (2, 1)]) by (split; [apply Permutation_refl | intros v; cbn; tauto]).
  assert (D' : such_die [1; 2] [1; 2] [(2, 1); (1, 1)]) by (split; [apply perm_swap | intros v; cbn; tauto]).
  repeat match goal with
  | |- same_dice _ _ _ (EDice _) _ /\ _ => split; [left; split|]
  | |- same_dice _ _ _ (EDropKeep {| dk_form := _; dk_map := _; dk_num := _; dk_k := _; dk_keep := ?mx; dk_simple := _ |}) _ /\ _ => split; [right; exists mx; split|]
  | |- sum_of ?f ?v ?n (EDice ?d) => change n with (Z.to_nat (dice_num d)); apply so_dice; [first [exact D | exact D'] | cbn; lia]
  | |- sum_of _ _ _ (EParen _) => apply so_paren
  | |- sum_of _ _ 3 (EAdd _ _) => apply (so_add _ _ 1 2)
  | |- best_of _ _ _ 1 (EDice _) => apply bo_die; [first [exact D | exact D'] | reflexivity]
  | |- best_of _ _ _ ?n (EDropKeep ?d) => change n with (Z.to_nat (dk_num d)); apply bo_pool; [exact D | cbn; lia | reflexivity | reflexivity]
  | |- best_of true _ _ 3 (EMinMax _ _ _) => apply (bo_pick true _ _ 1 2)
  | |- best_of false _ _ 3 (EMinMax _ _ _) => apply (bo_pick false _ _ 2 1)
  | |- best_of false _ _ 2 (EMinMax _ _ _) => apply (bo_pick false _ _ 1 1)
  | |- drawable _ /\ _ => split
  | |- drawable _ => apply drawableb_iff; vm_compute; reflexivity
  end.
Qed.

(** ** C66 Symmetric dice have symmetric sums, and sums of dice with consecutive faces have a single peak *)
Theorem C66_symmetric : forall (R : Runtime) (s : state R) t e d n fs vs c, reachable R s -> parse t = Ok e -> sum_of fs vs n e -> mirrored c fs vs -> vs <> [] -> reports R s [t] d ->
  forall v, reported R d v = reported R d (Z.of_nat n * c - v) /\ (listed R d v <-> listed R d (Z.of_nat n * c - v)).
Proof. exact sum_mirror. Qed.
Print Assumptions C66_symmetric.

(** Of a pool of symmetric dice, keeping the highest [k] is the mirror of keeping the lowest [k] *)
Theorem C66_pools : forall (R : Runtime) (s s' : state R) t t' dk dk' d d' fs vs c, reachable R s -> reachable R s' -> parse t = Ok (EDropKeep dk) -> parse t' = Ok (EDropKeep dk') ->
  such_die fs vs (dk_map dk) -> such_die fs vs (dk_map dk') -> mirrored c fs vs -> vs <> [] -> dk_keep dk = true -> dk_keep dk' = false ->
  dk_num dk' = dk_num dk -> dk_k dk' = dk_num dk - dk_k dk -> 1 <= dk_k dk <= dk_num dk -> reports R s [t] d -> reports R s' [t'] d' ->
  forall v, reported R d v = reported R d' (dk_k dk * c - v) /\ (listed R d v <-> listed R d' (dk_k dk * c - v)).
Proof. exact pool_mirror. Qed.
Print Assumptions C66_pools.

(** dN, d%, dF and dice with consecutive faces are symmetric *)
Theorem C66_consecutive : forall a k vs, (forall v, In v vs <-> In v (consecutive a k)) -> mirrored (2 * a + Z.of_nat k - 1) (consecutive a k) vs.
Proof. exact consecutive_mirrored. Qed.
Print Assumptions C66_consecutive.

(** The counts do not fall up to the middle (and, by the symmetry, do not rise after it) *)
Theorem C66_peak : forall (R : Runtime) (s : state R) t e d n a k vs, reachable R s -> parse t = Ok e -> sum_of (consecutive a k) vs n e -> vs <> [] -> reports R s [t] d ->
  forall v w, v <= w -> 2 * w <= Z.of_nat n * (2 * a + Z.of_nat k - 1) -> reported R d v <= reported R d w.
Proof. exact sum_unimodal. Qed.
Print Assumptions C66_peak.

Example C66_nonvacuous : (exists e d, parse $"2d3" = Ok e /\ sum_of (consecutive 1 3) (consecutive 1 3) 2 e /\ reports rt_fwd (empty_state rt_fwd) [$"2d3"] d /\
    get_result_map rt_fwd d = [(2, 1); (3, 2); (4, 3); (5, 2); (6, 1)]) /\
  (exists dk dk' d d', parse $"3d2k1" = Ok (EDropKeep dk) /\ parse $"3d2d2" = Ok (EDropKeep dk') /\ such_die (consecutive 1 2) (consecutive 1 2) (dk_map dk) /\
    such_die (consecutive 1 2) (consecutive 1 2) (dk_map dk') /\ dk_keep dk = true /\ dk_keep dk' = false /\ dk_num dk' = dk_num dk /\ dk_k dk' = dk_num dk - dk_k dk /\
    reports rt_fwd (empty_state rt_fwd) [$"3d2k1"] d /\ reports rt_fwd (empty_state rt_fwd) [$"3d2d2"] d' /\
    get_result_map rt_fwd d = [(1, 1); (2, 7)] /\ get_result_map rt_fwd d' = [(1, 7); (2, 1)]).
Proof.
  assert (D : forall n, such_die (consecutive 1 n) (consecutive 1 n) (map (fun i => (1 + Z.of_nat i, 1)) (seq 0 n))).
  { intros n. unfold such_die, consecutive, faces. split; [|intros v; rewrite map_map; tauto].
    generalize (seq 0 n). induction l as [|i l IH]; [constructor|]. cbn. now constructor. }
  split.
  - destruct (shown_reports rt_fwd (empty_state rt_fwd) [$"2d3"] [(2, 1); (3, 2); (4, 3); (5, 2); (6, 1)]) as [d [H1 H2]]; [vm_compute; reflexivity|].
    eexists. exists d. split; [vm_compute; reflexivity|]. split; [|now split].
    match goal with |- sum_of ?f ?v ?n (EDice ?d) => change n with (Z.to_nat (dice_num d)); apply so_dice; [exact (D 3%nat) | cbn; lia] end.
  - destruct (shown_reports rt_fwd (empty_state rt_fwd) [$"3d2k1"] [(1, 1); (2, 7)]) as [d [H1 H2]]; [vm_compute; reflexivity|].
    destruct (shown_reports rt_fwd (empty_state rt_fwd) [$"3d2d2"] [(1, 7); (2, 1)]) as [d' [H1' H2']]; [vm_compute; reflexivity|].
    eexists. eexists. exists d, d'. do 2 (split; [vm_compute; reflexivity|]). do 2 (split; [exact (D 2%nat)|]). repeat split; assumption.
Qed.
