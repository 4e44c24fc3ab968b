(** * Property C75: calls of roll() one after the other are independent *)
From Verif Require Import Py PyFloat Constraint Distribution DiceModel Expr Parser Interp Instances SpecDice SpecProgram SpecInterp SpecRoll SpecFrame SpecProb Random SpecRandom SpecNear Checks RollProofs
  SpecRepeat RepeatProofs.
From Coq Require Import QArith Qabs.
Open Scope Z_scope.

(** Whatever was done before, with the same random numbers a self-contained program gives the same, and leaves the same numbers for the
    next call *)
Theorem C75_no_memory : forall (R : Runtime) (G : Generator) lines s1 s2 g, self_contained lines ->
  drawn_result R G s1 lines g = drawn_result R G s2 lines g /\ snd (roll_drawn R G lines s1 g) = snd (roll_drawn R G lines s2 g).
Proof. exact same_anywhere. Qed.
Print Assumptions C75_no_memory.

(** Of all lists of [n] random numbers, the share for which the calls, one after the other, give results in the given sets is the product of
    the shares for each call alone.  (The sets may contain exceptions.) *)
Theorem C75_independent : forall (R : Runtime) s calls n, Forall self_contained (map fst calls) -> (all_dice (map fst calls) <= n)%nat ->
  (share n (fun bits => all_hold (map snd calls) (drawn_results R list_gen s (map fst calls) bits)) ==
   product (map (fun c => share n (fun bits => snd c (drawn_result R list_gen s (fst c) bits))) calls))%Q.
Proof. exact shares_multiply. Qed.
Print Assumptions C75_independent.

(** So it differs from the product of the probabilities that are reported for the results by at most 7 / 2^53 for each side of each die *)
Theorem C75_reported : forall (R : Runtime) s (calls : list (list text * (dist R * Z))) n, Forall (fun c => well_reported R (fst c) (fst (snd c))) calls ->
  (all_dice (map fst calls) <= n)%nat ->
  (Qabs (share n (fun bits => all_hold (map (fun c => is_value (snd (snd c))) calls) (drawn_results R list_gen s (map fst calls) bits)) -
     product (map (fun c => probability R (fst (snd c)) (snd (snd c))) calls)) <= inject_Z (7 * sides_thrown (flat_map dice_thrown (map fst calls))) / inject_Z (2 ^ 53))%Q.
Proof. exact calls_reported. Qed.
Print Assumptions C75_reported.

(** With the ideal weights the weights multiply *)
Theorem C75_weights : forall (R : Runtime) s0 s (calls : list (list text * Z)), Forall (fun c => exists p, program_text (fst c) p /\ runnable p /\ drawable p) calls ->
  weight_of (weighted_rolls R s (map fst calls)) (map snd calls) = fold_right Z.mul 1 (map (fun c => roll_weight R s0 (fst c) (snd c)) calls).
Proof. exact weights_multiply. Qed.
Print Assumptions C75_weights.

Example C75_nonvacuous : let l1 := [$"VAR a = d2"; $"1 // (a - 1)"] in let l2 := [$"2d[1*2,3]"] in
  Forall self_contained [l1; l2; l1] /\ all_dice [l1; l2; l1] = 4%nat /\
  map (drawn_results rt_fwd list_gen (empty_state rt_fwd) [l1; l2; l1]) [[0; 2 ^ 53 - 1; 0; 2 ^ 53 - 1]; [2 ^ 52; 0; 0; 0]] =
    [[Raise ZeroDivisionError; Ok (Some 4); Ok (Some 1)]; [Ok (Some 1); Ok (Some 2); Raise ZeroDivisionError]] /\
  weight_of (weighted_rolls rt_fwd (empty_state rt_fwd) [l1; l2; l1]) [1; 2; 1] = 4 /\ roll_weight rt_fwd (empty_state rt_fwd) l2 2 = 4.
Proof.
  intros l1 l2. unfold l1, l2. clear l1 l2.
  assert (S1 : self_contained [$"VAR a = d2"; $"1 // (a - 1)"]).
  { assert (T : exists p, program_text [$"VAR a = d2"; $"1 // (a - 1)"] p /\ checked p = true) by (eexists; split; [apply program_of_text; vm_compute; reflexivity|vm_compute; reflexivity]).
    destruct T as [p [T C]]. exists p. split; [exact T|]. apply good_runnable. exact (checked_good _ p T C). }
  assert (S2 : self_contained [$"2d[1*2,3]"]).
  { assert (T : exists p, program_text [$"2d[1*2,3]"] p /\ checked p = true) by (eexists; split; [apply program_of_text; vm_compute; reflexivity|vm_compute; reflexivity]).
    destruct T as [p [T C]]. exists p. split; [exact T|]. apply good_runnable. exact (checked_good _ p T C). }
  split; [repeat constructor; assumption|]. repeat split; vm_compute; reflexivity.
Qed.

Example C75_nonvacuous_reported : let lines := [$"VAR a = d[1*2,2]"; $"a + 1"] in
  exists d, well_reported rt_fwd lines d /\ get_result_map rt_fwd d = [(2, 2); (3, 1)] /\ all_dice [lines; lines] = 2%nat /\
    sides_thrown (flat_map dice_thrown [lines; lines]) = 4.
Proof.
  intros lines. destruct (example_rolled rt_fwd (empty_state rt_fwd) lines _ _
    ltac:(vm_compute; reflexivity) ltac:(vm_compute; reflexivity) ltac:(vm_compute; reflexivity) ltac:(vm_compute; reflexivity)) as [d [H1 [H2 [H3 [H4 H5]]]]].
  exists d. split.
  - exists (empty_state rt_fwd). eexists. split; [apply af_now|]. split; [exact H1|]. split; [exact H2|]. split; [exact H3|].
    split; [apply logical_program, program_logicalb_iff; vm_compute; reflexivity|]. split; [|exact H4]. split; [left; vm_compute; discriminate|exact Logic.I].
  - split; [rewrite H5; reflexivity|]. split; vm_compute; reflexivity.
Qed.

(** A program that reads what an earlier call has left is not independent of that call *)
Example C75_leftover : map (drawn_results rt_fwd list_gen (empty_state rt_fwd) [[$"VAR a = d2"]; [$"a"]]) [[0]; [2 ^ 52]] =
  [[Ok (Some 1); Ok (Some 1)]; [Ok (Some 2); Ok (Some 2)]].
Proof. vm_compute. reflexivity. Qed.
