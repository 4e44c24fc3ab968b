(** * Property C56: the random numbers of roll() *)
From Verif Require Import Py PyFloat Constraint Distribution DiceModel Expr Parser Interp Instances SpecDice SpecProgram SpecInterp Random SpecRandom Checks RollProofs RandomProofs.

(** Each side of a die is drawn with a probability that differs from its share by less than 7 / 2^53 *)
Theorem C56_share_of_draws : forall m v w, natural_counts m -> can_choose m -> NoDup (map fst m) -> In (v, w) m ->
  Z.abs (draws_for m v * zsum (map snd m) - w * 2 ^ 53) < 7 * zsum (map snd m).
Proof. exact RandomFacts.draws_for_near. Qed.
Print Assumptions C56_share_of_draws.

(** A side of multiplicity zero is never drawn *)
Theorem C56_zero_never_drawn : forall m v bits l, natural_counts m -> NoDup (map fst m) -> In (v, 0) m -> (forall r, In r bits -> 0 <= r < 2 ^ 53) ->
  choices_drawn m bits = Ok l -> ~ In v l.
Proof. exact zero_never_chosen. Qed.
Print Assumptions C56_zero_never_drawn.

(** One side is drawn per die *)
Theorem C56_one_each : forall m bits l, choices_drawn m bits = Ok l -> length l = length bits.
Proof. exact chosen_length. Qed.
Print Assumptions C56_one_each.

(** What it raises, and when *)
Theorem C56_exceptions : forall m bits, natural_counts m ->
  (choices_drawn m bits = Raise IndexError <-> m = []) /\
  (choices_drawn m bits = Raise ValueError <-> m <> [] /\ forall v w, In (v, w) m -> w = 0) /\
  (choices_drawn m bits = Raise OverflowError <-> float_limit <= zsum (map snd m)).
Proof. exact choices_drawn_exn. Qed.
Print Assumptions C56_exceptions.

(** Whatever the generator, roll() of a program gives one of the results that the theorems about roll() speak of *)
Theorem C56_roll_is_possible : forall (R : Runtime) (G : Generator) lines s g, exists w, In (w, fst (roll_drawn R G lines s g)) (roll R lines s) /\ w <> 0.
Proof. exact drawn_possible. Qed.
Print Assumptions C56_roll_is_possible.

Theorem C56_roll_can : forall (R : Runtime) (G : Generator) lines s g,
  (forall v, drawn_result R G s lines g = Ok (Some v) -> can_roll R s lines v) /\
  (forall x, drawn_result R G s lines g = Raise x -> can_raise R s lines x).
Proof. intros R G lines s g. split; [exact (drawn_can_roll R G lines s g)|exact (drawn_can_raise R G lines s g)]. Qed.
Print Assumptions C56_roll_can.

(** Every result that has a weight is drawn by some generator: false when a side has a tiny share *)
Theorem C56_never_drawn_refuted : exists lines p d, program_text lines p /\ good_program p /\ drawable p /\ program_logic_agrees no_values p /\
  reports rt_fwd (empty_state rt_fwd) lines d /\ reported rt_fwd d 2 <> 0 /\ can_roll rt_fwd (empty_state rt_fwd) lines 2 /\
  forall (R : Runtime) (G : Generator) s g, drawn_result R G s lines g = Ok (Some 1).
Proof.
  exists [$"d[1*1152921504606846976,2]"]. eexists.
  destruct (shown_reports rt_fwd (empty_state rt_fwd) [$"d[1*1152921504606846976,2]"] _ ltac:(vm_compute; reflexivity)) as [d [H1 H2]].
  assert (T : program_text [$"d[1*1152921504606846976,2]"]
    ltac:(let p := eval vm_compute in (program_of [$"d[1*1152921504606846976,2]"]) in match p with Some ?p => exact p end))
    by (apply program_of_text; vm_compute; reflexivity).
  exists d. split; [exact T|]. split; [apply (checked_good _ _ T); vm_compute; reflexivity|].
  split; [apply light_drawable; [apply positiveb_iff; vm_compute; reflexivity|vm_compute; reflexivity]|].
  split; [apply logical_program, program_logicalb_iff; vm_compute; reflexivity|]. split; [exact H1|].
  split; [unfold reported; rewrite H2; vm_compute; discriminate|]. split; [apply roll_weight_can; vm_compute; discriminate|].
  intros R G s g. eapply heavy_drawn; [vm_compute; reflexivity|reflexivity|reflexivity].
Qed.
Print Assumptions C56_never_drawn_refuted.

(** ... and true when no side has less than 7 / 2^53 of its die *)
Theorem C56_all_drawn_partial : forall (R : Runtime) lines s, light_dice lines ->
  (forall v, can_roll R s lines v -> exists bits, drawn_result R list_gen s lines bits = Ok (Some v)) /\
  (forall x, can_raise R s lines x -> exists bits, drawn_result R list_gen s lines bits = Raise x).
Proof. intros R lines s L. split; [intros v; exact (can_roll_drawn R lines s v L)|intros x; exact (can_raise_drawn R lines s x L)]. Qed.
Print Assumptions C56_all_drawn_partial.

Example C56_nonvacuous : let m := [(1, 2); (3, 0); (4, 1)] in let lines := [$"VAR a = 2d[1*2,3*0,4]"; $"a // (d3 - 2)"] in
  natural_counts m /\ can_choose m /\ NoDup (map fst m) /\ In (3, 0) m /\ light m /\ choices_drawn m [0; 2 ^ 53 - 1; 6004799503160660; 6004799503160661] = Ok [1; 4; 1; 4] /\
  light_dice lines /\ map (drawn_result rt_fwd list_gen (empty_state rt_fwd) lines) [[2 ^ 52; 2 ^ 53 - 1; 0]; [0; 2 ^ 52; 2 ^ 53 - 1]; [0; 0; 2 ^ 52]] =
    [Ok (Some (-5)); Ok (Some 2); Raise ZeroDivisionError] /\
  can_roll rt_fwd (empty_state rt_fwd) lines (-5) /\ (forall l bits, ~ choices_drawn [(1, 0)] bits = Ok l).
Proof.
  intros m lines. assert (N : natural_counts m) by (intros v c [H|[H|[H|[]]]]; injection H as <- <-; lia). split; [exact N|].
  split; [split; [discriminate|vm_compute; reflexivity]|]. split; [repeat constructor; cbn; intuition discriminate|]. split; [right; now left|].
  assert (L : light m) by (intros v w [H|[H|[H|[]]]] P; injection H as <- <-; vm_compute; discriminate). split; [exact L|].
  split; [vm_compute; reflexivity|]. split.
  - intros t e x [<-|[<-|[]]] P; vm_compute in P; injection P as <-; intros [<-|[]]; intros v w I W; repeat (destruct I as [I|I]; [injection I as <- <-; vm_compute; discriminate|]); destruct I.
  - split; [vm_compute; reflexivity|]. split; [apply roll_weight_can; vm_compute; discriminate|]. intros l bits H. vm_compute in H. discriminate.
Qed.
