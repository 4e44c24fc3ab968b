(** * Property C67: parts with the same results can be exchanged *)
From Coq Require Import QArith.
From Verif Require Import Py PyFloat Constraint Distribution DiceModel Expr Parser Interp Instances SpecDice SpecProgram SpecInterp SpecAlgebra SpecProb SpecRoll SpecExchange
  Checks ExchangeProofs.
Local Open Scope Z_scope.

(** Two programs that differ only in parts without variables, where each part reports the same probabilities as the one in its place:
    they report the same results with the same probabilities ... *)
Theorem C67_distributions : forall (R : Runtime) p q lines lines' s s' d d', exchanged_program (same_alone R) p q -> good_program p -> program_text lines p -> program_text lines' q ->
  reachable R s -> reachable R s' -> reports R s lines d -> reports R s' lines' d' -> same_shares R d d'.
Proof. exact exchange_distribution. Qed.
Print Assumptions C67_distributions.

(** ... also as floats ... *)
Theorem C67_floats : forall (R : Runtime) d d', obtainable R d -> obtainable R d' -> same_shares R d d' ->
  (forall x, get_dict_form R d = Raise x <-> get_dict_form R d' = Raise x) /\
  forall m m', get_dict_form R d = Ok m -> get_dict_form R d' = Ok m' -> (forall v, In v (map fst m) <-> In v (map fst m')) /\
    forall v f f', In (v, f) m -> In (v, f') m' -> exists x, has_value f x /\ has_value f' x.
Proof. exact shares_dict. Qed.
Print Assumptions C67_floats.

(** ... and the same average ... *)
Theorem C67_average : forall (R : Runtime) d d', obtainable R d -> obtainable R d' -> same_shares R d d' ->
  (forall x, d_average R d = Raise x <-> d_average R d' = Raise x) /\
  forall f f', d_average R d = Ok f -> d_average R d' = Ok f' -> exists x, has_value f x /\ has_value f' x.
Proof. exact shares_average. Qed.
Print Assumptions C67_average.

(** ... they raise the same exceptions ... *)
Theorem C67_errors : forall (R : Runtime) p q lines lines' s s' x, exchanged_program (same_alone R) p q -> good_program p -> sided p -> program_text lines p -> program_text lines' q ->
  reachable R s -> reachable R s' -> (distribution_raises R s lines x <-> distribution_raises R s' lines' x).
Proof. exact exchange_raises. Qed.
Print Assumptions C67_errors.

(** ... and max() and min() return the same for them, although these work with MAX, MIN and variables in their own way. *)
Theorem C67_max_min : forall (R : Runtime) mx p q lines lines' s s', exchanged_program (same_alone R) p q -> good_program p -> sided p -> program_text lines p -> program_text lines' q ->
  reachable R s -> reachable R s' ->
  (forall v, extreme_is R mx s lines v <-> extreme_is R mx s' lines' v) /\ (forall x, extreme_raises R mx s lines x <-> extreme_raises R mx s' lines' x).
Proof. exact exchange_extreme. Qed.
Print Assumptions C67_max_min.

(** Parts that roll() rolls with the same probabilities, in programs for roll() *)
Theorem C67_roll : forall (R : Runtime) p q lines lines' s s', exchanged_program (same_rolls R) p q -> runnable p -> drawable p -> program_text lines p -> program_text lines' q ->
  (forall x, can_raise R s lines x <-> can_raise R s' lines' x) /\
  (forall v, can_roll R s lines v <-> can_roll R s' lines' v) /\
  (forall v w, roll_weight R s lines v * roll_weight R s' lines' w = roll_weight R s' lines' v * roll_weight R s lines w) /\
  ((forall x, ~ can_raise R s lines x) -> forall v, roll_weight R s lines v * roll_total R s' lines' = roll_weight R s' lines' v * roll_total R s lines).
Proof. exact exchange_roll. Qed.
Print Assumptions C67_roll.

(** d2 and a die with the faces 1, 1, 2, 2: the squares of a variable made of them *)
Example C67_nonvacuous : let lines := [$"VAR a = d2 + 1"; $"a * a"] in let lines' := [$"VAR a = d[1*2,2*2] + 1"; $"a * a"] in
  exists p q d d', program_text lines p /\ program_text lines' q /\ exchanged_program (same_alone rt_fwd) p q /\ exchanged_program (same_rolls rt_fwd) p q /\ p <> q /\
  good_program p /\ sided p /\ runnable p /\ drawable p /\
  reports rt_fwd (empty_state rt_fwd) lines d /\ get_result_map rt_fwd d = [(4, 1); (9, 1)] /\
  reports rt_fwd (empty_state rt_fwd) lines' d' /\ get_result_map rt_fwd d' = [(4, 4); (9, 4)].
Proof.
  intros lines lines'. assert (T : program_text lines ltac:(let p := eval vm_compute in (program_of lines) in match p with Some ?p => exact p end))
    by (apply program_of_text; vm_compute; reflexivity).
  assert (T' : program_text lines' ltac:(let p := eval vm_compute in (program_of lines') in match p with Some ?p => exact p end))
    by (apply program_of_text; vm_compute; reflexivity).
  destruct (shown_reports rt_fwd (empty_state rt_fwd) lines [(4, 1); (9, 1)] ltac:(vm_compute; reflexivity)) as [d [H1 H2]].
  destruct (shown_reports rt_fwd (empty_state rt_fwd) lines' [(4, 4); (9, 4)] ltac:(vm_compute; reflexivity)) as [d' [H3 H4]].
  destruct (shown_reports rt_fwd (empty_state rt_fwd) [$"d2"] [(1, 1); (2, 1)] ltac:(vm_compute; reflexivity)) as [e [H5 H6]].
  destruct (shown_reports rt_fwd (empty_state rt_fwd) [$"d[1*2,2*2]"] [(1, 2); (2, 2)] ltac:(vm_compute; reflexivity)) as [e' [H7 H8]].
  match type of T with program_text _ ?p => match type of T' with program_text _ ?q => exists p, q end end.
  exists d, d'. split; [exact T|]. split; [exact T'|].
  assert (G := checked_good _ _ T ltac:(vm_compute; reflexivity)).
  match type of T with program_text _ [(?n, EAdd ?a ?b); ?l] => match type of T' with program_text _ [(_, EAdd ?a' _); _] =>
    assert (X : forall same : expr -> expr -> Prop, same a a' -> exchanged_program same [(n, EAdd a b); l] [(n, EAdd a' b); l]);
    [|assert (P : parse $"d2" = Ok a) by (vm_compute; reflexivity); assert (P' : parse $"d[1*2,2*2]" = Ok a') by (vm_compute; reflexivity);
      assert (D : drawable [(None, a)]) by (apply drawableb_iff; vm_compute; reflexivity); assert (D' : drawable [(None, a')]) by (apply drawableb_iff; vm_compute; reflexivity)]
  end end.
  { intros same H. constructor; [split; [reflexivity|]; cbn [snd]; apply ex_add; [now apply ex_part | apply ex_same]|]. constructor; [split; [reflexivity | apply ex_same] | constructor]. }
  assert (T1 : program_text [$"d2"] [(None, _)]) by (constructor; [exact P | constructor]). assert (T2 : program_text [$"d[1*2,2*2]"] [(None, _)]) by (constructor; [exact P' | constructor]).
  assert (G1 := checked_good _ _ T1 ltac:(vm_compute; reflexivity)). assert (G2 := checked_good _ _ T2 ltac:(vm_compute; reflexivity)).
  split; [apply X|split; [apply X|]].
  - split; [exact (proj1 (proj2 (proj2 G1) None _ (or_introl eq_refl)))|]. split; [exact (proj1 (proj2 (proj2 G2) None _ (or_introl eq_refl)))|]. split; [reflexivity|]. split; [reflexivity|].
    split; [now apply ProgramProofs.rollable_sided, RollFacts.drawable_rollable|]. split; [now apply ProgramProofs.rollable_sided, RollFacts.drawable_rollable|].
    exists $"d2", $"d[1*2,2*2]", (empty_state rt_fwd), (empty_state rt_fwd), e, e'. split; [exact P|]. split; [exact P'|]. split; [apply af_now|]. split; [apply af_now|].
    split; [exact H5|]. split; [exact H7|]. unfold same_shares, total_ways, listed, reported. rewrite H6, H8. split; [split; intros C; discriminate C|].
    intros v. split; [cbn; tauto|]. cbn [dget]. destruct (1 =? v), (2 =? v); reflexivity.
  - split; [exact Logic.I|]. split; [exact Logic.I|]. split; [reflexivity|]. split; [reflexivity|]. split; [exact D|]. split; [exact D'|].
    exists $"d2", $"d[1*2,2*2]", (empty_state rt_fwd), (empty_state rt_fwd). split; [exact P|]. split; [exact P'|].
    split; [apply raises_none; vm_compute; reflexivity|]. split; [apply raises_none; vm_compute; reflexivity|]. intros v.
    destruct (RollProofs.roll_semantics rt_fwd (empty_state rt_fwd) _ _ T1 (RollProofs.good_runnable _ G1) D) as [_ [W1 _]].
    destruct (RollProofs.roll_semantics rt_fwd (empty_state rt_fwd) _ _ T2 (RollProofs.good_runnable _ G2) D') as [_ [W2 _]]. rewrite W1, W2.
    replace (roll_total rt_fwd (empty_state rt_fwd) [$"d2"]) with 2 by (vm_compute; reflexivity).
    replace (roll_total rt_fwd (empty_state rt_fwd) [$"d[1*2,2*2]"]) with 4 by (vm_compute; reflexivity).
    match goal with |- occurrences v ?l * _ = occurrences v ?l' * _ => let a := eval vm_compute in l in let b := eval vm_compute in l' in change l with a; change l' with b end.
    unfold occurrences. cbn [filter]. destruct (1 =? v), (2 =? v); reflexivity.
  - split; [discriminate|]. split; [exact G|]. match type of T with program_text _ ?p => assert (Dp : drawable p) by (apply drawableb_iff; vm_compute; reflexivity) end.
    split; [apply ProgramProofs.rollable_sided, RollFacts.drawable_rollable; exact Dp|]. split; [now apply RollProofs.good_runnable|]. split; [exact Dp|].
    split; [exact H1|]. split; [exact H2|]. split; [exact H3 | exact H4].
Qed.
