(** * Property C64: states prepared by hand *)
From Verif Require Import Py Constraint Distribution Expr Parser Interp SpecDice SpecProgram SpecInterp SpecCalls SpecAlgebra Instances Checks PreparedProofs.

(** ** C64 What is put into the state by hand is what programs read.

    False of distributions that come from another interpreter: constraints of the same name are taken to be the same. *)
Theorem C64_constant : forall (R : Runtime) (s : state R) n v t, parse t = Ok (EVar n) ->
  (exists s' dict, roll R [t] (set_constant R n v s) = [(1, (s', Ok dict))] /\ stdout_of R (s', Ok dict) = Some v) /\
  (forall mx, extreme_is R mx (set_constant R n v s) [t] v).
Proof. exact constant_read. Qed.
Print Assumptions C64_constant.

(** Distributions of this interpreter, also of earlier times, and new ones, combined in any way *)
Theorem C64_variable_partial : forall (R : Runtime) (s : state R) n d, reachable R s -> own R s d -> ~ In ","%char n ->
  exists s' d', set_var R n d s = (s', Ok tt) /\ reachable R s' /\ variable R s' n = Some d' /\
    get_result_map R d' = get_result_map R d /\ d_count d' = d_count d /\
    (exists inst, tied_to R inst d' /\ ~ mentions R d inst /\ forall m x, variable R s m = Some x -> ~ mentions R x inst) /\
    (forall t, parse t = Ok (EVar n) -> reports R s' [t] d') /\
    (forall t zero, parse t = Ok (EAdd (EVar n) (EInt zero)) -> int_of_text zero = Ok 0 -> exists d0, reports R s' [t] d0 /\ same_results R d0 d).
Proof. exact variable_read. Qed.
Print Assumptions C64_variable_partial.

Theorem C64_others : forall (R : Runtime) (s : state R) n v d m, m <> n ->
  constant R (set_constant R n v s) m = constant R s m /\ variable R (fst (set_var R n d s)) m = variable R s m.
Proof. exact by_hand_others. Qed.
Print Assumptions C64_others.

Theorem C64_kinds : forall (R : Runtime) (s : state R) n v d m,
  variable R (set_constant R n v s) m = variable R s m /\ constant R (fst (set_var R n d s)) m = constant R s m.
Proof. exact by_hand_kinds. Qed.
Print Assumptions C64_kinds.

(** [2 * a], where another interpreter rolled a d2 for [a], stored as [a] of a new state *)
Theorem C64_foreign_refuted : exists d d0, obtainable rt_fwd d /\ get_result_map rt_fwd d = [(2, 1); (4, 1)] /\ parse $"a + 0" = Ok (EAdd (EVar $"a") (EInt $"0")) /\
  reports rt_fwd (fst (set_var rt_fwd $"a" d (empty_state rt_fwd))) [$"a + 0"] d0 /\ get_result_map rt_fwd d0 = [].
Proof. exact foreign_lost. Qed.
Print Assumptions C64_foreign_refuted.

(** Twice a variable, stored as another, is still twice that variable *)
Example C64_nonvacuous : parse $"a" = Ok (EVar $"a") /\ (exists s d d0, reachable rt_fwd s /\ own rt_fwd s d /\
  reports rt_fwd (fst (set_var rt_fwd $"b" d s)) [$"b - a"] d0 /\ get_result_map rt_fwd d0 = [(1, 1); (2, 1)]).
Proof.
  split; [vm_compute; reflexivity|]. apply (kept_then_seen rt_fwd [$"VAR a = d2"] $"b" [$"b - a"]). vm_compute. reflexivity.
Qed.

(** ** C45 Distributions of different interpreters are independent, after any calls, if no name was assigned on both *)
Theorem C45_histories_partial : forall (R : Runtime) cs1 s1 d1 cs2 s2 d2, history R (empty_state R) cs1 s1 -> history R (empty_state R) cs2 s2 ->
  own R s1 d1 -> own R s2 d2 -> (forall n c1 c2, In c1 cs1 -> In c2 cs2 -> assigns (call_lines c1) n -> ~ assigns (call_lines c2) n) ->
  no_shared_variable R d1 d2 /\ forall op d, d_binop R op d1 d2 = Ok d -> combined_independently R op d1 d2 d.
Proof. exact different_histories. Qed.
Print Assumptions C45_histories_partial.

Example C45_histories_nonvacuous : exists s1 d1 s2 d2 d, let c1 := CDistributions [$"VAR a = d2"] in let c2 := CDistributions [$"VAR b = d2"] in
  history rt_fwd (empty_state rt_fwd) [c1] s1 /\ history rt_fwd (empty_state rt_fwd) [c2] s2 /\ own rt_fwd s1 d1 /\ own rt_fwd s2 d2 /\
  (forall n c c', In c [c1] -> In c' [c2] -> assigns (call_lines c) n -> ~ assigns (call_lines c') n) /\
  d_binop rt_fwd VMul d1 d2 = Ok d /\ get_result_map rt_fwd d = [(1, 1); (2, 2); (4, 1)].
Proof.
  destruct (combined_seen rt_fwd VMul (variable rt_fwd (state_after rt_fwd [$"VAR a = d2"] (empty_state rt_fwd)) $"a")
    (variable rt_fwd (state_after rt_fwd [$"VAR b = d2"] (empty_state rt_fwd)) $"b") _ _ _ _ _ ltac:(vm_compute; reflexivity)) as [d1 [d2 [d [H1 [H2 [E [_ [_ [_ [_ M]]]]]]]]]].
  destruct (own_first _ _ _ _ H1) as [A1 O1]. destruct (own_first _ _ _ _ H2) as [A2 O2].
  eexists. exists d1. eexists. exists d2, d. cbn zeta. split; [exact A1|]. split; [exact A2|]. split; [exact O1|]. split; [exact O2|].
  split; [apply assigns_apart; vm_compute; reflexivity|]. split; [exact E|exact M].
Qed.
