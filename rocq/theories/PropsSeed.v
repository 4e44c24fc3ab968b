(** * Property C59: results do not depend on the hash seed *)
From Verif Require Import Py PyFloat Constraint Distribution DiceModel Expr Parser Interp Random Show SpecCalls SpecRandom SpecSeed SeedProofs.

(** ** C59 In every session, everything that is returned is the same, whatever the string hashes and the order in which
    sets are iterated *)
Theorem C59_same_results : forall R1 R2 (G : Generator) acts (g : gen G),
  session R1 G acts (start R1 G g) = session R2 G acts (start R2 G g).
Proof. exact same_session. Qed.
Print Assumptions C59_same_results.

(** It does not hold for str() of a distribution *)
Theorem C59_str_refuted : exists R1 R2 G acts x g, printed R1 G acts x (start R1 G g) <> printed R2 G acts x (start R2 G g).
Proof. exact printed_differs. Qed.
Print Assumptions C59_str_refuted.

Example C59_nonvacuous : forall R,
  match session R list_gen example_session (start R list_gen []) with
  | [SeenConstants r1; SeenConstants r2; SeenRolls l3; SeenConstants r4; SeenDistributions (Ok l5); SeenDistribution (Ok v6); SeenDistribution r7;
     SeenCost r8; SeenConstants r9] =>
      r1 = Ok [($"a", 1); ($"stdout", 2)] /\ r2 = r1 /\
      l3 = [(1, ([($"x", 1); ($"stdout", 1)], Ok LiveConstants)); (1, ([($"x", 2); ($"stdout", 4)], Ok LiveConstants))] /\
      r4 = Ok [($"x", 2); ($"stdout", -5)] /\
      map (fun nv => (fst nv, v_result_map (snd nv))) l5 = [($"a", [(1, 1); (2, 1)]); ($"stdout", [(0, 2)])] /\
      v_result_map v6 = [(1, 2)] /\ r7 = Raise ZeroDivisionError /\ r8 = Ok 2 /\ r9 = Raise KeyError
  | _ => False
  end.
Proof. exact example_seen. Qed.
