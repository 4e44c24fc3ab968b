(** * Property C69: expression objects put together by hand *)
From Verif Require Import Py Constraint Distribution DiceModel Expr Lexer Parser Random Instances SpecGrammar SpecBuilt BuiltProofs.

(** str() of an object is a line that the parser accepts; what it makes of it prints the same ... *)
Theorem C69_parses : forall e, built e -> exists e', parse (expr_str e) = Ok e' /\ expr_str e' = expr_str e.
Proof. exact built_parse. Qed.
Print Assumptions C69_parses.

(** ... but means something else: Multiply(Add(1, 2), 3) prints 1 + 2 * 3. *)
Theorem C69_regrouped_refuted : exists e e', built e /\ parse (expr_str e) = Ok e' /\
  forall (R : Runtime) s, roll_of R e s = [(1, (s, Ok 9))] /\ roll_of R e' s = [(1, (s, Ok 7))].
Proof. exact regrouped. Qed.
Print Assumptions C69_regrouped_refuted.

(** Exactly the objects grouped as the README says print a line that is read as the object itself ... *)
Theorem C69_round_trip_partial : forall e, built e -> (parse (expr_str e) = Ok e <-> well_grouped e).
Proof. exact built_round_trip. Qed.
Print Assumptions C69_round_trip_partial.

(** ... and these are exactly the objects that the parser makes of some text. *)
Theorem C69_parsed : forall e, (exists t, parse t = Ok e) <-> built e /\ well_grouped e.
Proof. exact parse_built. Qed.
Print Assumptions C69_parsed.

(** With parentheses around its operands the text is read as the object with the parentheses ... *)
Theorem C69_bracketed : forall e, built e -> parse (expr_str (bracketed e)) = Ok (bracketed e).
Proof. exact bracketed_parses. Qed.
Print Assumptions C69_bracketed.

(** ... which does the same as the object: so all that holds of lines of programs holds of objects made by hand. *)
Theorem C69_parentheses_do_nothing : forall (R : Runtime) e s,
  dist_of R (bracketed e) s = dist_of R e s /\ roll_of R (bracketed e) s = roll_of R e s /\
  (forall G g, drawn_of R G (bracketed e) s g = drawn_of R G e s g) /\ (forall mx, ext_of R mx (bracketed e) s = ext_of R mx e s) /\
  cost_of R (bracketed e) s = cost_of R e s /\ contained_variables (bracketed e) = contained_variables e.
Proof. exact bracketed_same. Qed.
Print Assumptions C69_parentheses_do_nothing.

(** !(VAR x = 2d6k1) - (1 - x), made by hand *)
Example C69_nonvacuous : match mk_dropkeep $"2d6k1" with
  | Ok d => let e := ESub (ENot (EAssign $"x" (EDropKeep d))) (ESub (EInt $"1") (EVar $"x")) in
      built e /\ ~ well_grouped e /\ expr_str e = $"!VAR x = 2d6k1 - 1 - x" /\ expr_str (bracketed e) = $"(!VAR x = 2d6k1) - ((1) - (x))"
  | Raise _ => False end.
Proof.
  destruct (mk_dropkeep $"2d6k1") as [d|] eqn:E; [|vm_compute in E; discriminate E]. cbv zeta.
  split; [|split; [|vm_compute in E; injection E as <-; vm_compute; auto]].
  - cbn [built]. split; [|repeat split; vm_compute; reflexivity]. split; [vm_compute; reflexivity|]. exists $"2d6k1". split; [vm_compute; reflexivity | exact E].
  - intros [[O _] _]. discriminate O.
Qed.
