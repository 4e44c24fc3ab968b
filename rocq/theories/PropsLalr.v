(** * Property C58: the parser that rply builds *)
From Verif Require Import Py Regex Lexer DiceModel Expr Parser Lalr SpecGrammar LalrProofs.

(** ** C58 Building the parser gives no error and no warning: every token is used, every production can be reached, and
    PRECEDENCE decides every conflict *)
Theorem C58_no_warnings : exists b, build = Some b /\ b_unused b = [] /\ b_unreachable b = [] /\ lt_conflicts (b_table b) = [].
Proof. exact no_warnings. Qed.
Print Assumptions C58_no_warnings.

(** What it accepts, and as what *)
Theorem C58_built_parser : forall b ts e, build = Some b -> (rply_parse b ts = Parsed e <-> derives e ts /\ well_grouped e).
Proof. exact built_parses. Qed.
Print Assumptions C58_built_parser.

(** It is the parser that all other properties speak about *)
Theorem C58_same_parser : forall b ts, build = Some b -> rply_parse b ts = parse_tokens ts.
Proof. exact same_parser. Qed.
Print Assumptions C58_same_parser.

Theorem C58_parse : forall b input, build = Some b -> parse_built b input = parse input.
Proof. exact built_text. Qed.
Print Assumptions C58_parse.

(** No production is empty, as Lalr.v supposes *)
Theorem C58_no_empty_production : forall b p, build = Some b -> In p (b_productions b) -> p_prod p <> [].
Proof. exact no_empty_production. Qed.
Print Assumptions C58_no_empty_production.

Example C58_nonvacuous : exists b, build = Some b /\ length (lt_action (b_table b)) = 36%nat /\
  parse_built b $"VAR x = !(a + 2) * MAX(True, ABS(b)) < 7 - 1" =
    Ok (EAssign $"x" (ENot (ESub (EMul (EParen (EAdd (EVar $"a") (EInt $"2")))
                                       (EBin $"<" (EMinMax $"MAX" (EBool $"True") (EAbs (EVar $"b"))) (EInt $"7"))) (EInt $"1")))) /\
  parse_built b $"1 + )" = Raise ValueError.
Proof. exact built_example. Qed.
