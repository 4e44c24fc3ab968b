(** * Properties C39 - C43, C49, C50 and C53: the lexer and the parser *)
From Verif Require Import Py Regex Lexer DiceModel Expr Parser SpecNotation SpecGrammar SpecLexer SpecErrors LexProofs MunchProofs SpaceProofs SyntaxProofs ErrorProofs.

(** ** C39 Lexing is total and lossless *)
Theorem C39_lexing_is_total_and_lossless : forall input,
  (exists ts, lex input = LexOk ts /\ spelled input ts) \/ (exists message, lex input = LexValueError message).
Proof. exact lexing_lossless. Qed.
Print Assumptions C39_lexing_is_total_and_lossless.

Example C39_nonvacuous :
  match lex $" VAR x =2d[1, 2-4*2]k1 +-5" with
  | LexOk ts => map tk_text ts = [$"VAR"; $"x"; $"="; $"2d[1, 2-4*2]k1"; $"+"; $"-5"]
  | _ => False end /\
  lex $"1 + $" = LexValueError ($"1 + $" ++ [newline] ++ $"----^").
Proof. split; vm_compute; reflexivity. Qed.

(** Where the tokens of a text are beyond doubt, the lexer finds them *)
Theorem C39_finds_the_tokens : forall s ts, laid_out None s ts -> lex s = LexOk ts.
Proof. exact laid_out_tokens. Qed.
Print Assumptions C39_finds_the_tokens.

Example C39_laid_out : forall tok, tok = (fun n w => {| tk_name := n; tk_text := w |}) ->
  laid_out None $"!d6 <-5" [tok T_NOT $"!"; tok T_DICE $"d6"; tok T_BINARY_OPERATOR $"<"; tok T_CONSTANT_INTEGER $"-5"].
Proof.
  intros tok ->. apply (lo_token None {| tk_name := T_NOT; tk_text := $"!" |}); [reflexivity|exact I|].
  apply (lo_token _ {| tk_name := T_DICE; tk_text := $"d6" |}); [|reflexivity|].
  - exists [], $"6". split; [reflexivity|]. split; [reflexivity|]. apply sides_number. split; [discriminate|reflexivity].
  - apply lo_space; [reflexivity|]. apply (lo_token _ {| tk_name := T_BINARY_OPERATOR; tk_text := $"<" |}); [cbn; tauto|reflexivity|].
    apply (lo_token _ {| tk_name := T_CONSTANT_INTEGER; tk_text := $"-5" |} []); [|reflexivity|apply lo_end].
    exists {| n_minus := true; n_digits := $"5" |}. split; [split; [discriminate|reflexivity]|reflexivity].
Qed.

(** ** C40 Lexer error messages point at the offending character: the text before it was read as tokens, no token begins
    at it, and the message has the arrow under it. *)
Theorem C40_error_points_at_offending_character : forall input message, lex input = LexValueError message ->
  exists u c s ts, input = u ++ c :: s /\ munched None input ts (c :: s) /\ is_space c = false /\
    (forall n w v, c :: s = w ++ v -> ~ token_at n (last_of None u) w v) /\ points_at input (length u) message.
Proof. exact error_place. Qed.
Print Assumptions C40_error_points_at_offending_character.

Example C40_nonvacuous :
  lex ($"1 +" ++ [newline] ++ repeat "7"%char 60 ++ $" $ 2") =
    LexValueError (repeat "7"%char 49 ++ $" $ 2" ++ [newline] ++ repeat "-"%char 50 ++ $"^").
Proof. vm_compute. reflexivity. Qed.

(** ** C49 The lexer takes the longest token at each place *)
Theorem C49_longest_token : forall s ts, lex s = LexOk ts <-> munched None s ts [].
Proof. exact maximal_munch. Qed.
Print Assumptions C49_longest_token.

Example C49_nonvacuous :
  match lex $"d-2d%k12--5<=d6" with
  | LexOk ts => map tk_text ts = [$"d"; $"-2"; $"d%k12"; $"-"; $"-5"; $"<="; $"d6"]
  | _ => False end /\ match lex $"d6_" with LexValueError _ => True | _ => False end.
Proof. split; vm_compute; exact I || reflexivity. Qed.

(** ** C53 White space between tokens does not matter *)
Theorem C53_inserted : forall sp u v ts1 ts2, spelled u ts1 -> blank sp -> lex (u ++ v) = LexOk (ts1 ++ ts2) -> lex (u ++ sp ++ v) = LexOk (ts1 ++ ts2).
Proof. exact insert_spaces. Qed.
Print Assumptions C53_inserted.

Theorem C53_left_out : forall sp u v ts1 ts2, spelled u ts1 -> blank sp -> may_follow (last_of None u) v -> lex (u ++ sp ++ v) = LexOk (ts1 ++ ts2) ->
  lex (u ++ v) = LexOk (ts1 ++ ts2).
Proof. exact remove_spaces. Qed.
Print Assumptions C53_left_out.

Example C53_nonvacuous : exists ts1 ts2, spelled $"d-2d[1, 2]" ts1 /\ lex ($"d-2d[1, 2]" ++ $"-x") = LexOk (ts1 ++ ts2) /\ may_follow (last_of None $"d-2d[1, 2]") $"-x" /\
  length ts1 = 3%nat /\ length ts2 = 2%nat /\
  (** where two tokens may not meet, white space does matter *)
  lex $"d 6" <> lex $"d6" /\ lex $"- 5" <> lex $"-5" /\ lex $"2d6 k1" <> lex $"2d6k1" /\ lex $"! =" <> lex $"!=".
Proof.
  exists [{| tk_name := T_NAME; tk_text := $"d" |}; {| tk_name := T_CONSTANT_INTEGER; tk_text := $"-2" |}; {| tk_name := T_DICE; tk_text := $"d[1, 2]" |}],
    [{| tk_name := T_SUBTRACT; tk_text := $"-" |}; {| tk_name := T_NAME; tk_text := $"x" |}].
  split; [|repeat split; vm_compute; try reflexivity; discriminate].
  destruct (C39_lexing_is_total_and_lossless $"d-2d[1, 2]") as [[ts [E H]]|[m E]]; vm_compute in E; [injection E as <-; exact H|discriminate].
Qed.

(** ** C41 Parsing accepts exactly the grammar, and everything else is a ValueError *)
Theorem C41_parser_accepts_exactly_the_grammar : forall ts,
  (forall e, parse_tokens ts = Parsed e -> derives e ts) /\
  ((exists e, parse_tokens ts = Parsed e) <-> exists e, derives e ts) /\
  (forall x, parse_tokens ts = ParseRaise x -> exists t, In t ts /\
     (named T_DICE t /\ mk_dice (tk_text t) = Raise x \/ named T_DROP_KEEP_DICE t /\ mk_dropkeep (tk_text t) = Raise x)).
Proof. exact accepts_grammar. Qed.
Print Assumptions C41_parser_accepts_exactly_the_grammar.

Theorem C41_parse_of_a_text : forall t,
  (forall e, parse t = Ok e -> exists ts, lex t = LexOk ts /\ derives e ts) /\
  ((exists e, parse t = Ok e) <-> exists ts e, lex t = LexOk ts /\ derives e ts) /\
  (forall x, parse t = Raise x -> x = ValueError).
Proof. exact parse_text. Qed.
Print Assumptions C41_parse_of_a_text.

Example C41_nonvacuous :
  parse $"VAR x = !(a + 2) * MAX(True, ABS(b))" =
    Ok (EAssign $"x" (ENot (EMul (EParen (EAdd (EVar $"a") (EInt $"2"))) (EMinMax $"MAX" (EBool $"True") (EAbs (EVar $"b")))))) /\
  parse $"1 + + 2" = Raise ValueError /\ parse $"" = Raise ValueError /\ parse $"d[1,2,]" = Raise ValueError.
Proof. vm_compute. auto. Qed.

(** ** C42 Precedence and associativity *)
Theorem C42_precedence_and_associativity : forall ts,
  (forall e, parse_tokens ts = Parsed e -> well_grouped e) /\
  (forall e e', derives e ts -> well_grouped e -> derives e' ts -> well_grouped e' -> e = e') /\
  (forall e, derives e ts -> well_grouped e -> parse_tokens ts = Parsed e).
Proof. exact grouping. Qed.
Print Assumptions C42_precedence_and_associativity.

Example C42_nonvacuous :
  parse $"a - b - c * d == e" = Ok (ESub (ESub (EVar $"a") (EVar $"b")) (EMul (EVar $"c") (EBin $"==" (EVar $"d") (EVar $"e")))) /\
  well_grouped (ESub (ESub (EVar $"a") (EVar $"b")) (EMul (EVar $"c") (EBin $"==" (EVar $"d") (EVar $"e")))) /\
  ~ well_grouped (ESub (EVar $"a") (ESub (EVar $"b") (EVar $"c"))) /\
  parse $"a * !b + c" = Ok (EMul (EVar $"a") (ENot (EAdd (EVar $"b") (EVar $"c")))).
Proof.
  split; [vm_compute; reflexivity|]. split; [cbn; unfold left_operand, right_operand; cbn; repeat split; lia|]. split; [|vm_compute; reflexivity].
  cbn. unfold right_operand. cbn. intros [_ [H _]]. lia.
Qed.

(** ** C43 Printing and parsing round-trip: also token by token *)
Theorem C43_round_trip : forall t e, parse t = Ok e -> parse (expr_str e) = Ok e.
Proof. exact round_trip. Qed.
Print Assumptions C43_round_trip.

Theorem C43_same_tokens : forall t ts e, lex t = LexOk ts -> parse t = Ok e -> lex (expr_str e) = LexOk ts.
Proof. exact printing_tokens. Qed.
Print Assumptions C43_same_tokens.

Example C43_nonvacuous :
  match parse $"VAR x=!(a+ -02)*MAX(True,2d[1, 2*3]k1>=b)" with
  | Ok e => expr_str e = $"VAR x = !(a + -02) * MAX(True, 2d[1, 2*3]k1 >= b)" /\ parse (expr_str e) = Ok e
  | Raise _ => False end.
Proof. vm_compute. split; reflexivity. Qed.

(** ** C50 A syntax error names the first token that cannot stand where it stands *)
Theorem C50_error_names_the_first_unexpected_token : forall input m, parse_error input = Some m -> parse input = Raise ValueError /\
  exists us rest, lex input = LexOk (us ++ rest) /\ begins us /\
    match rest with
    | [] => reports_end m
    | t :: _ => ~ begins (us ++ [t]) /\ exists a v, input = a ++ tk_text t ++ v /\ munched None input us (tk_text t ++ v) /\ reports t a m
    end.
Proof. exact error_reported. Qed.
Print Assumptions C50_error_names_the_first_unexpected_token.

Theorem C50_every_unexpected_token_is_reported : forall input us t rest,
  lex input = LexOk (us ++ t :: rest) -> begins us -> ~ begins (us ++ [t]) -> ~ bad_die t ->
  exists a v m, parse_error input = Some m /\ input = a ++ tk_text t ++ v /\ munched None input us (tk_text t ++ v) /\ reports t a m.
Proof. exact error_at. Qed.
Print Assumptions C50_every_unexpected_token_is_reported.

Theorem C50_an_unfinished_program_is_reported : forall input us,
  lex input = LexOk us -> begins us -> (forall e, parse input <> Ok e) -> exists m, parse_error input = Some m /\ reports_end m.
Proof. exact error_at_end. Qed.
Print Assumptions C50_an_unfinished_program_is_reported.

Example C50_nonvacuous :
  parse_error ($"1 +" ++ [newline] ++ $" (d6 * )") =
    Some $"Ran into a CLOSE_PARENTHESIS ()) where it wasn't expected, at position SourcePosition(idx=11, lineno=2, colno=8)." /\
  parse_error $"MAX(1," = Some $"Ran into a $end ($end) where it wasn't expected, at position None." /\
  parse_error $"1 + 2" = None /\ parse_error $"1 2" <> None /\
  lex $"1 2" = LexOk ([{| tk_name := T_CONSTANT_INTEGER; tk_text := $"1" |}] ++ [{| tk_name := T_CONSTANT_INTEGER; tk_text := $"2" |}]) /\
  begins [{| tk_name := T_CONSTANT_INTEGER; tk_text := $"1" |}].
Proof.
  split; [vm_compute; reflexivity|]. split; [vm_compute; reflexivity|]. split; [vm_compute; reflexivity|]. split; [vm_compute; discriminate|].
  split; [vm_compute; reflexivity|]. exists $"1", [], (EInt $"1"). split; vm_compute; reflexivity.
Qed.
