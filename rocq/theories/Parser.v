(** * Parser: model of python_dice_parser.py, python_dice_syntax_objects.py:60-98 and the production
    functions of expression/*.py, with rply's LR parser.

    rply builds the LALR automaton of the 15 productions.  Its LR(0) states are written here by name:
    what has just been shifted, instead of rply's numbering.  The conflicts are resolved in [after_action]
    from the PRECEDENCE table by rply's rule. *)
From Verif Require Import Py Regex Lexer DiceModel Expr.

(** The five infix operator tokens *)
Inductive infix := IAdd | ISub | IMul | IDiv | IBin.

Definition infix_of (t : tokname) : option infix :=
  match t with
  | T_ADD => Some IAdd | T_SUBTRACT => Some ISub | T_MULTIPLY => Some IMul
  | T_INTEGER_DIVISION => Some IDiv | T_BINARY_OPERATOR => Some IBin
  | _ => None
  end.
Definition infix_tok (i : infix) : tokname :=
  match i with
  | IAdd => T_ADD | ISub => T_SUBTRACT | IMul => T_MULTIPLY | IDiv => T_INTEGER_DIVISION | IBin => T_BINARY_OPERATOR
  end.

(** What precedes an expression that is about to be parsed: the LR(0) states that have an item with the
    dot before [expression] in their kernel. *)
Inductive ctx :=
| KStart                    (* S' : . expression *)
| KParen                    (* expression : ( . expression ) *)
| KNot                      (* expression : NOT . expression *)
| KInfix (i : infix)        (* expression : expression op . expression *)
| KMinMax1                  (* expression : MINMAX ( . expression , expression ) *)
| KMinMax2                  (* expression : MINMAX ( expression , . expression ) *)
| KAbs                      (* expression : ABS ( . expression ) *)
| KAssign.                  (* expression : VAR NAME ASSIGNMENT . expression *)

(** The LR(0) states *)
Inductive lrstate :=
| SCtx (k : ctx)            (* an expression must start here *)
| SAfter (k : ctx)          (* the state reached from [SCtx k] with an expression *)
| SLeaf (t : tokname)       (* DROP_KEEP_DICE, DICE, CONSTANT_INTEGER, CONSTANT_BINARY or NAME shifted *)
| SMinMax                   (* MINMAX shifted *)
| SAbs                      (* ABS shifted *)
| SVar                      (* VAR shifted *)
| SVarName                  (* VAR NAME shifted *)
| SClose (k : ctx).         (* the closing parenthesis of a KParen, KMinMax2 or KAbs context shifted *)

(** python_dice_syntax_objects.py:78-98: PRECEDENCE, level (position in the list, from 1) and associativity.
    rply gives tokens that are not listed ("right", 0). *)
Inductive assoc := Left | Right | NonAssoc.
Definition precedence (t : tokname) : assoc * nat :=
  match t with
  | T_VAR => (NonAssoc, 1%nat)
  | T_ASSIGNMENT => (Left, 2%nat)
  | T_OPEN_PARENTHESIS => (Left, 3%nat)
  | T_NOT => (Left, 4%nat)
  | T_ADD | T_SUBTRACT => (Left, 5%nat)
  | T_INTEGER_DIVISION | T_MULTIPLY => (Left, 6%nat)
  | T_BINARY_OPERATOR => (Left, 7%nat)
  | _ => (Right, 0%nat)
  end.

Inductive action := AShift (s : lrstate) | AReduce | AAccept | AError.

(** rply's resolution of a conflict between reducing a production whose last terminal is [rt] and shifting
    [t]: shift when the token's level is higher, or equal and right associative; error when equal and
    nonassoc; otherwise reduce. *)
Definition resolve (rt t : tokname) (shift_to : lrstate) : action :=
  let '(rassoc, rlevel) := precedence rt in
  let slevel := snd (precedence t) in
  if (rlevel <? slevel)%nat then AShift shift_to
  else if (rlevel =? slevel)%nat then
    match rassoc with Right => AShift shift_to | Left => AReduce | NonAssoc => AError end
  else AReduce.

(** The last terminal of the production that is complete in state [SAfter k], if there is one *)
Definition complete_after (k : ctx) : option tokname :=
  match k with
  | KNot => Some T_NOT
  | KInfix i => Some (infix_tok i)
  | KAssign => Some T_ASSIGNMENT
  | _ => None
  end.

(** Actions in the states [SAfter k]; [None] is the end of the input.  An expression can be followed by
    an infix operator, ")", "," or the end; these are the lookaheads of the complete productions. *)
Definition after_action (k : ctx) (la : option tokname) : action :=
  match la with
  | Some t =>
      match infix_of t with
      | Some i => match complete_after k with
                  | Some rt => resolve rt t (SCtx (KInfix i))
                  | None => AShift (SCtx (KInfix i))
                  end
      | None =>
          match t, k with
          | T_CLOSE_PARENTHESIS, (KParen | KMinMax2 | KAbs) => AShift (SClose k)
          | T_COMMA, KMinMax1 => AShift (SCtx KMinMax2)
          | (T_CLOSE_PARENTHESIS | T_COMMA), (KNot | KInfix _ | KAssign) => AReduce
          | _, _ => AError
          end
      end
  | None => match k with
            | KStart => AAccept
            | KNot | KInfix _ | KAssign => AReduce
            | _ => AError
            end
  end.

(** Actions in the states [SCtx k]: the tokens that can start an expression *)
Definition ctx_action (la : option tokname) : action :=
  match la with
  | Some T_OPEN_PARENTHESIS => AShift (SCtx KParen)
  | Some T_NOT => AShift (SCtx KNot)
  | Some T_MINMAX => AShift SMinMax
  | Some T_ABS => AShift SAbs
  | Some T_VAR => AShift SVar
  | Some ((T_DROP_KEEP_DICE | T_DICE | T_CONSTANT_INTEGER | T_CONSTANT_BINARY | T_NAME) as t) => AShift (SLeaf t)
  | _ => AError
  end.

(** rply's default reductions: a state whose only action is to reduce does so without looking at what follows.
    Of the states [SAfter k] these are the ones in which no lookahead is shifted or accepted. *)
Definition lookaheads : list (option tokname) :=
  [None; Some T_CLOSE_PARENTHESIS; Some T_COMMA; Some T_ADD; Some T_SUBTRACT; Some T_MULTIPLY; Some T_INTEGER_DIVISION;
   Some T_BINARY_OPERATOR].
Definition default_reduction (k : ctx) : bool :=
  forallb (fun la => match after_action k la with AReduce | AError => true | _ => false end) lookaheads.

(** lr_action of all states, with the default reductions; the states [SLeaf] and [SClose] contain only a complete
    production. *)
Definition lr_action (s : lrstate) (la : option tokname) : action :=
  match s with
  | SCtx _ => ctx_action la
  | SAfter k => if default_reduction k then AReduce else after_action k la
  | SLeaf _ | SClose _ => AReduce
  | SMinMax => match la with Some T_OPEN_PARENTHESIS => AShift (SCtx KMinMax1) | _ => AError end
  | SAbs => match la with Some T_OPEN_PARENTHESIS => AShift (SCtx KAbs) | _ => AError end
  | SVar => match la with Some T_NAME => AShift SVarName | _ => AError end
  | SVarName => match la with Some T_ASSIGNMENT => AShift (SCtx KAssign) | _ => AError end
  end.

(** Entries of rply's symbol stack *)
Inductive symbol := STok (t : token) | SExp (e : expr).

(** rply's statestack and symstack together, top first *)
Definition stack : Type := list (lrstate * symbol).

Definition top_state (st : stack) : lrstate := match st with [] => SCtx KStart | (s, _) :: _ => s end.

(** What the parser returns: an expression; the ValueError of error_handler (python_dice_parser.py:49-53)
    at the first of the [unread] tokens (none: at the end); or an exception raised by a production function. *)
Inductive parse_result :=
| Parsed (e : expr)
| ParseError (unread : list token)
| ParseRaise (e : exn).

(** The production functions (add_production_function of the expression classes).  The result is the new
    expression and the stack below the reduced symbols. *)
Definition reduce (st : stack) : option (res expr * stack) :=
  match st with
  (* parentheses_enclosed_expression.py:19-21 *)
  | (SClose KParen, STok _) :: (_, SExp e) :: (_, STok _) :: rest => Some (Ok (EParen e), rest)
  (* not_expression.py:20-22 *)
  | (SAfter KNot, SExp e) :: (_, STok _) :: rest => Some (Ok (ENot e), rest)
  (* drop_keep_expression.py:24-26 *)
  | (SLeaf T_DROP_KEEP_DICE, STok t) :: rest => Some (rmap EDropKeep (mk_dropkeep (tk_text t)), rest)
  (* dice_expression.py:21-23 *)
  | (SLeaf T_DICE, STok t) :: rest => Some (rmap EDice (mk_dice (tk_text t)), rest)
  (* constant_integer_expression.py:19-21 *)
  | (SLeaf T_CONSTANT_INTEGER, STok t) :: rest => Some (Ok (EInt (tk_text t)), rest)
  (* constant_binary_expression.py:19-21 *)
  | (SLeaf T_CONSTANT_BINARY, STok t) :: rest => Some (Ok (EBool (tk_text t)), rest)
  (* add_expression.py:19-21, subtract_expression.py:19-21, multiply_expression.py:19-21,
     integer_division_expression.py:19-21, binary_operator_expression.py:42-44 *)
  | (SAfter (KInfix i), SExp b) :: (_, STok t) :: (_, SExp a) :: rest =>
      Some (Ok (match i with
                | IAdd => EAdd a b | ISub => ESub a b | IMul => EMul a b | IDiv => EDiv a b
                | IBin => EBin (tk_text t) a b
                end), rest)
  (* minmax_expression.py:20-22 *)
  | (SClose KMinMax2, STok _) :: (_, SExp b) :: (_, STok _) :: (_, SExp a) :: (_, STok _) :: (_, STok t) :: rest =>
      Some (Ok (EMinMax (tk_text t) a b), rest)
  (* abs_expression.py:19-21 *)
  | (SClose KAbs, STok _) :: (_, SExp e) :: (_, STok _) :: (_, STok _) :: rest => Some (Ok (EAbs e), rest)
  (* var_assignment_expression.py:20-22 *)
  | (SAfter KAssign, SExp e) :: (_, STok _) :: (_, STok n) :: (_, STok _) :: rest =>
      Some (Ok (EAssign (tk_text n) e), rest)
  (* get_var_expression.py:22-24 *)
  | (SLeaf T_NAME, STok t) :: rest => Some (Ok (EVar (tk_text t)), rest)
  | _ => None
  end.

(** rply's LRParser.parse: the loop.  The two [ParseRaise KeyError] and [OutOfFuel] results do not occur
    (ParserFacts.v). *)
Fixpoint lr_loop (fuel : nat) (st : stack) (input : list token) : parse_result :=
  match fuel with
  | O => ParseRaise OutOfFuel
  | S fuel' =>
      match lr_action (top_state st) (match input with [] => None | t :: _ => Some (tk_name t) end) with
      | AShift s => match input with
                    | t :: input' => lr_loop fuel' ((s, STok t) :: st) input'
                    | [] => ParseRaise KeyError
                    end
      | AReduce =>
          match reduce st with
          | Some (Ok e, st') =>
              match top_state st' with                       (* lr_goto *)
              | SCtx k => lr_loop fuel' ((SAfter k, SExp e) :: st') input
              | _ => ParseRaise KeyError
              end
          | Some (Raise x, _) => ParseRaise x
          | None => ParseRaise KeyError
          end
      | AAccept => match st with (_, SExp e) :: _ => Parsed e | _ => ParseRaise KeyError end
      | AError => ParseError input
      end
  end.

(** Parsing a token sequence *)
Definition parse_tokens (ts : list token) : parse_result := lr_loop (2 * length ts + 2) [] ts.

(** python_dice_parser.py:58-65: parse.  All errors of lexing and of the grammar are ValueErrors. *)
Definition parse (input : text) : res expr :=
  match lex input with
  | LexOk ts => match parse_tokens ts with
                | Parsed e => Ok e
                | ParseError _ => Raise ValueError
                | ParseRaise x => Raise x
                end
  | LexValueError _ => Raise ValueError
  | LexOther x => Raise x
  end.

(** ** python_dice_parser.py:49-53: the message of error_handler *)

(** TOKEN_NAME of the classes in syntax/*.py *)
Definition token_type (n : tokname) : text :=
  match n with
  | T_OPEN_PARENTHESIS => $"OPEN_PARENTHESIS" | T_CLOSE_PARENTHESIS => $"CLOSE_PARENTHESIS" | T_COMMA => $"COMMA"
  | T_NOT => $"NOT" | T_DROP_KEEP_DICE => $"DROP_KEEP_DICE" | T_DICE => $"DICE"
  | T_BINARY_OPERATOR => $"BINARY_OPERATOR" | T_CONSTANT_INTEGER => $"CONSTANT_INTEGER"
  | T_CONSTANT_BINARY => $"CONSTANT_BINARY" | T_ADD => $"ADD" | T_SUBTRACT => $"SUBTRACT" | T_MULTIPLY => $"MULTIPLY"
  | T_INTEGER_DIVISION => $"INTEGER_DIVISION" | T_MINMAX => $"MINMAX" | T_ABS => $"ABS" | T_ASSIGNMENT => $"ASSIGNMENT"
  | T_VAR => $"VAR" | T_NAME => $"NAME"
  end.

(** rply's SourcePosition.__repr__; at the end of the input rply passes Token("$end", "$end"), whose position is None *)
Definition position_repr (p : option source_position) : text :=
  match p with
  | None => $"None"
  | Some p => $"SourcePosition(idx=" ++ text_of_Z (sp_idx p) ++ $", lineno=" ++ text_of_Z (sp_lineno p) ++
              $", colno=" ++ text_of_Z (sp_colno p) ++ $")"
  end.
Definition unexpected (type string : text) (p : option source_position) : text :=
  $"Ran into a " ++ type ++ $" (" ++ string ++ $") where it wasn't expected, at position " ++ position_repr p ++ $".".

(** The message, when error_handler is called *)
Definition parse_error (input : text) : option text :=
  match lex input with
  | LexOk ts =>
      match parse_tokens ts with
      | ParseError [] => Some (unexpected $"$end" $"$end" None)
      | ParseError (t :: unread) =>
          Some (unexpected (token_type (tk_name t)) (tk_text t)
                  (nth_error (lex_positions input) (length ts - length (t :: unread))))
      | _ => None
      end
  | _ => None
  end.
