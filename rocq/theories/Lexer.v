(** * Lexer: model of python_dice/src/syntax/*.py and python_dice_lexer.py, with rply's lexer. *)
From Verif Require Import Py Regex.

(** The token names: TOKEN_NAME of the classes in syntax/*.py *)
Inductive tokname :=
| T_OPEN_PARENTHESIS | T_CLOSE_PARENTHESIS | T_COMMA | T_NOT | T_DROP_KEEP_DICE | T_DICE
| T_BINARY_OPERATOR | T_CONSTANT_INTEGER | T_CONSTANT_BINARY | T_ADD | T_SUBTRACT | T_MULTIPLY
| T_INTEGER_DIVISION | T_MINMAX | T_ABS | T_ASSIGNMENT | T_VAR | T_NAME.

(** rply.Token: name and text.  The source positions are a list of their own, [lex_positions] below: only an
    error message uses them. *)
Record token := { tk_name : tokname; tk_text : text }.

Definition rword (s : text) : regex := rseq [RBound; rlit s; RBound].       (* \bWORD\b *)
Definition rdigits : regex := rplus rdigit.                                 (* \d+ *)

(** syntax/dice_syntax_helper.py:7: (-?\d+--?\d+(\*\d+)?|-?\d+(\*\d+)?) *)
Definition re_multiplier : regex := ropt (RSeq (rch "*") rdigits).
Definition re_entry : regex :=
  RAlt (rseq [ropt (rch "-"); rdigits; rch "-"; ropt (rch "-"); rdigits; re_multiplier])
       (rseq [ropt (rch "-"); rdigits; re_multiplier]).

(** syntax/dice_syntax_helper.py:8: \[(\s*ENTRY\s*,\s* )*\s*ENTRY\s*(,?)\s*\] *)
Definition re_spaces : regex := RStar rspace.
Definition re_custom : regex :=
  rseq [rch "["; RStar (rseq [re_spaces; re_entry; re_spaces; rch ","; re_spaces]);
        re_spaces; re_entry; re_spaces; ropt (rch ","); re_spaces; rch "]"].

(** syntax/dice_syntax_helper.py:10-14 *)
Definition re_dice : regex :=
  rseq [RStar rdigit; rch "d"; ralt [rdigits; rch "%"; rch "F"; re_custom]].
Definition re_drop_keep_dice : regex :=
  RSeq re_dice (RSeq (RChar (fun c => Ascii.eqb c "k" || Ascii.eqb c "d")) rdigits).

(** The TOKEN_REGEX of the classes, in the order of LEXER_SYNTAX (python_dice_syntax_objects.py:39-58) *)
Definition lexer_rules : list (tokname * regex) :=
  [ (T_OPEN_PARENTHESIS, rch "(");                       (* open_parenthesis_syntax.py:6 *)
    (T_CLOSE_PARENTHESIS, rch ")");                      (* close_parenthesis_syntax.py:6 *)
    (T_COMMA, rch ",");                                  (* comma_syntax.py:6 *)
    (T_NOT, RSeq (rch "!") (RNotAhead (rch "=")));       (* not_syntax.py:6 *)
    (T_DROP_KEEP_DICE, re_drop_keep_dice);               (* drop_keep_syntax.py:7 *)
    (T_DICE, re_dice);                                   (* dice_syntax.py:7 *)
    (T_BINARY_OPERATOR,
       ralt [rlit $"=="; rlit $"!="; rlit $"<="; rlit $"<"; rlit $">="; rlit $">";
             rword $"AND"; rword $"OR"]);                (* binary_operator_syntax.py:6 *)
    (T_CONSTANT_INTEGER, RSeq (ropt (rch "-")) rdigits); (* constant_integer_syntax.py:6 *)
    (T_CONSTANT_BINARY, ralt [rword $"True"; rword $"False"]);   (* constant_binary_syntax.py:6 *)
    (T_ADD, rch "+");                                    (* add_syntax.py:6 *)
    (T_SUBTRACT, rch "-");                               (* subtract_syntax.py:6 *)
    (T_MULTIPLY, rch "*");                               (* multiply_syntax.py:6 *)
    (T_INTEGER_DIVISION, rlit $"//");                    (* integer_division_syntax.py:6 *)
    (T_MINMAX, ralt [rword $"MAX"; rword $"MIN"]);       (* min_max_syntax.py:6 *)
    (T_ABS, rword $"ABS");                               (* abs_syntax.py:6 *)
    (T_ASSIGNMENT,
       rseq [rch "="; RNotAhead (rch "="); RNotBehind $"=="]);   (* assignment_syntax.py:6 *)
    (T_VAR, rword $"VAR");                               (* var_syntax.py:6 *)
    (T_NAME, rseq [RBound; rplus (RChar (fun c => is_lower c || Ascii.eqb c "_")); RBound])
                                                         (* name_syntax.py:6 *)
  ].

(** python_dice_lexer.py:15: the ignored text, \s+ *)
Definition ignore_rule : regex := rplus rspace.

(** rply's Lexer.next, its second loop: the first rule that matches at the position, whatever the length *)
Fixpoint first_rule (rules : list (tokname * regex)) (p : pos) : option (tokname * pos) :=
  match rules with
  | [] => None
  | (n, r) :: rules' =>
      match rmatch r p with
      | q :: _ => Some (n, q)
      | [] => first_rule rules' p
      end
  end.

(** The text between two positions of the same subject *)
Definition between (p q : pos) : text := firstn (length (snd p) - length (snd q)) (snd p).

(** The outcome of running rply's lexer to the end: the tokens, or a LexingError at a position.
    [LexStuck] would be a run that does not end. *)
Inductive lex_result :=
| Lexed (ts : list token)
| LexFail (p : pos)
| LexStuck.

Definition lex_cons (t : token) (r : lex_result) : lex_result :=
  match r with Lexed ts => Lexed (t :: ts) | _ => r end.

(** list(rply Lexer.lex(s)): rply's Lexer.next repeated; at each step first the ignore rule (as often as
    it matches), then the end of the input, then the rules in order. *)
Fixpoint rply_lex (fuel : nat) (p : pos) : lex_result :=
  match fuel with
  | O => LexStuck
  | S fuel' =>
      match snd p with
      | [] => Lexed []
      | _ =>
          match rmatch ignore_rule p with
          | q :: _ => rply_lex fuel' q
          | [] =>
              match first_rule lexer_rules p with
              | None => LexFail p
              | Some (n, q) => lex_cons {| tk_name := n; tk_text := between p q |} (rply_lex fuel' q)
              end
          end
      end
  end.

Definition run_lexer (s : text) : lex_result := rply_lex (S (length s)) (pstart s).

(** ** python_dice_lexer.py:21-38: the error message *)

(** python_dice_lexer.py:25-28: the line and column of the offending character *)
Fixpoint find_line (lines : list text) (column : Z) : res (text * Z) :=
  match lines with
  | [] => Raise IndexError
  | l :: lines' =>
      if Z.of_nat (length l) <? column then find_line lines' (column - (Z.of_nat (length l) + 1))
      else Ok (l, column)
  end.

(** [s[a:b]] for non-negative bounds *)
Definition slice {A} (a b : Z) (l : list A) : list A := skipn (Z.to_nat a) (firstn (Z.to_nat b) l).

Definition newline : ascii := ascii_of_N 10.

(** python_dice_lexer.py:22-35 *)
Definition lex_error_message (input : text) (idx : Z) : res text :=
  rbind (find_line (split_on (Ascii.eqb newline) input) idx) (fun lc =>
    let '(line, column) := lc in
    let start := Z.max 0 (column - 50) in
    let stop := Z.min (Z.of_nat (length input)) (column + 50) in
    let sub_string := slice start stop line in
    let arrow_line := repeat "-"%char (Z.to_nat (column - start)) ++ $"^" in
    Ok (sub_string ++ [newline] ++ arrow_line)).

(** python_dice_lexer.py:18-38: tokens, or a ValueError with a message *)
Inductive lex_out :=
| LexOk (ts : list token)
| LexValueError (message : text)
| LexOther (e : exn).            (* any other exception, or OutOfFuel *)

Definition lex (input : text) : lex_out :=
  match run_lexer input with
  | Lexed ts => LexOk ts
  | LexFail p => match lex_error_message input (Z.of_nat (length (fst p))) with
                 | Ok m => LexValueError m
                 | Raise e => LexOther e
                 end
  | LexStuck => LexOther OutOfFuel
  end.

(** ** The source positions of the tokens *)

(** rply.token.SourcePosition *)
Record source_position := { sp_idx : Z; sp_lineno : Z; sp_colno : Z }.

(** s.count("\n", match.start, match.end) *)
Definition newlines (s : text) : Z := Z.of_nat (length (filter (Ascii.eqb newline) s)).

(** s.rfind("\n", 0, start), on the text before [start], last character first *)
Fixpoint rfind_newline (before : text) : Z :=
  match before with
  | [] => -1
  | c :: before' => if Ascii.eqb newline c then Z.of_nat (length before') else rfind_newline before'
  end.

(** rply's LexerStream._update_pos: the column *)
Definition column (p : pos) : Z :=
  let start := Z.of_nat (length (fst p)) in
  let last_nl := rfind_newline (fst p) in
  if last_nl <? 0 then start + 1 else start - last_nl.

(** rply's LexerStream.next, as in [rply_lex]: the positions of the tokens.  [lineno] is LexerStream._lineno. *)
Fixpoint rply_positions (fuel : nat) (lineno : Z) (p : pos) : list source_position :=
  match fuel with
  | O => []
  | S fuel' =>
      match snd p with
      | [] => []
      | _ =>
          match rmatch ignore_rule p with
          | q :: _ => rply_positions fuel' (lineno + newlines (between p q)) q
          | [] =>
              match first_rule lexer_rules p with
              | None => []
              | Some (_, q) =>
                  {| sp_idx := Z.of_nat (length (fst p)); sp_lineno := lineno; sp_colno := column p |}
                    :: rply_positions fuel' (lineno + newlines (between p q)) q
              end
          end
      end
  end.

Definition lex_positions (s : text) : list source_position := rply_positions (S (length s)) 1 (pstart s).
