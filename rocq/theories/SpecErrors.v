(** * SpecErrors: what the message of a syntax error says *)
From Verif Require Import Py Lexer DiceModel Expr Parser.

(** [begins us]: some program that is accepted begins with the tokens [us] *)
Definition begins (us : list token) : Prop := exists s ts e, lex s = LexOk (us ++ ts) /\ parse s = Ok e.

(** The names of the kinds of tokens *)
Definition kinds : list (tokname * text) :=
  [(T_OPEN_PARENTHESIS, $"OPEN_PARENTHESIS"); (T_CLOSE_PARENTHESIS, $"CLOSE_PARENTHESIS"); (T_COMMA, $"COMMA"); (T_NOT, $"NOT");
   (T_DROP_KEEP_DICE, $"DROP_KEEP_DICE"); (T_DICE, $"DICE"); (T_BINARY_OPERATOR, $"BINARY_OPERATOR");
   (T_CONSTANT_INTEGER, $"CONSTANT_INTEGER"); (T_CONSTANT_BINARY, $"CONSTANT_BINARY"); (T_ADD, $"ADD"); (T_SUBTRACT, $"SUBTRACT");
   (T_MULTIPLY, $"MULTIPLY"); (T_INTEGER_DIVISION, $"INTEGER_DIVISION"); (T_MINMAX, $"MINMAX"); (T_ABS, $"ABS");
   (T_ASSIGNMENT, $"ASSIGNMENT"); (T_VAR, $"VAR"); (T_NAME, $"NAME")].

(** [stands a line col]: what comes after the text [a] is in line [line], column [col], both counted from 1 *)
Definition stands (a : text) (line col : nat) : Prop :=
  exists above here, a = above ++ here /\ ~ In newline here /\ (above = [] \/ exists x, above = x ++ [newline]) /\
    line = S (count_occ Ascii.ascii_dec above newline) /\ col = S (length here).

Definition number (n : nat) : text := text_of_Z (Z.of_nat n).

(** The message about the token [t] after the text [a]; and about the end of the input *)
Definition reports (t : token) (a message : text) : Prop :=
  exists kind line col, In (tk_name t, kind) kinds /\ stands a line col /\
    message = $"Ran into a " ++ kind ++ $" (" ++ tk_text t ++ $") where it wasn't expected, at position SourcePosition(idx=" ++
              number (length a) ++ $", lineno=" ++ number line ++ $", colno=" ++ number col ++ $").".
Definition reports_end (message : text) : Prop :=
  message = $"Ran into a $end ($end) where it wasn't expected, at position None.".

(** The notation of a die that the code cannot read *)
Definition bad_die (t : token) : Prop :=
  tk_name t = T_DICE /\ mk_dice (tk_text t) = Raise ValueError \/ tk_name t = T_DROP_KEEP_DICE /\ mk_dropkeep (tk_text t) = Raise ValueError.
