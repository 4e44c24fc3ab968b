(** * SpecLexer: the texts of the tokens, written without regular expressions *)
From Verif Require Import Py Lexer SpecNotation.

(** White space, and an entry of a custom die with white space around it *)
Definition blank (t : text) : Prop := forallb is_space t = true.
Definition padded (e : entry) (w : text) : Prop := exists a b, blank a /\ blank b /\ w = a ++ entry_text e ++ b.

(** A custom die: entries in brackets, with commas in between and possibly ([trailing]) one after the last entry *)
Definition custom_text (es : list entry) (trailing : bool) (s : text) : Prop :=
  es <> [] /\ (forall e, In e es -> entry_ok e) /\
  exists ws sp, Forall2 padded es ws /\ blank sp /\ s = $"[" ++ join $"," ws ++ (if trailing then $"," ++ sp else []) ++ $"]".

(** The notation for one die: a number, [%], [F] or a list in brackets *)
Inductive sides_form : text -> Prop :=
| sides_number : forall s, is_digits s -> sides_form s
| sides_percent : sides_form $"%"
| sides_fate : sides_form $"F"
| sides_custom : forall es trailing s, custom_text es trailing s -> sides_form s.

Definition dice_form_text (w : text) : Prop :=
  exists n s, w = n ++ $"d" ++ s /\ forallb is_digit n = true /\ sides_form s.

Definition name_char (c : ascii) : bool := is_lower c || Ascii.eqb c "_".

(** What the text of a token of each kind looks like *)
Definition token_form (n : tokname) (w : text) : Prop :=
  match n with
  | T_OPEN_PARENTHESIS => w = $"("
  | T_CLOSE_PARENTHESIS => w = $")"
  | T_COMMA => w = $","
  | T_NOT => w = $"!"
  | T_DICE => dice_form_text w
  | T_DROP_KEEP_DICE => exists d k n, w = d ++ [k] ++ n /\ dice_form_text d /\ (k = "k"%char \/ k = "d"%char) /\ is_digits n
  | T_BINARY_OPERATOR => In w [$"=="; $"!="; $"<="; $"<"; $">="; $">"; $"AND"; $"OR"]
  | T_CONSTANT_INTEGER => exists n, numeral_ok n /\ w = numeral_text n
  | T_CONSTANT_BINARY => w = $"True" \/ w = $"False"
  | T_ADD => w = $"+"
  | T_SUBTRACT => w = $"-"
  | T_MULTIPLY => w = $"*"
  | T_INTEGER_DIVISION => w = $"//"
  | T_MINMAX => w = $"MAX" \/ w = $"MIN"
  | T_ABS => w = $"ABS"
  | T_ASSIGNMENT => w = $"="
  | T_VAR => w = $"VAR"
  | T_NAME => w <> [] /\ forallb name_char w = true
  end.

(** [spelled s ts]: [s] consists of the texts of the tokens, in order, with white space in between *)
Inductive spelled : text -> list token -> Prop :=
| sp_end : spelled [] []
| sp_space : forall c s ts, is_space c = true -> spelled s ts -> spelled (c :: s) ts
| sp_token : forall t s ts, token_form (tk_name t) (tk_text t) -> spelled s ts -> spelled (tk_text t ++ s) (t :: ts).

(** ** Texts whose tokens are beyond doubt *)

(** [may_meet a b]: one token may end in [a] and the next one begin with [b] without white space between them: not two
    letters, digits or underscores, nothing of the kind after a die, no [=] after a character that it would combine with, and
    no digit after a minus sign *)
Definition may_meet (a b : ascii) : bool :=
  negb ((is_word a || Ascii.eqb a "%" || Ascii.eqb a "]") && is_word b) &&
  negb ((Ascii.eqb a "=" || Ascii.eqb a "!" || Ascii.eqb a "<" || Ascii.eqb a ">") && Ascii.eqb b "=") &&
  negb (Ascii.eqb a "-" && is_digit b).

Definition may_follow (p : option ascii) (w : text) : Prop :=
  match p, w with Some a, b :: _ => may_meet a b = true | _, _ => True end.
(** The last character of [s], or [p] when there is none *)
Fixpoint last_of (p : option ascii) (s : text) : option ascii := match s with [] => p | c :: s' => last_of (Some c) s' end.

(** [laid_out p s ts]: after the character [p], [s] consists of the texts of the tokens, with white space where it is needed *)
Inductive laid_out : option ascii -> text -> list token -> Prop :=
| lo_end : forall p, laid_out p [] []
| lo_space : forall p c s ts, is_space c = true -> laid_out (Some c) s ts -> laid_out p (c :: s) ts
| lo_token : forall p t s ts, token_form (tk_name t) (tk_text t) -> may_follow p (tk_text t) -> laid_out (last_of p (tk_text t)) s ts ->
    laid_out p (tk_text t ++ s) (t :: ts).

(** ** The longest token *)

(** [v] does not begin with the character [c]; neither the character [p] before nor [v] continues a word *)
Definition not_before (c : ascii) (v : text) : Prop := hd_error v <> Some c.
Definition word_apart (p : option ascii) (v : text) : Prop :=
  match p with Some a => is_word a = false | None => True end /\ match v with c :: _ => is_word c = false | [] => True end.

(** [token_at n p w v]: after the character [p] and before the text [v], [w] is the text of a token of kind [n].  Words are
    whole words, [!] is not part of [!=], and [=] is not part of a run of several [=]. *)
Definition token_at (n : tokname) (p : option ascii) (w v : text) : Prop :=
  token_form n w /\
  match n with
  | T_NOT => not_before "=" v
  | T_ASSIGNMENT => p <> Some "="%char /\ not_before "=" v
  | T_BINARY_OPERATOR => w = $"AND" \/ w = $"OR" -> word_apart p v
  | T_CONSTANT_BINARY | T_MINMAX | T_ABS | T_VAR | T_NAME => word_apart p v
  | _ => True
  end.

(** [munched p s ts rest]: after the character [p], [s] begins with the tokens [ts], with white space in between, and
    [rest] remains.  Each token is the longest one at its place. *)
Inductive munched : option ascii -> text -> list token -> text -> Prop :=
| mu_stop : forall p s, munched p s [] s
| mu_space : forall p c s ts rest, is_space c = true -> munched (Some c) s ts rest -> munched p (c :: s) ts rest
| mu_token : forall p t v ts rest, token_at (tk_name t) p (tk_text t) v ->
    (forall n w' v', tk_text t ++ v = w' ++ v' -> token_at n p w' v' -> (length w' <= length (tk_text t))%nat) ->
    munched (last_of p (tk_text t)) v ts rest -> munched p (tk_text t ++ v) (t :: ts) rest.

(** ** Error messages *)

(** [line] is the line of [input] that contains position [i], at column [col] *)
Definition line_at (input : text) (i : nat) (line : text) (col : nat) : Prop :=
  exists above below, input = above ++ line ++ below /\ ~ In newline line /\
    (above = [] \/ exists x, above = x ++ [newline]) /\ (below = [] \/ exists y, below = newline :: y) /\
    i = (length above + col)%nat /\ (col < length line)%nat.

(** The message shows the part of that line at most 50 characters away, and an arrow under the character at
    position [i] *)
Definition points_at (input : text) (i : nat) (message : text) : Prop :=
  exists line col before shown after, line_at input i line col /\ line = before ++ shown ++ after /\
    length before = (col - 50)%nat /\ (after = [] \/ length (before ++ shown) = col + 50)%nat /\
    message = shown ++ [newline] ++ repeat "-"%char (col - length before) ++ $"^" /\
    nth_error shown (col - length before) = nth_error input i.
