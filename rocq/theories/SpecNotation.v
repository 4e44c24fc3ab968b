(** * SpecNotation: dice notation, as the README describes it *)
From Verif Require Import Py.

(** A numeral: decimal digits with an optional minus sign *)
Definition is_digits (t : text) : Prop := t <> [] /\ forallb is_digit t = true.
Definition decimal (t : text) : Z := fold_left (fun a c => 10 * a + (Z.of_N (code c) - 48)) t 0.

Record numeral := { n_minus : bool; n_digits : text }.
Definition numeral_ok (n : numeral) : Prop := is_digits (n_digits n).
Definition numeral_text (n : numeral) : text := (if n_minus n then $"-" else []) ++ n_digits n.
Definition numeral_value (n : numeral) : Z := if n_minus n then - decimal (n_digits n) else decimal (n_digits n).

(** An entry of a custom die: a value or a range, and how many copies of it *)
Record entry := { e_from : numeral; e_to : option numeral; e_copies : option text }.

Definition entry_ok (e : entry) : Prop :=
  numeral_ok (e_from e) /\
  match e_to e with Some n => numeral_ok n | None => True end /\
  match e_copies e with Some t => is_digits t | None => True end.

Definition entry_text (e : entry) : text :=
  numeral_text (e_from e) ++
  match e_to e with Some n => $"-" ++ numeral_text n | None => [] end ++
  match e_copies e with Some t => $"*" ++ t | None => [] end.

(** All integers from the smaller to the larger of the two *)
Definition integers_between (a b : Z) : list Z :=
  map (fun i => Z.min a b + Z.of_nat i) (seq 0 (Z.to_nat (Z.abs (a - b)) + 1)).

Definition entry_values (e : entry) : list Z :=
  match e_to e with
  | Some n => integers_between (numeral_value (e_from e)) (numeral_value n)
  | None => [numeral_value (e_from e)]
  end.
Definition entry_copies (e : entry) : nat :=
  match e_copies e with Some t => Z.to_nat (decimal t) | None => 1 end.

Fixpoint copies (k : nat) (l : list Z) : list Z := match k with O => [] | S k' => l ++ copies k' l end.

(** The faces of a custom die *)
Definition custom_faces (es : list entry) : list Z := flat_map (fun e => copies (entry_copies e) (entry_values e)) es.

(** [s] is a custom die with these entries, possibly with white space in between *)
Definition is_custom (s : text) (es : list entry) : Prop :=
  es <> [] /\ (forall e, In e es -> entry_ok e) /\
  exists body, s = $"[" ++ body ++ $"]" /\
    ~ In "["%char body /\ ~ In "]"%char body /\
    filter (fun c => negb (is_space c)) body = join $"," (map entry_text es).

(** The same with a comma after the last entry *)
Definition is_custom_trailing (s : text) (es : list entry) : Prop :=
  es <> [] /\ (forall e, In e es -> entry_ok e) /\
  exists body, s = $"[" ++ body ++ $"]" /\
    ~ In "["%char body /\ ~ In "]"%char body /\
    filter (fun c => negb (is_space c)) body = join $"," (map entry_text es) ++ $",".

(** The faces that the notation for one die denotes *)
Inductive die_notation : text -> list Z -> Prop :=
| die_numbered : forall s, is_digits s -> die_notation s (map Z.of_nat (seq 1 (Z.to_nat (decimal s))))
| die_percent : die_notation $"%" (map Z.of_nat (seq 1 100))
| die_fate : die_notation $"F" [-1; 0; 1]
| die_custom : forall s es, is_custom s es -> die_notation s (custom_faces es).

(** The number of dice: one when it is left out *)
Definition count_notation (t : text) (n : Z) : Prop := (t = [] /\ n = 1) \/ (is_digits t /\ n = decimal t).
