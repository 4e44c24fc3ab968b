(** * Py: the Python runtime pieces that python_dice relies on.

    Nothing in this file is specific to python_dice: exceptions as values, [str] as a list of
    characters, [str(int)]/[int(str)], insertion ordered dictionaries, [range], [list.sort],
    [str.split], and the two result monads used by the model.

    Characters are Coq's [ascii], i.e. the code points 0..255 (Latin-1).  Text with code points
    above 255 is outside the model. *)
From Coq Require Export String Ascii ZArith Bool Lia List.
Export ListNotations.
Open Scope Z_scope.
Open Scope list_scope.

(** ** Exceptions as values *)

(** The exception classes that the modelled code (or the Python built-ins it calls) can raise. *)
Inductive exn :=
| ValueError | KeyError | ZeroDivisionError | IndexError | TypeError | OverflowError
| OutOfFuel. (* not a Python exception: a fuelled loop of the model that has not finished *)

Inductive res (A : Type) := Ok (a : A) | Raise (e : exn).
Arguments Ok {A}. Arguments Raise {A}.

Definition rbind {A B} (r : res A) (f : A -> res B) : res B :=
  match r with Ok a => f a | Raise e => Raise e end.
Definition rmap {A B} (f : A -> B) (r : res A) : res B := rbind r (fun a => Ok (f a)).

(** ** Text *)

Notation text := (list ascii).
(** A literal: [$"abc"]. *)
Notation "$ s" := (list_ascii_of_string s%string) (at level 1, s at level 0, only parsing).

Fixpoint text_eqb (a b : text) : bool :=
  match a, b with
  | [], [] => true
  | x :: a', y :: b' => Ascii.eqb x y && text_eqb a' b'
  | _, _ => false
  end.

Definition code (c : ascii) : N := N_of_ascii c.
Definition in_range (lo hi : N) (c : ascii) : bool := (lo <=? code c)%N && (code c <=? hi)%N.

(** Python's [\d] for code points below 256: exactly 0..9. *)
Definition is_digit (c : ascii) : bool := in_range 48 57 c.
Definition is_lower (c : ascii) : bool := in_range 97 122 c.
Definition is_upper (c : ascii) : bool := in_range 65 90 c.

(** Python's [\s] for code points below 256. *)
Definition is_space (c : ascii) : bool :=
  in_range 9 13 c || in_range 28 32 c || (code c =? 133)%N || (code c =? 160)%N.

(** Python's [\w] for code points below 256 (str.isalnum() or '_'). *)
Definition is_word (c : ascii) : bool :=
  is_digit c || is_lower c || is_upper c || (code c =? 95)%N
  || (code c =? 170)%N || in_range 178 179 c || (code c =? 181)%N || in_range 185 186 c
  || in_range 188 190 c || in_range 192 214 c || in_range 216 246 c || in_range 248 255 c.

(** ** str(int) and int(str) *)

Fixpoint text_of_uint (u : Decimal.uint) : text :=
  match u with
  | Decimal.Nil => []
  | Decimal.D0 u => "0"%char :: text_of_uint u
  | Decimal.D1 u => "1"%char :: text_of_uint u
  | Decimal.D2 u => "2"%char :: text_of_uint u
  | Decimal.D3 u => "3"%char :: text_of_uint u
  | Decimal.D4 u => "4"%char :: text_of_uint u
  | Decimal.D5 u => "5"%char :: text_of_uint u
  | Decimal.D6 u => "6"%char :: text_of_uint u
  | Decimal.D7 u => "7"%char :: text_of_uint u
  | Decimal.D8 u => "8"%char :: text_of_uint u
  | Decimal.D9 u => "9"%char :: text_of_uint u
  end.

(** [str(z)] *)
Definition text_of_Z (z : Z) : text :=
  match Z.to_int z with
  | Decimal.Pos u => text_of_uint u
  | Decimal.Neg u => "-"%char :: text_of_uint u
  end.

Definition digit_val (c : ascii) : Z := Z.of_N (code c) - 48.
Definition digits_val (acc : Z) (s : text) : Z :=
  fold_left (fun a c => 10 * a + digit_val c) s acc.

(** A non-empty string of decimal digits. *)
Definition all_digits (s : text) : bool :=
  match s with [] => false | _ => forallb is_digit s end.

(** [int(s)].  Simplification: only an optional sign followed by decimal digits is accepted; the
    surrounding white space and the underscores that Python's [int] also accepts never occur in
    the strings that the code passes to it (they come from tokens, after white space removal). *)
Definition int_of_text (s : text) : res Z :=
  match s with
  | "-"%char :: s' => if all_digits s' then Ok (- digits_val 0 s') else Raise ValueError
  | "+"%char :: s' => if all_digits s' then Ok (digits_val 0 s') else Raise ValueError
  | _ => if all_digits s then Ok (digits_val 0 s) else Raise ValueError
  end.

(** ** Lists *)

Definition zsum (l : list Z) : Z := fold_right Z.add 0 l.

(** [range(a, b)] *)
Definition zrange (a b : Z) : list Z :=
  map (fun i => a + Z.of_nat i) (seq 0 (Z.to_nat (b - a))).

(** [max(l)], [min(l)] on a list of ints: ValueError when it is empty. *)
Definition pymax (l : list Z) : res Z :=
  match l with [] => Raise ValueError | x :: l' => Ok (fold_left Z.max l' x) end.
Definition pymin (l : list Z) : res Z :=
  match l with [] => Raise ValueError | x :: l' => Ok (fold_left Z.min l' x) end.

(** [list.sort()] on ints.  Python's algorithm differs (timsort); for ints the sorted list is unique. *)
Fixpoint zinsert (x : Z) (l : list Z) : list Z :=
  match l with
  | [] => [x]
  | y :: l' => if x <=? y then x :: l else y :: zinsert x l'
  end.
Definition zsort (l : list Z) : list Z := fold_right zinsert [] l.

(** [s.split(c)] for a one character separator. *)
Fixpoint split_on (p : ascii -> bool) (s : text) : list text :=
  match s with
  | [] => [[]]
  | c :: s' =>
      if p c then [] :: split_on p s'
      else match split_on p s' with
           | [] => [[c]]
           | w :: ws => (c :: w) :: ws
           end
  end.

(** [sep.join(l)] *)
Fixpoint join (sep : text) (l : list text) : text :=
  match l with
  | [] => []
  | [x] => x
  | x :: l' => x ++ sep ++ join sep l'
  end.

(** [l[i]] for a non-negative literal index. *)
Definition index {A} (l : list A) (i : nat) : res A :=
  match nth_error l i with Some x => Ok x | None => Raise IndexError end.

(** ** Dictionaries: association lists in insertion order.
    [km] is the key comparison of the dictionary (stored key first). *)
Section Dict.
  Context {K V : Type} (km : K -> K -> bool).

  (** [d.get(k)] *)
  Fixpoint dget (d : list (K * V)) (k : K) : option V :=
    match d with
    | [] => None
    | (k', v) :: d' => if km k' k then Some v else dget d' k
    end.

  (** [k in d] *)
  Definition dmem (d : list (K * V)) (k : K) : bool :=
    match dget d k with Some _ => true | None => false end.

  (** [d[k] = v]: keeps the stored key and its place when the key is already there. *)
  Fixpoint dset (d : list (K * V)) (k : K) (v : V) : list (K * V) :=
    match d with
    | [] => [(k, v)]
    | (k', v') :: d' => if km k' k then (k', v) :: d' else (k', v') :: dset d' k v
    end.
End Dict.

(** The [safe_add] helpers: [if k not in d: d[k] = 0]; [d[k] += v]. *)
Fixpoint safe_add {K} (km : K -> K -> bool) (d : list (K * Z)) (k : K) (v : Z) : list (K * Z) :=
  match d with
  | [] => [(k, 0 + v)]
  | (k', v') :: d' => if km k' k then (k', v' + v) :: d' else (k', v') :: safe_add km d' k v
  end.

(** [for k, v in l: safe_add(d, k, v)] *)
Definition safe_add_all {K} (km : K -> K -> bool) (l : list (K * Z)) (d : list (K * Z)) : list (K * Z) :=
  fold_left (fun d kv => safe_add km d (fst kv) (snd kv)) l d.

(** ** Nested loops over two lists, outer first. *)
Definition pairs {A B} (l1 : list A) (l2 : list B) : list (A * B) :=
  flat_map (fun a => map (fun b => (a, b)) l2) l1.
