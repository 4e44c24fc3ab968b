(** * Regex: Python's backtracking [re.match], for the constructs that python_dice uses.

    [rmatch r p] is the list of the positions at which a match of [r] starting at [p] can end, in the
    order in which Python's backtracking engine tries them; [re.match] takes the first. *)
From Verif Require Import Py.

Inductive regex :=
| RChar (f : ascii -> bool)          (* a character class *)
| REps                               (* the empty pattern *)
| RSeq (a b : regex)                 (* ab *)
| RAlt (a b : regex)                 (* a|b *)
| RStar (a : regex)                  (* a*, greedy *)
| RBound                             (* \b *)
| RNotAhead (a : regex)              (* (?!a) *)
| RNotBehind (s : text).             (* (?<!s) for a literal s *)

(** A position in a subject string: the characters before it (last first) and those after it. *)
Definition pos : Type := (text * text)%type.

Definition pstart (s : text) : pos := ([], s).

(** [\b]: exactly one of the neighbouring characters is a word character. *)
Definition at_bound (p : pos) : bool :=
  let before := match fst p with [] => false | c :: _ => is_word c end in
  let after := match snd p with [] => false | c :: _ => is_word c end in
  xorb before after.

Fixpoint is_prefix (a b : text) : bool :=
  match a, b with
  | [], _ => true
  | x :: a', y :: b' => Ascii.eqb x y && is_prefix a' b'
  | _ :: _, [] => false
  end.

(** Greedy repetition: one more iteration first, then stopping here.  An iteration that consumes
    nothing is not repeated (Python's guard against endless empty iterations). *)
Fixpoint rstar (m : pos -> list pos) (fuel : nat) (p : pos) : list pos :=
  match fuel with
  | O => [p]
  | S fuel' =>
      flat_map (fun q => if (length (snd q) <? length (snd p))%nat then rstar m fuel' q else []) (m p) ++ [p]
  end.

Fixpoint rmatch (r : regex) (p : pos) : list pos :=
  match r with
  | RChar f => match snd p with
               | c :: s => if f c then [(c :: fst p, s)] else []
               | [] => []
               end
  | REps => [p]
  | RSeq a b => flat_map (rmatch b) (rmatch a p)
  | RAlt a b => rmatch a p ++ rmatch b p
  | RStar a => rstar (rmatch a) (length (snd p)) p
  | RBound => if at_bound p then [p] else []
  | RNotAhead a => match rmatch a p with [] => [p] | _ => [] end
  | RNotBehind s => if is_prefix (rev s) (fst p) then [] else [p]
  end.

(** [re.match(r, s) is not None] *)
Definition re_test (r : regex) (s : text) : bool :=
  match rmatch r (pstart s) with [] => false | _ => true end.

(** ** Abbreviations *)
Definition rch (c : ascii) : regex := RChar (Ascii.eqb c).
Fixpoint rlit (s : text) : regex :=
  match s with [] => REps | c :: s' => RSeq (rch c) (rlit s') end.
Definition rplus (a : regex) : regex := RSeq a (RStar a).
Definition ropt (a : regex) : regex := RAlt a REps.
Definition rdigit : regex := RChar is_digit.
Definition rspace : regex := RChar is_space.
Fixpoint rseq (l : list regex) : regex :=
  match l with [] => REps | [a] => a | a :: l' => RSeq a (rseq l') end.
Fixpoint ralt (l : list regex) : regex :=
  match l with [] => RChar (fun _ => false) | [a] => a | a :: l' => RAlt a (ralt l') end.
