(** * SpecRandom: how often a side is chosen, and generators that give chosen numbers *)
From Verif Require Import Py PyFacts Constraint Distribution DiceModel Expr Parser Interp SpecProgram Random.

(** The number of the 2^53 values of random() for which random.choices with one draw gives side [v] *)
Definition chosen (m : list (Z * Z)) (bits v : Z) : bool :=
  match choices_drawn m [bits] with Ok [x] => x =? v | _ => false end.
Definition draws_for (m : list (Z * Z)) (v : Z) : Z := Z.of_nat (length (filter (fun bits => chosen m bits v) (zrange 0 (2 ^ 53)))).

(** Every side that has a multiplicity above zero has at least 7 / 2^53 of the total; so if the total is at most 2^50 *)
Definition light (m : list (Z * Z)) : Prop := forall v w, In (v, w) m -> 0 < w -> 7 * zsum (map snd m) <= w * 2 ^ 53.
Definition light_dice (lines : list text) : Prop := forall t e m, In t lines -> parse t = Ok e -> In m (dice_of e) -> light m.

(** The generator that gives the numbers of a list, and then zeros *)
Definition list_next (l : list Z) : Z * list Z := match l with [] => (0, []) | r :: l' => (r mod 2 ^ 53, l') end.
Lemma list_next_range : forall l, 0 <= fst (list_next l) < 2 ^ 53.
Proof. intros [|r l]; cbn [list_next fst]; [lia|]. apply Z.mod_pos_bound. lia. Qed.
Definition list_gen : Generator := {| gen := list Z; next_bits := list_next; bits_range := list_next_range |}.

(** What roll() gives with a generator: the value of stdout, or an exception *)
Definition drawn_result (R : Runtime) (G : Generator) (s : state R) (lines : list text) (g : gen G) : res (option Z) :=
  match roll_drawn R G lines s g with
  | ((s', Ok dict), _) => Ok (dget text_eqb (read_dict R s' dict) stdout)
  | ((_, Raise x), _) => Raise x
  end.
