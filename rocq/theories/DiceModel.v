(** * DiceModel: model of dice_expression_helper.py, dice_expression.py and drop_keep_expression.py
    (python_dice/src/expression/). *)
From Verif Require Import Py PyFloat Regex Constraint Distribution.

(** ** dice_expression_helper.py *)

Definition is_ch (a c : ascii) : bool := Ascii.eqb a c.

(** The regular expressions of dice_expression_helper.py:10, 14, 29, 39, 41 *)
Definition re_start_positive : regex :=                     (* \d+--?\d+ *)
  rseq [rplus rdigit; rch "-"; ropt (rch "-"); rplus rdigit].
Definition re_end_negative : regex :=                       (* -?\d+--\d+ *)
  rseq [ropt (rch "-"); rplus rdigit; rch "-"; rch "-"; rplus rdigit].
Definition re_starts_digit : regex := rplus rdigit.         (* \d+ *)
Definition re_range : regex :=                              (* -?\d+--?\d+ *)
  rseq [ropt (rch "-"); rplus rdigit; rch "-"; ropt (rch "-"); rplus rdigit].
Definition re_single : regex := RSeq (ropt (rch "-")) (rplus rdigit).   (* -?\d+ *)
Definition re_multiplied : regex :=                         (* (-?\d+--?\d+|-?\d+)\*\d+ *)
  rseq [RAlt re_range re_single; rch "*"; rplus rdigit].

(** dice_expression_helper.py:5-18: _find_range *)
Definition find_range (value : text) : res (list Z) :=
  let split_range := split_on (is_ch "-") value in
  rbind (if re_test re_start_positive value
         then rbind (index split_range 0) int_of_text
         else rbind (index split_range 1) (fun s => rmap Z.opp (int_of_text s))) (fun range_start =>
  rbind (if re_test re_end_negative value
         then rmap Z.opp (int_of_text (last split_range []))
         else int_of_text (last split_range [])) (fun range_end =>
  Ok (zrange (Z.min range_start range_end) (Z.max range_start range_end + 1)))).

(** dice_expression_helper.py:38-46: the body of the loop over the entries of a custom die.
    [value, multiplier = re.split(...)] raises ValueError unless there are exactly two parts. *)
Definition add_entry (d : list (Z * Z)) (value : text) : res (list (Z * Z)) :=
  rbind (if re_test re_multiplied value
         then match split_on (is_ch "*") value with
              | [v; m] => Ok (v, m)
              | _ => Raise ValueError
              end
         else Ok (value, $"1")) (fun vm =>
  let '(value, multiplier) := vm in
  rbind (if re_test re_range value then find_range value else rmap (fun z => [z]) (int_of_text value)) (fun keys =>
  match keys with
  | [] => Ok d                                   (* the loop body, and int(multiplier), do not run *)
  | _ => rbind (int_of_text multiplier) (fun m => Ok (safe_add_all Z.eqb (map (fun k => (k, m)) keys) d))
  end)).

Fixpoint add_entries (d : list (Z * Z)) (values : list text) : res (list (Z * Z)) :=
  match values with
  | [] => Ok d
  | v :: vs => rbind (add_entry d v) (fun d' => add_entries d' vs)
  end.

(** dice_expression_helper.py:37: re.sub of "[", "]" and white space by nothing *)
Definition strip_custom (s : text) : text :=
  filter (fun c => negb (is_ch "[" c || is_ch "]" c || is_space c)) s.

(** dice_expression_helper.py:21-47: get_single_dice_outcome_map *)
Definition get_single_dice_outcome_map (s : text) : res (list (Z * Z)) :=
  if re_test re_starts_digit s then
    rmap (fun n => map (fun v => (v, 1)) (zrange 1 (n + 1))) (int_of_text s)
  else if text_eqb s $"%" then Ok (map (fun v => (v, 1)) (zrange 1 (100 + 1)))
  else if text_eqb s $"F" then Ok [(-1, 1); (0, 1); (1, 1)]
  else add_entries [] (split_on (is_ch ",") (strip_custom s)).

(** ** random.choices(keys, weights=weights, k=k)

    The model lists every possible result with its integer weight: the probability of a result is its
    weight divided by the total weight.  (The real function draws a double: Random.v, C56.)  The total is
    converted to a float; IndexError for an empty population, OverflowError when the total is too large for
    a float and ValueError when all weights are zero, as in CPython 3.9 and later. *)
Fixpoint weighted_tuples (m : list (Z * Z)) (k : nat) : list (list Z * Z) :=
  match k with
  | O => [([], 1)]
  | S k' => flat_map (fun vw => map (fun tw => (fst vw :: fst tw, snd vw * snd tw)) (weighted_tuples m k')) m
  end.

Definition choices (m : list (Z * Z)) (k : Z) : res (list (list Z * Z)) :=
  match m with
  | [] => Raise IndexError
  | _ => rbind (float_of_Z (zsum (map snd m))) (fun _ =>
         if zsum (map snd m) <=? 0 then Raise ValueError else Ok (weighted_tuples m (Z.to_nat k)))
  end.

(** Weighted results: each with its weight; an exception is one result of weight 1. *)
Definition rolls (A : Type) : Type := list (Z * res A).
Definition rolls_of {A B} (f : A -> B) (r : res (list (A * Z))) : rolls B :=
  match r with
  | Ok l => map (fun aw => (snd aw, Ok (f (fst aw)))) l
  | Raise e => [(1, Raise e)]
  end.

(** ** dice_expression.py *)

(** dice_expression.py:27-31: the fields of a DiceExpression *)
Record dice := { dice_form : text; dice_map : list (Z * Z); dice_num : Z }.

(** dice_expression.py:33-35 *)
Definition number_of_dice (parts : list text) : res Z :=
  rbind (index parts 0) (fun s => match s with [] => Ok 1 | _ => int_of_text s end).

(** dice_expression.py:27-31 *)
Definition mk_dice (form : text) : res dice :=
  let parts := split_on (is_ch "d") form in
  rbind (rbind (index parts 1) get_single_dice_outcome_map) (fun m =>
  rbind (number_of_dice parts) (fun n =>
  Ok {| dice_form := form; dice_map := m; dice_num := n |})).

(** dice_expression.py:37-44 *)
Definition dice_roll (d : dice) : rolls Z := rolls_of zsum (choices (dice_map d) (dice_num d)).

(** dice_expression.py:46-50 *)
Definition dice_max (d : dice) : res Z := rmap (fun x => x * dice_num d) (pymax (map fst (dice_map d))).
Definition dice_min (d : dice) : res Z := rmap (fun x => x * dice_num d) (pymin (map fst (dice_map d))).

(** dice_expression.py:52-53 *)
Definition dice_cost (d : dice) : Z := dice_num d * Z.of_nat (length (dice_map d)).

Section DiceDist.
  Context (R : Runtime).

  Fixpoint add_times (k : nat) (acc single : dist R) : res (dist R) :=
    match k with
    | O => Ok acc
    | S k' => rbind (d_binop R VAdd acc single) (fun acc' => add_times k' acc' single)
    end.

  (** dice_expression.py:58-67 *)
  Definition dice_dist (d : dice) : res (dist R) :=
    rbind (mk_dist_ints R (dice_map d)) (fun single =>
    rbind (mk_dist_ints R (get_result_map R single)) (fun start =>
    add_times (Z.to_nat (dice_num d - 1)) start single)).
End DiceDist.

(** ** drop_keep_expression.py *)

(** What [_simplified_form] can be *)
Inductive simple_form := SDice (d : dice) | SInt (number : text).

(** drop_keep_expression.py:30-36: the fields of a DropKeepExpression *)
Record dropkeep := {
  dk_form : text;
  dk_map : list (Z * Z);
  dk_num : Z;
  dk_k : Z;                                (* _number_to_keep_or_drop *)
  dk_keep : bool;                          (* _is_keep() *)
  dk_simple : option simple_form
}.

Definition is_dk (c : ascii) : bool := is_ch "d" c || is_ch "k" c.

(** drop_keep_expression.py:30-66 *)
Definition mk_dropkeep (form : text) : res dropkeep :=
  let parts := split_on is_dk form in
  let keep := existsb (is_ch "k") form in
  rbind (number_of_dice parts) (fun n =>
  rbind (index parts 1) (fun sides =>
  rbind (get_single_dice_outcome_map sides) (fun m =>
  rbind (rbind (index parts 2) int_of_text) (fun k =>
  let plain := rmap (fun d => Some (SDice d)) (mk_dice (text_of_Z n ++ $"d" ++ sides)) in
  let zero := Ok (Some (SInt $"0")) in
  rbind (if keep then
           if n <=? k then plain else if k =? 0 then zero else Ok None
         else
           if n <=? k then zero else if k =? 0 then plain else Ok None) (fun simple =>
  Ok {| dk_form := form; dk_map := m; dk_num := n; dk_k := k; dk_keep := keep; dk_simple := simple |}))))).

(** Python's [l[-k:]] for k > 0 and [l[:k]] for k >= 0 *)
Definition last_n {A} (k : Z) (l : list A) : list A := skipn (length l - Z.to_nat k) l.
Definition first_n {A} (k : Z) (l : list A) : list A := firstn (Z.to_nat k) l.

(** drop_keep_expression.py:77-80 *)
Definition dk_select (dk : dropkeep) (dice_rolls : list Z) : Z :=
  let sorted := zsort dice_rolls in
  if dk_keep dk then zsum (last_n (dk_k dk) sorted) else zsum (first_n (dk_num dk - dk_k dk) sorted).

(** drop_keep_expression.py:68-80 without the simplified form *)
Definition dk_roll_full (dk : dropkeep) : rolls Z :=
  rolls_of (dk_select dk) (choices (dk_map dk) (dk_num dk)).

(** The number of dice that count: drop_keep_expression.py:86-88, 94-96, 105-107, 116-120 *)
Definition dk_selected (dk : dropkeep) : Z := if dk_keep dk then dk_k dk else dk_num dk - dk_k dk.

(** drop_keep_expression.py:86-88, 94-96 *)
Definition dk_max_full (dk : dropkeep) : res Z := rmap (fun x => dk_selected dk * x) (pymax (map fst (dk_map dk))).
Definition dk_min_full (dk : dropkeep) : res Z := rmap (fun x => dk_selected dk * x) (pymin (map fst (dk_map dk))).

(** drop_keep_expression.py:105-109 *)
Definition dk_cost_full (dk : dropkeep) : Z := dk_num dk * dk_selected dk * Z.of_nat (length (dk_map dk)).

(** drop_keep_expression.py:153-157 *)
Fixpoint ints_of_texts (l : list text) : res (list Z) :=
  match l with
  | [] => Ok []
  | s :: l' => rbind (int_of_text s) (fun z => rmap (cons z) (ints_of_texts l'))
  end.
Definition string_key_to_list (s : text) : res (list Z) :=
  match s with [] => Ok [] | _ => ints_of_texts (split_on (is_ch "|") s) end.

(** drop_keep_expression.py:159-162 *)
Definition int_list_to_string (values : list Z) : text := join $"|" (map text_of_Z (zsort values)).

(** drop_keep_expression.py:142-147: the key update of _build_dice_dict *)
Definition build_key (old_key : text) (new_value : Z) : res text :=
  rmap (fun l => int_list_to_string (zsort (l ++ [new_value]))) (string_key_to_list old_key).

(** drop_keep_expression.py:164-173: _update_key_list.  [l[1:]] is [tl], [l[:-1]] is [removelast]. *)
Definition update_key (keep : bool) (old_key : text) (new_value : Z) : res text :=
  rmap (fun l =>
          let l' := zsort (l ++ [new_value]) in
          int_list_to_string (if keep then tl l' else removelast l')) (string_key_to_list old_key).

(** One pass of drop_keep_expression.py:139-150 and 189-194: for each face (outer loop) and each old key *)
Fixpoint dk_pass (upd : text -> Z -> res text) (ps : list ((Z * Z) * (text * Z))) (acc : list (text * Z))
  : res (list (text * Z)) :=
  match ps with
  | [] => Ok acc
  | ((face, count), (old_key, old_value)) :: ps' =>
      rbind (upd old_key face) (fun k => dk_pass upd ps' (safe_add text_eqb acc k (old_value * count)))
  end.

Fixpoint dk_passes (upd : text -> Z -> res text) (n : nat) (m : list (Z * Z)) (cur : list (text * Z))
  : res (list (text * Z)) :=
  match n with
  | O => Ok cur
  | S n' => rbind (dk_pass upd (pairs m cur) []) (fun cur' => dk_passes upd n' m cur')
  end.

(** drop_keep_expression.py:130-151: _build_dice_dict *)
Definition build_dice_dict (n : Z) (m : list (Z * Z)) : res (list (text * Z)) :=
  dk_passes build_key (Z.to_nat n) m [([], 1)].

(** drop_keep_expression.py:175-195: _compute_iterations *)
Definition compute_iterations (cur : list (text * Z)) (n : Z) (m : list (Z * Z)) (keep : bool) : res (list (text * Z)) :=
  dk_passes (update_key keep) (Z.to_nat n) m cur.

(** drop_keep_expression.py:197-208: _collapse_outcomes *)
Fixpoint collapse_outcomes (outcomes : list (text * Z)) (acc : list (Z * Z)) : res (list (Z * Z)) :=
  match outcomes with
  | [] => Ok acc
  | (k, v) :: outcomes' =>
      rbind (string_key_to_list k) (fun l => collapse_outcomes outcomes' (safe_add Z.eqb acc (zsum l) v))
  end.

(** drop_keep_expression.py:115-127 *)
Definition dk_outcome_map (dk : dropkeep) : res (list (Z * Z)) :=
  let remaining := if dk_keep dk then dk_num dk - dk_k dk else dk_k dk in
  rbind (build_dice_dict (dk_selected dk) (dk_map dk)) (fun cur =>
  rbind (compute_iterations cur remaining (dk_map dk) (dk_keep dk)) (fun cur' =>
  collapse_outcomes cur' [])).

(** drop_keep_expression.py:115-128 *)
Definition dk_dist_full (R : Runtime) (dk : dropkeep) : res (dist R) :=
  rbind (dk_outcome_map dk) (mk_dist_ints R).
