(** * RepoTests: the values that the project's own tests assert, checked against the model

    The tests in /repo/python_dice/test are not run: tools/gen_repo_tests.py reads them as text and writes,
    for each assertion about a value, what the model computes next to what the test expects.  Each line below
    is computed while this file is compiled, and the build fails if one of them comes out false.  They are
    checks of the model against what the authors say the code does, not theorems: what is left in the compiled
    file is [tt].

    Left out: the tests with mocked collaborators (except the operators, whose mocked operands are replaced by
    integers and by dice with the mocked distributions), the tests of images, of TypeErrors and of rply's
    production strings, the tests generated by hypothesis, the ones with delta=1e8, which hold of any value,
    and a few about so many dice that they take minutes to compute. *)
From Coq Require Import Floats.SpecFloat.
From Verif Require Import Py PyFloat Regex Constraint Distribution DiceModel Expr Lexer Parser Interp Show Instances.

Local Ltac passes b := let r := eval vm_compute in b in match r with true => exact tt end.

(** The process in which the checks are computed: every string has the same hash, which is allowed and makes
    the dictionaries quicker to compute with. *)
Definition rt_plain : Runtime := {| rt_z := rt_z rt_fwd; rt_c := rt_c rt_fwd; rt_hash := fun _ => 0 |}.

Local Notation s0 := (empty_state rt_plain).

(** Equal Python dicts: the same keys with the same values, in any order *)
Definition same_dict {V} (eqb : V -> V -> bool) (m expected : list (Z * V)) : bool :=
  (length m =? length expected)%nat &&
  forallb (fun kv => match dget Z.eqb m (fst kv) with Some v => eqb v (snd kv) | None => false end) expected.

Definition float_eqb (x y : pyfloat) : bool := match SFcompare x y with Some Eq => true | _ => false end.

Definition same_list {A} (eqb : A -> A -> bool) : list A -> list A -> bool :=
  fix go l l' := match l, l' with
                 | [], [] => true
                 | x :: l, y :: l' => eqb x y && go l l'
                 | _, _ => false
                 end.

(** Syntax: whether the token's regular expression matches at the start of each text *)
Definition matches (n : tokname) (want : bool) (cases : list text) : bool :=
  match find (fun r => text_eqb (token_type (fst r)) (token_type n)) lexer_rules with
  | None => false
  | Some r => forallb (fun c => Bool.eqb want (match rmatch (snd r) (pstart c) with [] => false | _ => true end)) cases
  end.

(** Lexer *)
Definition lex_message (s message : text) : bool :=
  match lex s with LexValueError m => text_eqb m message | _ => false end.
Definition token_texts (s : text) (ts : list text) : bool :=
  match lex s with LexOk l => same_list text_eqb (map tk_text l) ts | _ => false end.
Definition token_names (s : text) (ns : list tokname) : bool :=
  match lex s with
  | LexOk l => same_list text_eqb (map (fun t => token_type (tk_name t)) l) (map token_type ns)
  | _ => false
  end.
Definition all_tokens (s : text) (n : tokname) : bool :=
  match lex s with
  | LexOk l => forallb (fun t => text_eqb (token_type (tk_name t)) (token_type n)) l
  | _ => false
  end.

(** Parser and expressions *)
Definition refused (s : text) : bool := match parse s with Raise ValueError => true | _ => false end.

Definition on_parse {A} (s : text) (f : expr -> A) (otherwise : A) : A :=
  match parse s with Ok e => f e | Raise _ => otherwise end.

Definition is_map (s : text) (expected : list (Z * Z)) : bool :=
  on_parse s (fun e => match snd (dist_of rt_plain e s0) with
                       | Ok d => same_dict Z.eqb (get_result_map rt_plain d) expected
                       | Raise _ => false
                       end) false.
Definition is_extreme (mx : bool) (s : text) (v : Z) : bool :=
  on_parse s (fun e => match snd (ext_of rt_plain mx e s0) with Ok x => x =? v | Raise _ => false end) false.
Definition is_max : text -> Z -> bool := is_extreme true.
Definition is_min : text -> Z -> bool := is_extreme false.
Definition is_str (s expected : text) : bool := on_parse s (fun e => text_eqb (expr_str e) expected) false.
Definition no_variables (s : text) : bool :=
  on_parse s (fun e => match contained_variables e with [] => true | _ => false end) false.

Definition variables (s : text) (l : list text) : bool :=
  on_parse s (fun e => forallb (fun n => existsb (text_eqb n) l) (contained_variables e) &&
                       forallb (fun n => existsb (text_eqb n) (contained_variables e)) l) false.

(** The values that roll() can return *)
Fixpoint without_copies (seen l : list Z) : list Z :=
  match l with
  | [] => seen
  | x :: l => without_copies (if existsb (Z.eqb x) seen then seen else x :: seen) l
  end.
Definition rolled (s : text) : option (list Z) :=
  on_parse s (fun e => fold_right (fun wr l => match snd (snd wr), l with
                                               | Ok x, Some l => Some (x :: l)
                                               | _, _ => None
                                               end) (Some []) (roll_of rt_plain e s0)) None.
Definition on_rolled (s : text) (f : list Z -> bool) : bool :=
  match rolled s with Some l => f (without_copies [] l) | None => false end.
Definition rolls_in (s : text) (l : list Z) : bool := on_rolled s (forallb (fun x => existsb (Z.eqb x) l)).
Definition rolls_are (s : text) (l : list Z) : bool :=
  on_rolled s (fun r => forallb (fun x => existsb (Z.eqb x) l) r && forallb (fun x => existsb (Z.eqb x) r) l).
Definition rolls_len (s : text) (n : Z) : bool := on_rolled s (fun r => Z.of_nat (length r) =? n).
Definition rolls_max (s : text) (n : Z) : bool :=
  on_rolled s (fun r => match pymax r with Ok x => x =? n | Raise _ => false end).
Definition rolls_min (s : text) (n : Z) : bool :=
  on_rolled s (fun r => match pymin r with Ok x => x =? n | Raise _ => false end).

Definition roll_zero_division (s : text) : bool :=
  on_parse s (fun e => match roll_of rt_plain e s0 with
                       | [(_, (_, Raise ZeroDivisionError))] => true
                       | _ => false
                       end) false.
Definition ext_zero_division (mx : bool) (s : text) : bool :=
  on_parse s (fun e => match snd (ext_of rt_plain mx e s0) with Raise ZeroDivisionError => true | _ => false end) false.
Definition dist_zero_division (s : text) : bool :=
  on_parse s (fun e => match snd (dist_of rt_plain e s0) with Raise ZeroDivisionError => true | _ => false end) false.

(** dice_expression_helper.get_single_dice_outcome_map *)
Definition die_map (s : text) (expected : list (Z * Z)) : bool :=
  match get_single_dice_outcome_map s with Ok m => same_dict Z.eqb m expected | Raise _ => false end.

(** collections.Counter of the sums of itertools.product(l, repeat=k), as the tests use it *)
Fixpoint sums_of (l : list Z) (k : nat) : list Z :=
  match k with
  | O => [0]
  | S k => flat_map (fun x => map (Z.add x) (sums_of l k)) l
  end.
Definition counted (l : list Z) (k : Z) : list (Z * Z) :=
  fold_left (fun m x => safe_add Z.eqb m x 1) (sums_of l (Z.to_nat k)) [].

(** Interpreter *)
Definition entry {A} (r : res (list (text * A))) (n : text) : option A :=
  match r with Ok l => dget text_eqb l n | Raise _ => None end.
Definition var_map (lines : list text) (n : text) (expected : list (Z * Z)) : bool :=
  match entry (snd (get_probability_distributions rt_plain lines s0)) n with
  | Some d => same_dict Z.eqb (get_result_map rt_plain d) expected
  | None => false
  end.
Definition dict_form (lines : list text) (n : text) (expected : list (Z * pyfloat)) : bool :=
  match entry (snd (get_probability_distributions rt_plain lines s0)) n with
  | Some d => match get_dict_form rt_plain d with Ok m => same_dict float_eqb m expected | Raise _ => false end
  | None => false
  end.
Definition dict_and_average (lines : list text) (n : text) (expected : list (Z * pyfloat)) (average : pyfloat) : bool :=
  match entry (snd (get_probability_distributions rt_plain lines s0)) n with
  | Some d => match get_dict_form rt_plain d, d_average rt_plain d with
              | Ok m, Ok x => same_dict float_eqb m expected && float_eqb x average
              | _, _ => false
              end
  | None => false
  end.
Definition is_cost (lines : list text) (c : Z) : bool :=
  match snd (get_estimated_cost rt_plain lines s0) with Ok x => x =? c | Raise _ => false end.
Definition is_ext (mx : bool) (lines : list text) (n : text) (v : Z) : bool :=
  match (if mx then max_call else min_call) rt_plain lines s0 with
  | (s, Ok d) => match dget text_eqb (read_dict rt_plain s d) n with Some x => x =? v | None => false end
  | (_, Raise _) => false
  end.

(** ProbabilityDistribution *)
Definition made (m : list (Z * Z)) : res (dist rt_plain) := mk_dist_ints rt_plain m.
Definition joined (op : vop) (a b : res (dist rt_plain)) : res (dist rt_plain) :=
  rbind a (fun a => rbind b (fun b => d_binop rt_plain op a b)).
Definition changed (f : forall R, outcome R -> outcome R) (a : res (dist rt_plain)) : res (dist rt_plain) :=
  rmap (d_unop rt_plain (f rt_plain)) a.
Definition on_dist (d : res (dist rt_plain)) (f : dist rt_plain -> bool) : bool := match d with Ok d => f d | Raise _ => false end.
Definition map_is d (expected : list (Z * Z)) : bool := on_dist d (fun d => same_dict Z.eqb (get_result_map rt_plain d) expected).
Definition dict_is d (expected : list (Z * pyfloat)) : bool :=
  on_dist d (fun d => match get_dict_form rt_plain d with Ok m => same_dict float_eqb m expected | Raise _ => false end).
Definition ext_is (mx : bool) d (v : Z) : bool :=
  on_dist d (fun d => match (if mx then d_max rt_plain d else d_min rt_plain d) with Ok x => x =? v | Raise _ => false end).
Definition zero_is d (b : bool) : bool := on_dist d (fun d => Bool.eqb (contains_zero rt_plain d) b).
Definition printed d (s : text) : bool := on_dist d (fun d => text_eqb (d_str rt_plain d) s).

(** ProbabilityOutcome with the constraint sets of the tests: a in 1..4, and a in 1..5 together with a in
    1..2; the result must carry a in 1..2 *)
Definition set_of (l : list (list Z)) : res (cset (rt_c rt_plain)) :=
  new_constraint_set rt_plain
    (fold_left (fun s vs => cs_add (rt_c rt_plain) (CVar $"a" (z_of (rt_z rt_plain) vs)) s) l (cs_empty (rt_c rt_plain))).
Definition outcome_is (op : vop) (v : Z) : bool :=
  match set_of [[1; 2; 3; 4]], set_of [[1; 2; 3; 4; 5]; [1; 2]], set_of [[1; 2]] with
  | Ok a, Ok b, Ok c =>
      match o_combine rt_plain op {| o_value := 1234567890; o_cs := a |} {| o_value := 987654321; o_cs := b |} with
      | Ok o => (o_value o =? v) && text_eqb (cset_str rt_plain (o_cs o)) (cset_str rt_plain c)
      | Raise _ => false
      end
  | _, _, _ => false
  end.

(** GENERATED from here on by tools/gen_repo_tests.py *)

(** ** python_dice/test/syntax/test_abs_syntax.py *)
Definition abs_syntax__abs_syntax_get_token_name : unit := ltac:(passes (text_eqb (token_type T_ABS) ($"ABS"))).  (* :8 *)
Definition abs_syntax__abs_syntax_regex_will_match : unit := ltac:(passes (matches T_ABS true [($"ABS")])).  (* :14 *)
Definition abs_syntax__abs_syntax_regex_will_not_match : unit := ltac:(passes (matches T_ABS false [($"a"); ($"just a ABSA"); ($""); ($"1"); ($" "); ($"-"); ($"+"); ($"("); ($"!=")])).  (* :22 *)

(** ** python_dice/test/syntax/test_add_syntax.py *)
Definition add_syntax__add_get_token_name : unit := ltac:(passes (text_eqb (token_type T_ADD) ($"ADD"))).  (* :8 *)
Definition add_syntax__add_regex_will_match : unit := ltac:(passes (matches T_ADD true [($"+")])).  (* :14 *)
Definition add_syntax__add_regex_will_not_match : unit := ltac:(passes (matches T_ADD false [($"a"); ($"just a string"); ($""); ($"1"); ($" "); ($"-"); ($"*"); ($"(")])).  (* :22 *)

(** ** python_dice/test/syntax/test_assignment_syntax.py *)
Definition assignment_syntax__assignment_get_token_name : unit := ltac:(passes (text_eqb (token_type T_ASSIGNMENT) ($"ASSIGNMENT"))).  (* :8 *)
Definition assignment_syntax__assignment_regex_will_match : unit := ltac:(passes (matches T_ASSIGNMENT true [($"=")])).  (* :14 *)
Definition assignment_syntax__assignment_regex_will_not_match : unit := ltac:(passes (matches T_ASSIGNMENT false [($"a"); ($"just a string"); ($"1d4"); ($"1"); ($" "); ($"=="); ($"*"); ($"("); ($"ad21"); ($"===s")])).  (* :22 *)

(** ** python_dice/test/syntax/test_binary_operator_syntax.py *)
Definition binary_operator_syntax__binary_operator_syntax_get_token_name : unit := ltac:(passes (text_eqb (token_type T_BINARY_OPERATOR) ($"BINARY_OPERATOR"))).  (* :8 *)
Definition binary_operator_syntax__binary_operator_syntax_regex_will_match : unit := ltac:(passes (matches T_BINARY_OPERATOR true [($"=="); ($"!="); ($"<"); ($"<="); ($">"); ($">="); ($"AND"); ($"OR")])).  (* :20 *)
Definition binary_operator_syntax__binary_operator_syntax_regex_will_not_match : unit := ltac:(passes (matches T_BINARY_OPERATOR false [($"a"); ($"just a string"); ($""); ($"1"); ($" "); ($"-"); ($"+"); ($"("); ($"!")])).  (* :31 *)

(** ** python_dice/test/syntax/test_close_parenthesis_syntax.py *)
Definition close_parenthesis_syntax__close_parenthesis_get_token_name : unit := ltac:(passes (text_eqb (token_type T_CLOSE_PARENTHESIS) ($"CLOSE_PARENTHESIS"))).  (* :8 *)
Definition close_parenthesis_syntax__close_parenthesis_regex_will_match : unit := ltac:(passes (matches T_CLOSE_PARENTHESIS true [($")")])).  (* :17 *)
Definition close_parenthesis_syntax___close_parenthesis_regex_will_not_match : unit := ltac:(passes (matches T_CLOSE_PARENTHESIS false [($"a"); ($"just a string"); ($""); ($"1"); ($" "); ($"+"); ($"*"); ($"-"); ($"(")])).  (* :28 *)

(** ** python_dice/test/syntax/test_comma_syntax.py *)
Definition comma_syntax__comma_get_token_name : unit := ltac:(passes (text_eqb (token_type T_COMMA) ($"COMMA"))).  (* :8 *)
Definition comma_syntax__comma_regex_will_match : unit := ltac:(passes (matches T_COMMA true [($",")])).  (* :14 *)
Definition comma_syntax__comma_regex_will_not_match : unit := ltac:(passes (matches T_COMMA false [($"a"); ($"just a string"); ($"1d4"); ($"1"); ($" "); ($"-"); ($"*"); ($"("); ($"ad21")])).  (* :22 *)

(** ** python_dice/test/syntax/test_constant_binary_syntax.py *)
Definition constant_binary_syntax__constant_binary_get_token_name : unit := ltac:(passes (text_eqb (token_type T_CONSTANT_BINARY) ($"CONSTANT_BINARY"))).  (* :8 *)
Definition constant_binary_syntax__constant_binary_regex_will_match : unit := ltac:(passes (matches T_CONSTANT_BINARY true [($"True"); ($"False")])).  (* :20 *)
Definition constant_binary_syntax__constant_binary_regex_will_not_match : unit := ltac:(passes (matches T_CONSTANT_BINARY false [($"a"); ($"just a string"); ($"1"); ($"0"); ($"!"); ($"false"); ($"Falses"); ($"aTrue"); ($"true")])).  (* :31 *)

(** ** python_dice/test/syntax/test_constant_integer_syntax.py *)
Definition constant_integer_syntax__constant_integers_get_token_name : unit := ltac:(passes (text_eqb (token_type T_CONSTANT_INTEGER) ($"CONSTANT_INTEGER"))).  (* :8 *)
Definition constant_integer_syntax__constant_integer_regex_will_match : unit := ltac:(passes (matches T_CONSTANT_INTEGER true [($"-31982473918274"); ($"-3"); ($"0"); ($"1"); ($"0003"); ($"12"); ($"41"); ($"87"); ($"902"); ($"12983"); ($"15412"); ($"1000000000000000000000000000")])).  (* :17 *)
Definition constant_integer_syntax__constant_integer_regex_will_not_match : unit := ltac:(passes (matches T_CONSTANT_INTEGER false [($"a"); ($"just a string"); ($""); ($" ")])).  (* :41 *)

(** ** python_dice/test/syntax/test_dice_syntax.py *)
Definition dice_syntax__dice_get_token_name : unit := ltac:(passes (text_eqb (token_type T_DICE) ($"DICE"))).  (* :8 *)
Definition dice_syntax__dice_regex_will_match : unit := ltac:(passes (matches T_DICE true [($"2d6"); ($"10d4"); ($"100d0"); ($"1d90"); ($"0d210321314"); ($"12652125d12312"); ($"d6"); ($"3d%"); ($"d%"); ($"dF"); ($"10dF"); ($"2dF"); ($"d[1]"); ($"d[-1]"); ($"d[ 1,2,3,4]"); ($"d[ 1--6,2,3,4*3]"); ($"d[-1 , -2--2, 1, 1]"); ($"2d[0,1, 2, -1]"); ($"2d[0,1, 2*5, -1]"); ($"5d[1,]")])).  (* :18 *)
Definition dice_syntax__dice_regex_will_not_match : unit := ltac:(passes (matches T_DICE false [($"a"); ($"just a string"); ($"1da"); ($"1"); ($" "); ($"-"); ($"*"); ($"("); ($"ad21"); ($"5d"); ($"5d"); ($"5d[]"); ($"1d[1, 2, 3"); ($"d[1,,2]"); ($"-1d[1,2]"); ($"1d[1,-2*-2]"); ($"1d[1-,2]")])).  (* :47 *)

(** ** python_dice/test/syntax/test_drop_keep_syntax.py *)
Definition drop_keep_syntax__drop_keep_get_token_name : unit := ltac:(passes (text_eqb (token_type T_DROP_KEEP_DICE) ($"DROP_KEEP_DICE"))).  (* :8 *)
Definition drop_keep_syntax__drop_keep_regex_will_match : unit := ltac:(passes (matches T_DROP_KEEP_DICE true [($"2d6d2"); ($"10d4k1"); ($"2d30k1"); ($"12d90k4"); ($"3d210321k314"); ($"12652125d12k312"); ($"3d%k1"); ($"2d%d10"); ($"10dFd3"); ($"4dFk3"); ($"4d[1]k1"); ($"4d[-1]d3"); ($"10d[ 1,2*4,3*2,4]k3"); ($"10d[ 1-4]k3"); ($"10d[-4--1*3]k3"); ($"2d[-1 , 22, 1, 1]d1"); ($"80d[0,1, 2, -1]k10"); ($"d[1,]d2")])).  (* :18 *)
Definition drop_keep_syntax__drop_keep_regex_will_not_match : unit := ltac:(passes (matches T_DROP_KEEP_DICE false [($"a"); ($"just a string"); ($"1da"); ($"1"); ($" "); ($"-"); ($"*"); ($"("); ($"ad21"); ($"2d2"); ($"d210321314"); ($"d[1]"); ($"d[]k3"); ($"d[ 1,,3,4]d6"); ($"d[-1 , 2-2, 1, 1]32"); ($"10d[-1*-1]d2"); ($"10d[--1]d2"); ($"10d[-1-]d2"); ($"2d[0,1, 2, -1]"); ($"5d[1,d3")])).  (* :45 *)

(** ** python_dice/test/syntax/test_integer_division_syntax.py *)
Definition integer_division_syntax__integer_division_get_token_name : unit := ltac:(passes (text_eqb (token_type T_INTEGER_DIVISION) ($"INTEGER_DIVISION"))).  (* :8 *)
Definition integer_division_syntax__integer_division_regex_will_match : unit := ltac:(passes (matches T_INTEGER_DIVISION true [($"//")])).  (* :17 *)
Definition integer_division_syntax__integer_division_regex_will_not_match : unit := ltac:(passes (matches T_INTEGER_DIVISION false [($"a"); ($"just a string"); ($""); ($"1"); ($" "); ($"-"); ($"+"); ($"("); ($"/")])).  (* :28 *)

(** ** python_dice/test/syntax/test_minmax_syntax.py *)
Definition minmax_syntax__min_max_get_token_name : unit := ltac:(passes (text_eqb (token_type T_MINMAX) ($"MINMAX"))).  (* :8 *)
Definition minmax_syntax__min_max_regex_will_match : unit := ltac:(passes (matches T_MINMAX true [($"MAX"); ($"MIN")])).  (* :14 *)
Definition minmax_syntax__min_max_regex_will_not_match : unit := ltac:(passes (matches T_MINMAX false [($"a"); ($"just a string"); ($"1d4"); ($"1"); ($" "); ($"-"); ($"*"); ($"("); ($"ad21"); ($"MAXAMA"); ($"AMIN"); ($"max"); ($"min")])).  (* :22 *)

(** ** python_dice/test/syntax/test_multiply_syntax.py *)
Definition multiply_syntax__multiply_get_token_name : unit := ltac:(passes (text_eqb (token_type T_MULTIPLY) ($"MULTIPLY"))).  (* :8 *)
Definition multiply_syntax__multiply_regex_will_match : unit := ltac:(passes (matches T_MULTIPLY true [($"*")])).  (* :14 *)
Definition multiply_syntax__multiply_regex_will_not_match : unit := ltac:(passes (matches T_MULTIPLY false [($"a"); ($"just a string"); ($""); ($"1"); ($" "); ($"-"); ($"+"); ($"(")])).  (* :22 *)

(** ** python_dice/test/syntax/test_name_syntax.py *)
Definition name_syntax__name_syntax_get_token_name : unit := ltac:(passes (text_eqb (token_type T_NAME) ($"NAME"))).  (* :8 *)
Definition name_syntax__name_syntax_regex_will_match : unit := ltac:(passes (matches T_NAME true [($"apple"); ($"hi"); ($"i"); ($"abcdefghijklmnopqrstuvwxyz"); ($"two_words")])).  (* :14 *)
Definition name_syntax__name_syntax_regex_will_not_match : unit := ltac:(passes (matches T_NAME false [($"an1"); ($"abbaGold"); ($""); ($"1"); ($" "); ($"-"); ($"+"); ($"("); ($"!=")])).  (* :22 *)

(** ** python_dice/test/syntax/test_not_syntax.py *)
Definition not_syntax__not_syntax_get_token_name : unit := ltac:(passes (text_eqb (token_type T_NOT) ($"NOT"))).  (* :8 *)
Definition not_syntax__not_syntax_regex_will_match : unit := ltac:(passes (matches T_NOT true [($"!")])).  (* :14 *)
Definition not_syntax__not_syntax_regex_will_not_match : unit := ltac:(passes (matches T_NOT false [($"a"); ($"just a string"); ($""); ($"1"); ($" "); ($"-"); ($"+"); ($"("); ($"!=")])).  (* :22 *)

(** ** python_dice/test/syntax/test_open_parenthesis_syntax.py *)
Definition open_parenthesis_syntax__open_parenthesis_get_token_name : unit := ltac:(passes (text_eqb (token_type T_OPEN_PARENTHESIS) ($"OPEN_PARENTHESIS"))).  (* :8 *)
Definition open_parenthesis_syntax__open_parenthesis_regex_will_match : unit := ltac:(passes (matches T_OPEN_PARENTHESIS true [($"(")])).  (* :17 *)
Definition open_parenthesis_syntax___open_parenthesis_regex_will_not_match : unit := ltac:(passes (matches T_OPEN_PARENTHESIS false [($"a"); ($"just a string"); ($""); ($"1"); ($" "); ($"+"); ($"*"); ($"-"); ($")")])).  (* :28 *)

(** ** python_dice/test/syntax/test_subtract_syntax.py *)
Definition subtract_syntax__subtract_get_token_name : unit := ltac:(passes (text_eqb (token_type T_SUBTRACT) ($"SUBTRACT"))).  (* :8 *)
Definition subtract_syntax__subtract_regex_will_match : unit := ltac:(passes (matches T_SUBTRACT true [($"-")])).  (* :14 *)
Definition subtract_syntax__subtract_regex_will_not_match : unit := ltac:(passes (matches T_SUBTRACT false [($"a"); ($"just a string"); ($""); ($"1"); ($" "); ($"+"); ($"*"); ($"(")])).  (* :22 *)

(** ** python_dice/test/syntax/test_var_syntax.py *)
Definition var_syntax__var_syntax_get_token_name : unit := ltac:(passes (text_eqb (token_type T_VAR) ($"VAR"))).  (* :8 *)
Definition var_syntax__var_syntax_regex_will_match : unit := ltac:(passes (matches T_VAR true [($"VAR")])).  (* :14 *)
Definition var_syntax__var_syntax_regex_will_not_match : unit := ltac:(passes (matches T_VAR false [($"an1"); ($"abbaGold"); ($"var"); ($"1"); ($" "); ($"-"); ($"+"); ($"("); ($"!=")])).  (* :22 *)

(** ** python_dice/test/test_python_dice_lexer.py *)
Definition python_dice_lexer__lexer_error_single_line : unit := ltac:(passes (lex_message ($"2d2k1 * (4d[3*1,2-3,7]d1 + 1d[1,2,-3--8]) // d%kk4 + 1d3") ($"2d2k1 * (4d[3*1,2-3,7]d1 + 1d[1,2,-3--8]) // d%kk4 + 1d3" ++ [newline] ++ $"-----------------------------------------------^"))).  (* :11 *)
Definition python_dice_lexer__lexer_error_multi_line : unit := ltac:(passes (lex_message ($"VAR apple = 1d4 - 1" ++ [newline] ++ $"VAR banana = 1d8 / 2" ++ [newline] ++ $"VAR orange = 1d8 // 2") ($"VAR banana = 1d8 / 2" ++ [newline] ++ $"-----------------^"))).  (* :22 *)
Definition python_dice_lexer__lexer_error_end_of_line : unit := ltac:(passes (lex_message ($"VAR apple = 1d4 - 1" ++ [newline] ++ $"VAR orange = 1d8 // 2" ++ [newline] ++ $"VAR banana = 1d8 /" ++ [newline] ++ $"VAR grape = 5d8 ** 2" ++ [newline] ++ $"") ($"VAR banana = 1d8 /" ++ [newline] ++ $"-----------------^"))).  (* :29 *)
Definition python_dice_lexer__lexer_error_end_of_first_line : unit := ltac:(passes (lex_message ($"VAR apple = 1d4 /" ++ [newline] ++ $"1d8 // 2") ($"VAR apple = 1d4 /" ++ [newline] ++ $"----------------^"))).  (* :38 *)
Definition python_dice_lexer__lex_constant_integer : unit := ltac:(passes (token_texts ($"1 3 4 5 -10 0 -10000000") [($"1"); ($"3"); ($"4"); ($"5"); ($"-10"); ($"0"); ($"-10000000")])).  (* :45 *)
Definition python_dice_lexer__lex_constant_integer_2 : unit := ltac:(passes (all_tokens ($"1 3 4 5 -10 0 -10000000") T_CONSTANT_INTEGER)).  (* :45 *)
Definition python_dice_lexer__lex_add : unit := ltac:(passes (token_names ($"1 + 4 + -10 + -10000000") [T_CONSTANT_INTEGER; T_ADD; T_CONSTANT_INTEGER; T_ADD; T_CONSTANT_INTEGER; T_ADD; T_CONSTANT_INTEGER])).  (* :54 *)
Definition python_dice_lexer__lex_add_2 : unit := ltac:(passes (token_texts ($"1 + 4 + -10 + -10000000") [($"1"); ($"+"); ($"4"); ($"+"); ($"-10"); ($"+"); ($"-10000000")])).  (* :54 *)
Definition python_dice_lexer__lex_subtract : unit := ltac:(passes (token_names ($"1 - 4 - -10 - -10000000") [T_CONSTANT_INTEGER; T_SUBTRACT; T_CONSTANT_INTEGER; T_SUBTRACT; T_CONSTANT_INTEGER; T_SUBTRACT; T_CONSTANT_INTEGER])).  (* :74 *)
Definition python_dice_lexer__lex_subtract_2 : unit := ltac:(passes (token_texts ($"1 - 4 - -10 - -10000000") [($"1"); ($"-"); ($"4"); ($"-"); ($"-10"); ($"-"); ($"-10000000")])).  (* :74 *)
Definition python_dice_lexer__lex_multiply : unit := ltac:(passes (token_names ($"1 * 4 * -10 * -10000000") [T_CONSTANT_INTEGER; T_MULTIPLY; T_CONSTANT_INTEGER; T_MULTIPLY; T_CONSTANT_INTEGER; T_MULTIPLY; T_CONSTANT_INTEGER])).  (* :94 *)
Definition python_dice_lexer__lex_multiply_2 : unit := ltac:(passes (token_texts ($"1 * 4 * -10 * -10000000") [($"1"); ($"*"); ($"4"); ($"*"); ($"-10"); ($"*"); ($"-10000000")])).  (* :94 *)
Definition python_dice_lexer__lex_dice : unit := ltac:(passes (token_names ($"d4 * 4d6 + 10d1 + 2d% - -10000000") [T_DICE; T_MULTIPLY; T_DICE; T_ADD; T_DICE; T_ADD; T_DICE; T_SUBTRACT; T_CONSTANT_INTEGER])).  (* :114 *)
Definition python_dice_lexer__lex_dice_2 : unit := ltac:(passes (token_texts ($"d4 * 4d6 + 10d1 + 2d% - -10000000") [($"d4"); ($"*"); ($"4d6"); ($"+"); ($"10d1"); ($"+"); ($"2d%"); ($"-"); ($"-10000000")])).  (* :114 *)
Definition python_dice_lexer__lex_parenthesis : unit := ltac:(passes (token_names ($"((d4 * 4d6) + 10d1 + 2d%) - -10000000") [T_OPEN_PARENTHESIS; T_OPEN_PARENTHESIS; T_DICE; T_MULTIPLY; T_DICE; T_CLOSE_PARENTHESIS; T_ADD; T_DICE; T_ADD; T_DICE; T_CLOSE_PARENTHESIS; T_SUBTRACT; T_CONSTANT_INTEGER])).  (* :136 *)
Definition python_dice_lexer__lex_parenthesis_2 : unit := ltac:(passes (token_texts ($"((d4 * 4d6) + 10d1 + 2d%) - -10000000") [($"("); ($"("); ($"d4"); ($"*"); ($"4d6"); ($")"); ($"+"); ($"10d1"); ($"+"); ($"2d%"); ($")"); ($"-"); ($"-10000000")])).  (* :136 *)
Definition python_dice_lexer__lex_constant_binary : unit := ltac:(passes (token_names ($"((d4 * True) + 10d1 + 2d%) - False") [T_OPEN_PARENTHESIS; T_OPEN_PARENTHESIS; T_DICE; T_MULTIPLY; T_CONSTANT_BINARY; T_CLOSE_PARENTHESIS; T_ADD; T_DICE; T_ADD; T_DICE; T_CLOSE_PARENTHESIS; T_SUBTRACT; T_CONSTANT_BINARY])).  (* :176 *)
Definition python_dice_lexer__lex_constant_binary_2 : unit := ltac:(passes (token_texts ($"((d4 * True) + 10d1 + 2d%) - False") [($"("); ($"("); ($"d4"); ($"*"); ($"True"); ($")"); ($"+"); ($"10d1"); ($"+"); ($"2d%"); ($")"); ($"-"); ($"False")])).  (* :176 *)
Definition python_dice_lexer__lex_not : unit := ltac:(passes (token_names ($"!(!d4 + True)") [T_NOT; T_OPEN_PARENTHESIS; T_NOT; T_DICE; T_ADD; T_CONSTANT_BINARY; T_CLOSE_PARENTHESIS])).  (* :216 *)
Definition python_dice_lexer__lex_not_2 : unit := ltac:(passes (token_texts ($"!(!d4 + True)") [($"!"); ($"("); ($"!"); ($"d4"); ($"+"); ($"True"); ($")")])).  (* :216 *)
Definition python_dice_lexer__lex_equals : unit := ltac:(passes (token_names ($"d4 == True") [T_DICE; T_BINARY_OPERATOR; T_CONSTANT_BINARY])).  (* :233 *)
Definition python_dice_lexer__lex_equals_2 : unit := ltac:(passes (token_texts ($"d4 == True") [($"d4"); ($"=="); ($"True")])).  (* :233 *)
Definition python_dice_lexer__lex_not_equals : unit := ltac:(passes (token_names ($"d4 != True") [T_DICE; T_BINARY_OPERATOR; T_CONSTANT_BINARY])).  (* :242 *)
Definition python_dice_lexer__lex_not_equals_2 : unit := ltac:(passes (token_texts ($"d4 != True") [($"d4"); ($"!="); ($"True")])).  (* :242 *)
Definition python_dice_lexer__lex_less_than : unit := ltac:(passes (token_names ($"d4 < True <= 1d3") [T_DICE; T_BINARY_OPERATOR; T_CONSTANT_BINARY; T_BINARY_OPERATOR; T_DICE])).  (* :251 *)
Definition python_dice_lexer__lex_less_than_2 : unit := ltac:(passes (token_texts ($"d4 < True <= 1d3") [($"d4"); ($"<"); ($"True"); ($"<="); ($"1d3")])).  (* :251 *)
Definition python_dice_lexer__lex_greater_than : unit := ltac:(passes (token_names ($"d4 > True >= 1d3") [T_DICE; T_BINARY_OPERATOR; T_CONSTANT_BINARY; T_BINARY_OPERATOR; T_DICE])).  (* :260 *)
Definition python_dice_lexer__lex_greater_than_2 : unit := ltac:(passes (token_texts ($"d4 > True >= 1d3") [($"d4"); ($">"); ($"True"); ($">="); ($"1d3")])).  (* :260 *)
Definition python_dice_lexer__lex_and : unit := ltac:(passes (token_names ($"d4 AND True") [T_DICE; T_BINARY_OPERATOR; T_CONSTANT_BINARY])).  (* :269 *)
Definition python_dice_lexer__lex_and_2 : unit := ltac:(passes (token_texts ($"d4 AND True") [($"d4"); ($"AND"); ($"True")])).  (* :269 *)
Definition python_dice_lexer__lex_or : unit := ltac:(passes (token_names ($"d4 OR True") [T_DICE; T_BINARY_OPERATOR; T_CONSTANT_BINARY])).  (* :278 *)
Definition python_dice_lexer__lex_or_2 : unit := ltac:(passes (token_texts ($"d4 OR True") [($"d4"); ($"OR"); ($"True")])).  (* :278 *)
Definition python_dice_lexer__lex_max : unit := ltac:(passes (token_names ($"MAX(d4, 3)") [T_MINMAX; T_OPEN_PARENTHESIS; T_DICE; T_COMMA; T_CONSTANT_INTEGER; T_CLOSE_PARENTHESIS])).  (* :287 *)
Definition python_dice_lexer__lex_max_2 : unit := ltac:(passes (token_texts ($"MAX(d4, 3)") [($"MAX"); ($"("); ($"d4"); ($","); ($"3"); ($")")])).  (* :287 *)
Definition python_dice_lexer__lex_min : unit := ltac:(passes (token_names ($"MIN(4, 1d6)") [T_MINMAX; T_OPEN_PARENTHESIS; T_CONSTANT_INTEGER; T_COMMA; T_DICE; T_CLOSE_PARENTHESIS])).  (* :303 *)
Definition python_dice_lexer__lex_min_2 : unit := ltac:(passes (token_texts ($"MIN(4, 1d6)") [($"MIN"); ($"("); ($"4"); ($","); ($"1d6"); ($")")])).  (* :303 *)
Definition python_dice_lexer__lex_abs : unit := ltac:(passes (token_names ($"ABS(1d6)") [T_ABS; T_OPEN_PARENTHESIS; T_DICE; T_CLOSE_PARENTHESIS])).  (* :319 *)
Definition python_dice_lexer__lex_abs_2 : unit := ltac:(passes (token_texts ($"ABS(1d6)") [($"ABS"); ($"("); ($"1d6"); ($")")])).  (* :319 *)
Definition python_dice_lexer__lex_var : unit := ltac:(passes (token_names ($"VAR apple = d4") [T_VAR; T_NAME; T_ASSIGNMENT; T_DICE])).  (* :328 *)
Definition python_dice_lexer__lex_var_2 : unit := ltac:(passes (token_texts ($"VAR apple = d4") [($"VAR"); ($"apple"); ($"="); ($"d4")])).  (* :328 *)
Definition python_dice_lexer__lex_drop : unit := ltac:(passes (token_names ($"2d10 >= 4d4d1") [T_DICE; T_BINARY_OPERATOR; T_DROP_KEEP_DICE])).  (* :334 *)
Definition python_dice_lexer__lex_drop_2 : unit := ltac:(passes (token_texts ($"2d10 >= 4d4d1") [($"2d10"); ($">="); ($"4d4d1")])).  (* :334 *)
Definition python_dice_lexer__lex_keep : unit := ltac:(passes (token_names ($"4 <= 2d20k1") [T_CONSTANT_INTEGER; T_BINARY_OPERATOR; T_DROP_KEEP_DICE])).  (* :343 *)
Definition python_dice_lexer__lex_keep_2 : unit := ltac:(passes (token_texts ($"4 <= 2d20k1") [($"4"); ($"<="); ($"2d20k1")])).  (* :343 *)
Definition python_dice_lexer__lex_fate_dice : unit := ltac:(passes (token_names ($"4 + 2dF") [T_CONSTANT_INTEGER; T_ADD; T_DICE])).  (* :352 *)
Definition python_dice_lexer__lex_fate_dice_2 : unit := ltac:(passes (token_texts ($"4 + 2dF") [($"4"); ($"+"); ($"2dF")])).  (* :352 *)
Definition python_dice_lexer__lex_custom_dice : unit := ltac:(passes (token_names ($"2d[1,5*2,9]") [T_DICE])).  (* :358 *)
Definition python_dice_lexer__lex_custom_dice_2 : unit := ltac:(passes (token_texts ($"2d[1,5*2,9]") [($"2d[1,5*2,9]")])).  (* :358 *)
Definition python_dice_lexer__lex_fate_keep_dice : unit := ltac:(passes (token_names ($"4 != 2dFk1") [T_CONSTANT_INTEGER; T_BINARY_OPERATOR; T_DROP_KEEP_DICE])).  (* :364 *)
Definition python_dice_lexer__lex_fate_keep_dice_2 : unit := ltac:(passes (token_texts ($"4 != 2dFk1") [($"4"); ($"!="); ($"2dFk1")])).  (* :364 *)
Definition python_dice_lexer__lex_fate_drop_dice : unit := ltac:(passes (token_names ($"dFd1") [T_DROP_KEEP_DICE])).  (* :373 *)
Definition python_dice_lexer__lex_fate_drop_dice_2 : unit := ltac:(passes (token_texts ($"dFd1") [($"dFd1")])).  (* :373 *)
Definition python_dice_lexer__lex_percentile_dice : unit := ltac:(passes (token_names ($"2d%") [T_DICE])).  (* :379 *)
Definition python_dice_lexer__lex_percentile_dice_2 : unit := ltac:(passes (token_texts ($"2d%") [($"2d%")])).  (* :379 *)
Definition python_dice_lexer__lex_percentile_dice_keep : unit := ltac:(passes (token_names ($"10d%k1") [T_DROP_KEEP_DICE])).  (* :385 *)
Definition python_dice_lexer__lex_percentile_dice_keep_2 : unit := ltac:(passes (token_texts ($"10d%k1") [($"10d%k1")])).  (* :385 *)
Definition python_dice_lexer__lex_percentile_dice_drop : unit := ltac:(passes (token_names ($"100d%d99") [T_DROP_KEEP_DICE])).  (* :391 *)
Definition python_dice_lexer__lex_percentile_dice_drop_2 : unit := ltac:(passes (token_texts ($"100d%d99") [($"100d%d99")])).  (* :391 *)
Definition python_dice_lexer__lex_custom_keep_drop_dice : unit := ltac:(passes (token_names ($"2d[1,-1--7*2,-3-6]k1 <= 2d[1,2-3,3]d1") [T_DROP_KEEP_DICE; T_BINARY_OPERATOR; T_DROP_KEEP_DICE])).  (* :397 *)
Definition python_dice_lexer__lex_custom_keep_drop_dice_2 : unit := ltac:(passes (token_texts ($"2d[1,-1--7*2,-3-6]k1 <= 2d[1,2-3,3]d1") [($"2d[1,-1--7*2,-3-6]k1"); ($"<="); ($"2d[1,2-3,3]d1")])).  (* :397 *)

(** ** python_dice/test/test_python_dice_parser.py *)
Definition python_dice_parser__parser_error : unit := ltac:(passes (refused ($"2d30 1"))).  (* :29 *)
Definition python_dice_parser__parser_error_2 : unit := ltac:(passes (refused ($"(((d2) + 1 ) + 1 ) + 1)"))).  (* :29 *)
Definition python_dice_parser__parser_constant_integer : unit := ltac:(passes (is_max ($"215678284") 215678284)).  (* :33 *)
Definition python_dice_parser__parser_constant_integer_2 : unit := ltac:(passes (is_min ($"215678284") 215678284)).  (* :33 *)
Definition python_dice_parser__parser_constant_integer_3 : unit := ltac:(passes (is_map ($"215678284") [(215678284, 1)])).  (* :33 *)
Definition python_dice_parser__parser_constant_integer_4 : unit := ltac:(passes (rolls_in ($"215678284") [215678284])).  (* :33 *)
Definition python_dice_parser__parser_add : unit := ltac:(passes (is_max ($"3 + -20") (-17))).  (* :38 *)
Definition python_dice_parser__parser_add_2 : unit := ltac:(passes (is_min ($"3 + -20") (-17))).  (* :38 *)
Definition python_dice_parser__parser_add_3 : unit := ltac:(passes (is_map ($"3 + -20") [((-17), 1)])).  (* :38 *)
Definition python_dice_parser__parser_add_4 : unit := ltac:(passes (rolls_in ($"3 + -20") [(-17)])).  (* :38 *)
Definition python_dice_parser__parser_subtract : unit := ltac:(passes (is_max ($"3 - -20") 23)).  (* :43 *)
Definition python_dice_parser__parser_subtract_2 : unit := ltac:(passes (is_min ($"3 - -20") 23)).  (* :43 *)
Definition python_dice_parser__parser_subtract_3 : unit := ltac:(passes (is_map ($"3 - -20") [(23, 1)])).  (* :43 *)
Definition python_dice_parser__parser_subtract_4 : unit := ltac:(passes (rolls_in ($"3 - -20") [23])).  (* :43 *)
Definition python_dice_parser__parser_add_and_subtract : unit := ltac:(passes (is_max ($"3 - -20 + 2") 25)).  (* :48 *)
Definition python_dice_parser__parser_add_and_subtract_2 : unit := ltac:(passes (is_min ($"3 - -20 + 2") 25)).  (* :48 *)
Definition python_dice_parser__parser_add_and_subtract_3 : unit := ltac:(passes (is_map ($"3 - -20 + 2") [(25, 1)])).  (* :48 *)
Definition python_dice_parser__parser_add_and_subtract_4 : unit := ltac:(passes (rolls_in ($"3 - -20 + 2") [25])).  (* :48 *)
Definition python_dice_parser__parser_multiply : unit := ltac:(passes (is_max ($"3 * -20 + 2") (-58))).  (* :53 *)
Definition python_dice_parser__parser_multiply_2 : unit := ltac:(passes (is_min ($"3 * -20 + 2") (-58))).  (* :53 *)
Definition python_dice_parser__parser_multiply_3 : unit := ltac:(passes (is_map ($"3 * -20 + 2") [((-58), 1)])).  (* :53 *)
Definition python_dice_parser__parser_multiply_4 : unit := ltac:(passes (rolls_in ($"3 * -20 + 2") [(-58)])).  (* :53 *)
Definition python_dice_parser__parser_multiply_order_of_operation : unit := ltac:(passes (is_max ($"2 - 3 * -20") 62)).  (* :58 *)
Definition python_dice_parser__parser_multiply_order_of_operation_2 : unit := ltac:(passes (is_min ($"2 - 3 * -20") 62)).  (* :58 *)
Definition python_dice_parser__parser_multiply_order_of_operation_3 : unit := ltac:(passes (is_map ($"2 - 3 * -20") [(62, 1)])).  (* :58 *)
Definition python_dice_parser__parser_multiply_order_of_operation_4 : unit := ltac:(passes (rolls_in ($"2 - 3 * -20") [62])).  (* :58 *)
Definition python_dice_parser__parser_integer_division : unit := ltac:(passes (is_max ($"37 // 4 + 2") 11)).  (* :63 *)
Definition python_dice_parser__parser_integer_division_2 : unit := ltac:(passes (is_min ($"37 // 4 + 2") 11)).  (* :63 *)
Definition python_dice_parser__parser_integer_division_3 : unit := ltac:(passes (is_map ($"37 // 4 + 2") [(11, 1)])).  (* :63 *)
Definition python_dice_parser__parser_integer_division_4 : unit := ltac:(passes (rolls_in ($"37 // 4 + 2") [11])).  (* :63 *)
Definition python_dice_parser__parser_integer_division_order_of_operation : unit := ltac:(passes (is_max ($"62 // 3 * 2") 40)).  (* :68 *)
Definition python_dice_parser__parser_integer_division_order_of_operation_2 : unit := ltac:(passes (is_min ($"62 // 3 * 2") 40)).  (* :68 *)
Definition python_dice_parser__parser_integer_division_order_of_operation_3 : unit := ltac:(passes (is_map ($"62 // 3 * 2") [(40, 1)])).  (* :68 *)
Definition python_dice_parser__parser_integer_division_order_of_operation_4 : unit := ltac:(passes (rolls_in ($"62 // 3 * 2") [40])).  (* :68 *)
Definition python_dice_parser__parser_integer_division_order_of_operation_two : unit := ltac:(passes (is_max ($"2 * 62 // 3") 41)).  (* :73 *)
Definition python_dice_parser__parser_integer_division_order_of_operation_two_2 : unit := ltac:(passes (is_min ($"2 * 62 // 3") 41)).  (* :73 *)
Definition python_dice_parser__parser_integer_division_order_of_operation_two_3 : unit := ltac:(passes (is_map ($"2 * 62 // 3") [(41, 1)])).  (* :73 *)
Definition python_dice_parser__parser_integer_division_order_of_operation_two_4 : unit := ltac:(passes (rolls_in ($"2 * 62 // 3") [41])).  (* :73 *)
Definition python_dice_parser__parser_dice : unit := ltac:(passes (is_max ($"2d4 * 2 // 3") 5)).  (* :78 *)
Definition python_dice_parser__parser_dice_2 : unit := ltac:(passes (is_min ($"2d4 * 2 // 3") 1)).  (* :78 *)
Definition python_dice_parser__parser_dice_3 : unit := ltac:(passes (is_map ($"2d4 * 2 // 3") [(1, 1); (2, 5); (3, 4); (4, 5); (5, 1)])).  (* :78 *)
Definition python_dice_parser__parser_dice_4 : unit := ltac:(passes (rolls_in ($"2d4 * 2 // 3") [1; 2; 3; 4; 5])).  (* :78 *)
Definition python_dice_parser__parser_dice_add : unit := ltac:(passes (is_max ($"2d4 + d2") 10)).  (* :83 *)
Definition python_dice_parser__parser_dice_add_2 : unit := ltac:(passes (is_min ($"2d4 + d2") 3)).  (* :83 *)
Definition python_dice_parser__parser_dice_add_3 : unit := ltac:(passes (is_map ($"2d4 + d2") [(3, 1); (4, 3); (5, 5); (6, 7); (7, 7); (8, 5); (9, 3); (10, 1)])).  (* :83 *)
Definition python_dice_parser__parser_dice_add_4 : unit := ltac:(passes (rolls_in ($"2d4 + d2") [3; 4; 5; 6; 7; 8; 9; 10])).  (* :83 *)
Definition python_dice_parser__parser_dice_subtract : unit := ltac:(passes (is_max ($"2d4 - d2") 7)).  (* :88 *)
Definition python_dice_parser__parser_dice_subtract_2 : unit := ltac:(passes (is_min ($"2d4 - d2") 0)).  (* :88 *)
Definition python_dice_parser__parser_dice_subtract_3 : unit := ltac:(passes (is_map ($"2d4 - d2") [(0, 1); (1, 3); (2, 5); (3, 7); (4, 7); (5, 5); (6, 3); (7, 1)])).  (* :88 *)
Definition python_dice_parser__parser_dice_subtract_4 : unit := ltac:(passes (rolls_in ($"2d4 - d2") [0; 1; 2; 3; 4; 5; 6; 7])).  (* :88 *)
Definition python_dice_parser__parser_dice_multiply : unit := ltac:(passes (is_max ($"2d4 * d2") 16)).  (* :93 *)
Definition python_dice_parser__parser_dice_multiply_2 : unit := ltac:(passes (is_min ($"2d4 * d2") 2)).  (* :93 *)
Definition python_dice_parser__parser_dice_multiply_3 : unit := ltac:(passes (is_map ($"2d4 * d2") [(2, 1); (4, 4); (3, 2); (6, 5); (8, 4); (5, 4); (10, 4); (12, 3); (7, 2); (14, 2); (16, 1)])).  (* :93 *)
Definition python_dice_parser__parser_dice_multiply_4 : unit := ltac:(passes (rolls_in ($"2d4 * d2") [2; 4; 3; 6; 8; 5; 10; 12; 7; 14; 16])).  (* :93 *)
Definition python_dice_parser__parser_dice_division : unit := ltac:(passes (is_max ($"2d4 // d2") 8)).  (* :110 *)
Definition python_dice_parser__parser_dice_division_2 : unit := ltac:(passes (is_min ($"2d4 // d2") 1)).  (* :110 *)
Definition python_dice_parser__parser_dice_division_3 : unit := ltac:(passes (is_map ($"2d4 // d2") [(2, 8); (1, 3); (3, 7); (4, 4); (5, 4); (6, 3); (7, 2); (8, 1)])).  (* :110 *)
Definition python_dice_parser__parser_dice_division_4 : unit := ltac:(passes (rolls_in ($"2d4 // d2") [2; 1; 3; 4; 5; 6; 7; 8])).  (* :110 *)
Definition python_dice_parser__parser_dice_full_test : unit := ltac:(passes (is_max ($"2d4 * d2 + 6d6 // 1d4") 52)).  (* :115 *)
Definition python_dice_parser__parser_dice_full_test_2 : unit := ltac:(passes (is_min ($"2d4 * d2 + 6d6 // 1d4") 3)).  (* :115 *)
Definition python_dice_parser__parser_dice_full_test_3 : unit := ltac:(passes (is_map ($"2d4 * d2 + 6d6 // 1d4") [(3, 7); (4, 497); (5, 5474); (6, 25810); (7, 73494); (8, 150534); (9, 242121); (10, 322235); (11, 369126); (12, 382604); (13, 375640); (14, 363690); (15, 353106); (16, 335747); (17, 311542); (18, 281505); (19, 250023); (20, 220599); (21, 195160); (22, 172718); (23, 154828); (24, 143472); (25, 135890); (26, 130051); (27, 124406); (28, 117875); (29, 110298); (30, 101872); (31, 92682); (32, 82787); (33, 72395); (34, 61864); (35, 51618); (36, 42025); (37, 33348); (38, 25747); (39, 19290); (40, 13981); (41, 9764); (42, 6542); (43, 4184); (44, 2539); (45, 1452); (46, 775); (47, 382); (48, 171); (49, 68); (50, 23); (51, 6); (52, 1)])).  (* :115 *)
Definition python_dice_parser__parser_parenthesis_enclosed_expression : unit := ltac:(passes (is_max ($"(1d4 + 2 )// 1d2") 6)).  (* :171 *)
Definition python_dice_parser__parser_parenthesis_enclosed_expression_2 : unit := ltac:(passes (is_min ($"(1d4 + 2 )// 1d2") 1)).  (* :171 *)
Definition python_dice_parser__parser_parenthesis_enclosed_expression_3 : unit := ltac:(passes (is_map ($"(1d4 + 2 )// 1d2") [(1, 1); (2, 2); (3, 2); (4, 1); (5, 1); (6, 1)])).  (* :171 *)
Definition python_dice_parser__parser_parenthesis_enclosed_expression_4 : unit := ltac:(passes (rolls_in ($"(1d4 + 2 )// 1d2") [1; 2; 3; 4; 5; 6])).  (* :171 *)
Definition python_dice_parser__parser_constant_binary_expression : unit := ltac:(passes (is_max ($"True + True - (False * 2d6)") 2)).  (* :176 *)
Definition python_dice_parser__parser_constant_binary_expression_2 : unit := ltac:(passes (is_min ($"True + True - (False * 2d6)") 2)).  (* :176 *)
Definition python_dice_parser__parser_constant_binary_expression_3 : unit := ltac:(passes (is_map ($"True + True - (False * 2d6)") [(2, 36)])).  (* :176 *)
Definition python_dice_parser__parser_constant_binary_expression_4 : unit := ltac:(passes (rolls_in ($"True + True - (False * 2d6)") [2])).  (* :176 *)
Definition python_dice_parser__parser_not_expression : unit := ltac:(passes (is_max ($"!(1d6 - 1d6)") 1)).  (* :181 *)
Definition python_dice_parser__parser_not_expression_2 : unit := ltac:(passes (is_min ($"!(1d6 - 1d6)") 0)).  (* :181 *)
Definition python_dice_parser__parser_not_expression_3 : unit := ltac:(passes (is_map ($"!(1d6 - 1d6)") [(0, 15); (1, 21)])).  (* :181 *)
Definition python_dice_parser__parser_not_expression_4 : unit := ltac:(passes (rolls_in ($"!(1d6 - 1d6)") [0; 1])).  (* :181 *)
Definition python_dice_parser__parser_equal_expression : unit := ltac:(passes (is_max ($"1d6 == 1d6") 1)).  (* :186 *)
Definition python_dice_parser__parser_equal_expression_2 : unit := ltac:(passes (is_min ($"1d6 == 1d6") 0)).  (* :186 *)
Definition python_dice_parser__parser_equal_expression_3 : unit := ltac:(passes (is_map ($"1d6 == 1d6") [(0, 30); (1, 6)])).  (* :186 *)
Definition python_dice_parser__parser_equal_expression_4 : unit := ltac:(passes (rolls_in ($"1d6 == 1d6") [0; 1])).  (* :186 *)
Definition python_dice_parser__parser_not_equal_expression : unit := ltac:(passes (is_max ($"1d6 != 3") 1)).  (* :191 *)
Definition python_dice_parser__parser_not_equal_expression_2 : unit := ltac:(passes (is_min ($"1d6 != 3") 0)).  (* :191 *)
Definition python_dice_parser__parser_not_equal_expression_3 : unit := ltac:(passes (is_map ($"1d6 != 3") [(0, 1); (1, 5)])).  (* :191 *)
Definition python_dice_parser__parser_not_equal_expression_4 : unit := ltac:(passes (rolls_in ($"1d6 != 3") [0; 1])).  (* :191 *)
Definition python_dice_parser__parser_less_than_equal_expression : unit := ltac:(passes (is_max ($"((8d6 + 8) // 2) >= (2d8 + 5)") 1)).  (* :196 *)
Definition python_dice_parser__parser_less_than_equal_expression_2 : unit := ltac:(passes (is_min ($"((8d6 + 8) // 2) >= (2d8 + 5)") 0)).  (* :196 *)
Definition python_dice_parser__parser_less_than_equal_expression_3 : unit := ltac:(passes (is_map ($"((8d6 + 8) // 2) >= (2d8 + 5)") [(0, 16394638); (1, 91100786)])).  (* :196 *)
Definition python_dice_parser__parser_less_than_expression : unit := ltac:(passes (is_max ($"((8d6 + 8) // 2) > (3d8 + 5)") 1)).  (* :201 *)
Definition python_dice_parser__parser_less_than_expression_2 : unit := ltac:(passes (is_min ($"((8d6 + 8) // 2) > (3d8 + 5)") 0)).  (* :201 *)
Definition python_dice_parser__parser_less_than_expression_3 : unit := ltac:(passes (is_map ($"((8d6 + 8) // 2) > (3d8 + 5)") [(0, 518536200); (1, 341427192)])).  (* :201 *)
Definition python_dice_parser__parser_greater_than_equal_expression : unit := ltac:(passes (is_max ($"((8d6 + 8) // 2) <= (3d8 + 5)") 1)).  (* :206 *)
Definition python_dice_parser__parser_greater_than_equal_expression_2 : unit := ltac:(passes (is_min ($"((8d6 + 8) // 2) <= (3d8 + 5)") 0)).  (* :206 *)
Definition python_dice_parser__parser_greater_than_equal_expression_3 : unit := ltac:(passes (is_map ($"((8d6 + 8) // 2) <= (3d8 + 5)") [(0, 341427192); (1, 518536200)])).  (* :206 *)
Definition python_dice_parser__parser_greater_than_expression : unit := ltac:(passes (is_max ($"((8d6 + 8) // 2) < (2d8 + 5)") 1)).  (* :211 *)
Definition python_dice_parser__parser_greater_than_expression_2 : unit := ltac:(passes (is_min ($"((8d6 + 8) // 2) < (2d8 + 5)") 0)).  (* :211 *)
Definition python_dice_parser__parser_greater_than_expression_3 : unit := ltac:(passes (is_map ($"((8d6 + 8) // 2) < (2d8 + 5)") [(0, 91100786); (1, 16394638)])).  (* :211 *)
Definition python_dice_parser__parser_and_expression : unit := ltac:(passes (is_max ($"(((1d2 == 2) AND ((1d20 + 6) >= 22))) > ((1d20 + 6) >= 23)") 1)).  (* :216 *)
Definition python_dice_parser__parser_and_expression_2 : unit := ltac:(passes (is_min ($"(((1d2 == 2) AND ((1d20 + 6) >= 22))) > ((1d20 + 6) >= 23)") 0)).  (* :216 *)
Definition python_dice_parser__parser_and_expression_3 : unit := ltac:(passes (is_map ($"(((1d2 == 2) AND ((1d20 + 6) >= 22))) > ((1d20 + 6) >= 23)") [(0, 720); (1, 80)])).  (* :216 *)
Definition python_dice_parser__parser_and_expression_4 : unit := ltac:(passes (rolls_in ($"(((1d2 == 2) AND ((1d20 + 6) >= 22))) > ((1d20 + 6) >= 23)") [0; 1])).  (* :216 *)
Definition python_dice_parser__parser_or_expression : unit := ltac:(passes (is_max ($"((1d20 + 7) > 19) OR ((1d20 + 7) > 19)") 1)).  (* :221 *)
Definition python_dice_parser__parser_or_expression_2 : unit := ltac:(passes (is_min ($"((1d20 + 7) > 19) OR ((1d20 + 7) > 19)") 0)).  (* :221 *)
Definition python_dice_parser__parser_or_expression_3 : unit := ltac:(passes (is_map ($"((1d20 + 7) > 19) OR ((1d20 + 7) > 19)") [(0, 144); (1, 256)])).  (* :221 *)
Definition python_dice_parser__parser_or_expression_4 : unit := ltac:(passes (rolls_in ($"((1d20 + 7) > 19) OR ((1d20 + 7) > 19)") [0; 1])).  (* :221 *)
Definition python_dice_parser__parser_max_expression : unit := ltac:(passes (is_max ($"MAX(1d20 + 3, 1d20 + 3) > 15") 1)).  (* :226 *)
Definition python_dice_parser__parser_max_expression_2 : unit := ltac:(passes (is_min ($"MAX(1d20 + 3, 1d20 + 3) > 15") 0)).  (* :226 *)
Definition python_dice_parser__parser_max_expression_3 : unit := ltac:(passes (is_map ($"MAX(1d20 + 3, 1d20 + 3) > 15") [(0, 144); (1, 256)])).  (* :226 *)
Definition python_dice_parser__parser_max_expression_4 : unit := ltac:(passes (rolls_in ($"MAX(1d20 + 3, 1d20 + 3) > 15") [0; 1])).  (* :226 *)
Definition python_dice_parser__parser_min_expression : unit := ltac:(passes (is_max ($"MIN(1d20 + 3, 1d20 + 3) > 15") 1)).  (* :231 *)
Definition python_dice_parser__parser_min_expression_2 : unit := ltac:(passes (is_min ($"MIN(1d20 + 3, 1d20 + 3) > 15") 0)).  (* :231 *)
Definition python_dice_parser__parser_min_expression_3 : unit := ltac:(passes (is_map ($"MIN(1d20 + 3, 1d20 + 3) > 15") [(0, 336); (1, 64)])).  (* :231 *)
Definition python_dice_parser__parser_min_expression_4 : unit := ltac:(passes (rolls_in ($"MIN(1d20 + 3, 1d20 + 3) > 15") [0; 1])).  (* :231 *)
Definition python_dice_parser__parser_abs_expression : unit := ltac:(passes (is_max ($"ABS(1d4 - 1d4)") 3)).  (* :236 *)
Definition python_dice_parser__parser_abs_expression_2 : unit := ltac:(passes (is_min ($"ABS(1d4 - 1d4)") 0)).  (* :236 *)
Definition python_dice_parser__parser_abs_expression_3 : unit := ltac:(passes (is_map ($"ABS(1d4 - 1d4)") [(0, 4); (1, 6); (2, 4); (3, 2)])).  (* :236 *)
Definition python_dice_parser__parser_abs_expression_4 : unit := ltac:(passes (rolls_in ($"ABS(1d4 - 1d4)") [0; 1; 2; 3])).  (* :236 *)
Definition python_dice_parser__parser_keep_expression : unit := ltac:(passes (is_max ($"18d3k4 == 12") 1)).  (* :241 *)
Definition python_dice_parser__parser_keep_expression_2 : unit := ltac:(passes (is_min ($"18d3k4 == 12") 0)).  (* :241 *)
Definition python_dice_parser__parser_keep_expression_3 : unit := ltac:(passes (is_map ($"18d3k4 == 12") [(0, 39387136); (1, 348033353)])).  (* :241 *)
Definition python_dice_parser__parser_drop_expression : unit := ltac:(passes (is_max ($"2d20d1 < (d20 - 3)") 1)).  (* :246 *)
Definition python_dice_parser__parser_drop_expression_2 : unit := ltac:(passes (is_min ($"2d20d1 < (d20 - 3)") 0)).  (* :246 *)
Definition python_dice_parser__parser_drop_expression_3 : unit := ltac:(passes (is_map ($"2d20d1 < (d20 - 3)") [(0, 4056); (1, 3944)])).  (* :246 *)
Definition python_dice_parser__parser_drop_expression_4 : unit := ltac:(passes (rolls_in ($"2d20d1 < (d20 - 3)") [0; 1])).  (* :246 *)
Definition python_dice_parser__parser_fate_dice : unit := ltac:(passes (is_max ($"4dFk2 >= 2dF") 1)).  (* :251 *)
Definition python_dice_parser__parser_fate_dice_2 : unit := ltac:(passes (is_min ($"4dFk2 >= 2dF") 0)).  (* :251 *)
Definition python_dice_parser__parser_fate_dice_3 : unit := ltac:(passes (is_map ($"4dFk2 >= 2dF") [(0, 105); (1, 624)])).  (* :251 *)
Definition python_dice_parser__parser_fate_dice_4 : unit := ltac:(passes (rolls_in ($"4dFk2 >= 2dF") [0; 1])).  (* :251 *)
Definition python_dice_parser__parser_custom_dice : unit := ltac:(passes (is_max ($"2d[-1,-1,0,0,1] <= 2dF") 1)).  (* :256 *)
Definition python_dice_parser__parser_custom_dice_2 : unit := ltac:(passes (is_min ($"2d[-1,-1,0,0,1] <= 2dF") 0)).  (* :256 *)
Definition python_dice_parser__parser_custom_dice_3 : unit := ltac:(passes (is_map ($"2d[-1,-1,0,0,1] <= 2dF") [(0, 64); (1, 161)])).  (* :256 *)
Definition python_dice_parser__parser_custom_dice_4 : unit := ltac:(passes (rolls_in ($"2d[-1,-1,0,0,1] <= 2dF") [0; 1])).  (* :256 *)
Definition python_dice_parser__parser_fate_keep_dice : unit := ltac:(passes (is_max ($"3dFk2") 2)).  (* :261 *)
Definition python_dice_parser__parser_fate_keep_dice_2 : unit := ltac:(passes (is_min ($"3dFk2") (-2))).  (* :261 *)
Definition python_dice_parser__parser_fate_keep_dice_3 : unit := ltac:(passes (is_map ($"3dFk2") [((-2), 1); ((-1), 3); (0, 7); (1, 9); (2, 7)])).  (* :261 *)
Definition python_dice_parser__parser_fate_keep_dice_4 : unit := ltac:(passes (rolls_in ($"3dFk2") [(-2); (-1); 0; 1; 2])).  (* :261 *)
Definition python_dice_parser__parser_fate_drop_dice : unit := ltac:(passes (is_max ($"2dFd1") 1)).  (* :266 *)
Definition python_dice_parser__parser_fate_drop_dice_2 : unit := ltac:(passes (is_min ($"2dFd1") (-1))).  (* :266 *)
Definition python_dice_parser__parser_fate_drop_dice_3 : unit := ltac:(passes (is_map ($"2dFd1") [((-1), 5); (0, 3); (1, 1)])).  (* :266 *)
Definition python_dice_parser__parser_fate_drop_dice_4 : unit := ltac:(passes (rolls_in ($"2dFd1") [(-1); 0; 1])).  (* :266 *)
Definition python_dice_parser__parser_percentile_dice : unit := ltac:(passes (is_max ($"d%") 100)).  (* :271 *)
Definition python_dice_parser__parser_percentile_dice_2 : unit := ltac:(passes (is_min ($"d%") 1)).  (* :271 *)
Definition python_dice_parser__parser_percentile_dice_3 : unit := ltac:(passes (is_map ($"d%") [(1, 1); (2, 1); (3, 1); (4, 1); (5, 1); (6, 1); (7, 1); (8, 1); (9, 1); (10, 1); (11, 1); (12, 1); (13, 1); (14, 1); (15, 1); (16, 1); (17, 1); (18, 1); (19, 1); (20, 1); (21, 1); (22, 1); (23, 1); (24, 1); (25, 1); (26, 1); (27, 1); (28, 1); (29, 1); (30, 1); (31, 1); (32, 1); (33, 1); (34, 1); (35, 1); (36, 1); (37, 1); (38, 1); (39, 1); (40, 1); (41, 1); (42, 1); (43, 1); (44, 1); (45, 1); (46, 1); (47, 1); (48, 1); (49, 1); (50, 1); (51, 1); (52, 1); (53, 1); (54, 1); (55, 1); (56, 1); (57, 1); (58, 1); (59, 1); (60, 1); (61, 1); (62, 1); (63, 1); (64, 1); (65, 1); (66, 1); (67, 1); (68, 1); (69, 1); (70, 1); (71, 1); (72, 1); (73, 1); (74, 1); (75, 1); (76, 1); (77, 1); (78, 1); (79, 1); (80, 1); (81, 1); (82, 1); (83, 1); (84, 1); (85, 1); (86, 1); (87, 1); (88, 1); (89, 1); (90, 1); (91, 1); (92, 1); (93, 1); (94, 1); (95, 1); (96, 1); (97, 1); (98, 1); (99, 1); (100, 1)])).  (* :271 *)
Definition python_dice_parser__parser_percentile_dice_4 : unit := ltac:(passes (rolls_in ($"d%") [1; 2; 3; 4; 5; 6; 7; 8; 9; 10; 11; 12; 13; 14; 15; 16; 17; 18; 19; 20; 21; 22; 23; 24; 25; 26; 27; 28; 29; 30; 31; 32; 33; 34; 35; 36; 37; 38; 39; 40; 41; 42; 43; 44; 45; 46; 47; 48; 49; 50; 51; 52; 53; 54; 55; 56; 57; 58; 59; 60; 61; 62; 63; 64; 65; 66; 67; 68; 69; 70; 71; 72; 73; 74; 75; 76; 77; 78; 79; 80; 81; 82; 83; 84; 85; 86; 87; 88; 89; 90; 91; 92; 93; 94; 95; 96; 97; 98; 99; 100])).  (* :271 *)
Definition python_dice_parser__parser_percentile_dice_keep : unit := ltac:(passes (is_max ($"2d%k1") 100)).  (* :276 *)
Definition python_dice_parser__parser_percentile_dice_keep_2 : unit := ltac:(passes (is_min ($"2d%k1") 1)).  (* :276 *)
Definition python_dice_parser__parser_percentile_dice_keep_3 : unit := ltac:(passes (is_map ($"2d%k1") [(1, 1); (2, 3); (3, 5); (4, 7); (5, 9); (6, 11); (7, 13); (8, 15); (9, 17); (10, 19); (11, 21); (12, 23); (13, 25); (14, 27); (15, 29); (16, 31); (17, 33); (18, 35); (19, 37); (20, 39); (21, 41); (22, 43); (23, 45); (24, 47); (25, 49); (26, 51); (27, 53); (28, 55); (29, 57); (30, 59); (31, 61); (32, 63); (33, 65); (34, 67); (35, 69); (36, 71); (37, 73); (38, 75); (39, 77); (40, 79); (41, 81); (42, 83); (43, 85); (44, 87); (45, 89); (46, 91); (47, 93); (48, 95); (49, 97); (50, 99); (51, 101); (52, 103); (53, 105); (54, 107); (55, 109); (56, 111); (57, 113); (58, 115); (59, 117); (60, 119); (61, 121); (62, 123); (63, 125); (64, 127); (65, 129); (66, 131); (67, 133); (68, 135); (69, 137); (70, 139); (71, 141); (72, 143); (73, 145); (74, 147); (75, 149); (76, 151); (77, 153); (78, 155); (79, 157); (80, 159); (81, 161); (82, 163); (83, 165); (84, 167); (85, 169); (86, 171); (87, 173); (88, 175); (89, 177); (90, 179); (91, 181); (92, 183); (93, 185); (94, 187); (95, 189); (96, 191); (97, 193); (98, 195); (99, 197); (100, 199)])).  (* :276 *)
Definition python_dice_parser__parser_percentile_dice_keep_4 : unit := ltac:(passes (rolls_in ($"2d%k1") [1; 2; 3; 4; 5; 6; 7; 8; 9; 10; 11; 12; 13; 14; 15; 16; 17; 18; 19; 20; 21; 22; 23; 24; 25; 26; 27; 28; 29; 30; 31; 32; 33; 34; 35; 36; 37; 38; 39; 40; 41; 42; 43; 44; 45; 46; 47; 48; 49; 50; 51; 52; 53; 54; 55; 56; 57; 58; 59; 60; 61; 62; 63; 64; 65; 66; 67; 68; 69; 70; 71; 72; 73; 74; 75; 76; 77; 78; 79; 80; 81; 82; 83; 84; 85; 86; 87; 88; 89; 90; 91; 92; 93; 94; 95; 96; 97; 98; 99; 100])).  (* :276 *)
Definition python_dice_parser__parser_percentile_dice_drop : unit := ltac:(passes (is_max ($"2d%d1") 100)).  (* :281 *)
Definition python_dice_parser__parser_percentile_dice_drop_2 : unit := ltac:(passes (is_min ($"2d%d1") 1)).  (* :281 *)
Definition python_dice_parser__parser_percentile_dice_drop_3 : unit := ltac:(passes (is_map ($"2d%d1") [(1, 199); (2, 197); (3, 195); (4, 193); (5, 191); (6, 189); (7, 187); (8, 185); (9, 183); (10, 181); (11, 179); (12, 177); (13, 175); (14, 173); (15, 171); (16, 169); (17, 167); (18, 165); (19, 163); (20, 161); (21, 159); (22, 157); (23, 155); (24, 153); (25, 151); (26, 149); (27, 147); (28, 145); (29, 143); (30, 141); (31, 139); (32, 137); (33, 135); (34, 133); (35, 131); (36, 129); (37, 127); (38, 125); (39, 123); (40, 121); (41, 119); (42, 117); (43, 115); (44, 113); (45, 111); (46, 109); (47, 107); (48, 105); (49, 103); (50, 101); (51, 99); (52, 97); (53, 95); (54, 93); (55, 91); (56, 89); (57, 87); (58, 85); (59, 83); (60, 81); (61, 79); (62, 77); (63, 75); (64, 73); (65, 71); (66, 69); (67, 67); (68, 65); (69, 63); (70, 61); (71, 59); (72, 57); (73, 55); (74, 53); (75, 51); (76, 49); (77, 47); (78, 45); (79, 43); (80, 41); (81, 39); (82, 37); (83, 35); (84, 33); (85, 31); (86, 29); (87, 27); (88, 25); (89, 23); (90, 21); (91, 19); (92, 17); (93, 15); (94, 13); (95, 11); (96, 9); (97, 7); (98, 5); (99, 3); (100, 1)])).  (* :281 *)
Definition python_dice_parser__parser_percentile_dice_drop_4 : unit := ltac:(passes (rolls_in ($"2d%d1") [1; 2; 3; 4; 5; 6; 7; 8; 9; 10; 11; 12; 13; 14; 15; 16; 17; 18; 19; 20; 21; 22; 23; 24; 25; 26; 27; 28; 29; 30; 31; 32; 33; 34; 35; 36; 37; 38; 39; 40; 41; 42; 43; 44; 45; 46; 47; 48; 49; 50; 51; 52; 53; 54; 55; 56; 57; 58; 59; 60; 61; 62; 63; 64; 65; 66; 67; 68; 69; 70; 71; 72; 73; 74; 75; 76; 77; 78; 79; 80; 81; 82; 83; 84; 85; 86; 87; 88; 89; 90; 91; 92; 93; 94; 95; 96; 97; 98; 99; 100])).  (* :281 *)
Definition python_dice_parser__parser_custom_keep_dice : unit := ltac:(passes (is_max ($"3d[-1*2,1]k2") 2)).  (* :286 *)
Definition python_dice_parser__parser_custom_keep_dice_2 : unit := ltac:(passes (is_min ($"3d[-1*2,1]k2") (-2))).  (* :286 *)
Definition python_dice_parser__parser_custom_keep_dice_3 : unit := ltac:(passes (is_map ($"3d[-1*2,1]k2") [((-2), 8); (0, 12); (2, 7)])).  (* :286 *)
Definition python_dice_parser__parser_custom_keep_dice_4 : unit := ltac:(passes (rolls_in ($"3d[-1*2,1]k2") [(-2); 0; 2])).  (* :286 *)
Definition python_dice_parser__parser_custom_drop_dice : unit := ltac:(passes (is_max ($"2d[-6,1-2*2]d1") 2)).  (* :291 *)
Definition python_dice_parser__parser_custom_drop_dice_2 : unit := ltac:(passes (is_min ($"2d[-6,1-2*2]d1") (-6))).  (* :291 *)
Definition python_dice_parser__parser_custom_drop_dice_3 : unit := ltac:(passes (is_map ($"2d[-6,1-2*2]d1") [((-6), 9); (1, 12); (2, 4)])).  (* :291 *)
Definition python_dice_parser__parser_custom_drop_dice_4 : unit := ltac:(passes (rolls_in ($"2d[-6,1-2*2]d1") [(-6); 1; 2])).  (* :291 *)
Definition python_dice_parser__parser_state_var_expression_one : unit := ltac:(passes (var_map [($"VAR burning_arc_over_sure_spell = ((8d6 + 8) // 2) < (2d8 + 5)")] ($"burning_arc_over_sure_spell") [(0, 91100786); (1, 16394638)])).  (* :296 *)
Definition python_dice_parser__parser_state_var_expression_two : unit := ltac:(passes (var_map [($"VAR apple = 1d4 - 1")] ($"apple") [(0, 1); (1, 1); (2, 1); (3, 1)])).  (* :304 *)
Definition python_dice_parser__parser_state_var_expression_two_vars_at_once : unit := ltac:(passes (var_map [($"VAR apple = 1d4"); ($"VAR food = 4"); ($"VAR apple = apple + food")] ($"apple") [(5, 1); (6, 1); (7, 1); (8, 1)])).  (* :309 *)
Definition python_dice_parser__parser_state_var_expression_two_vars_at_once_2 : unit := ltac:(passes (var_map [($"VAR apple = 1d4"); ($"VAR food = 4"); ($"VAR apple = apple + food")] ($"food") [(4, 1)])).  (* :309 *)

(** ** python_dice/test/test_python_dice_interpreter.py *)
Definition python_dice_interpreter__roll_single_line : unit := ltac:(passes (rolls_in ($"5d2k4") [4; 5; 6; 7; 8])).  (* :97 *)
Definition python_dice_interpreter__min_single_line : unit := ltac:(passes (is_ext false [($"VAR save_roll = d20 + 8")] ($"save_roll") 9)).  (* :105 *)
Definition python_dice_interpreter__max_single_line : unit := ltac:(passes (is_ext true [($"d20 + 8")] ($"stdout") 28)).  (* :110 *)
Definition python_dice_interpreter__estimated_cost_single_line : unit := ltac:(passes (is_cost [($"(100d2 + 20d20k10) > 2d4")] 4208)).  (* :115 *)
Definition python_dice_interpreter__get_probability_distribution_dict : unit := ltac:(passes (dict_and_average [($"VAR save_roll = d20 + 8"); ($"VAR burning_arch_damage = 2d6"); ($"VAR pass_save = ( save_roll >= 19 ) "); ($"VAR damage_half_on_save = burning_arch_damage // (pass_save + 1)")] ($"damage_half_on_save") [(1, S754_finite false 6004799503160661 (-57)); (2, S754_finite false 8006399337547548 (-56)); (3, S754_finite false 6505199461757383 (-55)); (4, S754_finite false 6004799503160661 (-55)); (5, S754_finite false 4503599627370496 (-55)); (6, S754_finite false 6004799503160661 (-56)); (7, S754_finite false 6004799503160661 (-56)); (8, S754_finite false 5003999585967218 (-56)); (9, S754_finite false 8006399337547548 (-57)); (10, S754_finite false 6004799503160661 (-57)); (11, S754_finite false 8006399337547548 (-58)); (12, S754_finite false 8006399337547548 (-59))] (S754_finite false 5770237022568448 (-50)))).  (* :45 *)
Definition python_dice_interpreter__estimated_cost : unit := ltac:(passes (is_cost [($"1d20")] 20)).  (* :184 *)
Definition python_dice_interpreter__estimated_cost_2 : unit := ltac:(passes (is_cost [($"2d20")] 40)).  (* :184 *)
Definition python_dice_interpreter__estimated_cost_3 : unit := ltac:(passes (is_cost [($"2d20k1")] 40)).  (* :184 *)
Definition python_dice_interpreter__estimated_cost_4 : unit := ltac:(passes (is_cost [($"3d20k2")] 120)).  (* :184 *)
Definition python_dice_interpreter__estimated_cost_5 : unit := ltac:(passes (is_cost [($"10d[1--2]")] 40)).  (* :184 *)
Definition python_dice_interpreter__estimated_cost_6 : unit := ltac:(passes (is_cost [($"10d[1--2]k2")] 80)).  (* :184 *)
Definition python_dice_interpreter__estimated_cost_7 : unit := ltac:(passes (is_cost [($"VAR a = 1d10"); ($"a")] 22)).  (* :184 *)
Definition python_dice_interpreter__estimated_cost_8 : unit := ltac:(passes (is_cost [($"VAR a = 1d10"); ($"VAR b = 1d10"); ($"a + b")] 44)).  (* :184 *)
Definition python_dice_interpreter__estimated_cost_9 : unit := ltac:(passes (is_cost [($"VAR a = 1d10"); ($"VAR b = 1d10 + a"); ($"VAR a = 1d20")] 56)).  (* :184 *)
Definition python_dice_interpreter__estimated_cost_10 : unit := ltac:(passes (is_cost [($"VAR a = (100d2 + 20d20k10) > 2d4"); ($"a // 1d2")] 8420)).  (* :184 *)
Definition python_dice_interpreter__probability_distribution_max : unit := ltac:(passes (dict_form [($"MAX( 1d[-1, 1] , 0)")] ($"stdout") [(0, S754_finite false 4503599627370496 (-53)); (1, S754_finite false 4503599627370496 (-53))])).  (* :203 *)
Definition python_dice_interpreter__probability_distribution_min : unit := ltac:(passes (dict_form [($"MIN( d[-1, 1] , 0)")] ($"stdout") [(0, S754_finite false 4503599627370496 (-53)); ((-1), S754_finite false 4503599627370496 (-53))])).  (* :209 *)
Definition python_dice_interpreter__probability_distribution_abs : unit := ltac:(passes (dict_form [($"ABS( 1d[-1, 1])")] ($"stdout") [(1, S754_finite false 4503599627370496 (-52))])).  (* :215 *)
Definition python_dice_interpreter__probability_distribution_add : unit := ltac:(passes (dict_form [($"d[-1, 1] + 3")] ($"stdout") [(2, S754_finite false 4503599627370496 (-53)); (4, S754_finite false 4503599627370496 (-53))])).  (* :221 *)
Definition python_dice_interpreter__probability_distribution_binary_operator : unit := ltac:(passes (var_map [($"d[-1-1] == 1")] $"stdout" [(0, 2); (1, 1)])).  (* :227 *)
Definition python_dice_interpreter__probability_distribution_binary_operator_2 : unit := ltac:(passes (var_map [($"d[-1-1] != 1")] $"stdout" [(0, 1); (1, 2)])).  (* :227 *)
Definition python_dice_interpreter__probability_distribution_binary_operator_3 : unit := ltac:(passes (var_map [($"d[-1-1] <= 1")] $"stdout" [(1, 3)])).  (* :227 *)
Definition python_dice_interpreter__probability_distribution_binary_operator_4 : unit := ltac:(passes (var_map [($"d[-1-1] < 1")] $"stdout" [(0, 1); (1, 2)])).  (* :227 *)
Definition python_dice_interpreter__probability_distribution_binary_operator_5 : unit := ltac:(passes (var_map [($"d[-1-1] >= 1")] $"stdout" [(0, 2); (1, 1)])).  (* :227 *)
Definition python_dice_interpreter__probability_distribution_binary_operator_6 : unit := ltac:(passes (var_map [($"d[-1-1] > 1")] $"stdout" [(0, 3)])).  (* :227 *)
Definition python_dice_interpreter__probability_distribution_binary_operator_7 : unit := ltac:(passes (var_map [($"d[-1-1] AND 1")] $"stdout" [(0, 2); (1, 1)])).  (* :227 *)
Definition python_dice_interpreter__probability_distribution_binary_operator_8 : unit := ltac:(passes (var_map [($"d[-1-1] OR 1")] $"stdout" [(1, 3)])).  (* :227 *)
Definition python_dice_interpreter__probability_distribution_constant_binary : unit := ltac:(passes (var_map [($"2d[-1, 1]k1 == True")] ($"stdout") [(1, 3); (0, 1)])).  (* :244 *)
Definition python_dice_interpreter__probability_distribution_var_example : unit := ltac:(passes (var_map [($"VAR a = d2"); ($"a + 1")] ($"stdout") [(2, 1); (3, 1)])).  (* :250 *)
Definition python_dice_interpreter__probability_distribution_div_example : unit := ltac:(passes (var_map [($"d[2,4] // 2")] ($"stdout") [(1, 1); (2, 1)])).  (* :256 *)
Definition python_dice_interpreter__probability_distribution_multiply_example : unit := ltac:(passes (var_map [($"d[2,4] * 2")] ($"stdout") [(4, 1); (8, 1)])).  (* :262 *)
Definition python_dice_interpreter__probability_distribution_not_example : unit := ltac:(passes (var_map [($"! (d[0,1*3])")] ($"stdout") [(0, 3); (1, 1)])).  (* :268 *)
Definition python_dice_interpreter__probability_distribution_subtract_example : unit := ltac:(passes (var_map [($"34 - 2")] ($"stdout") [(32, 1)])).  (* :274 *)
Definition python_dice_interpreter__probability_distribution_two_entangled_variables_example : unit := ltac:(passes (var_map [($"VAR roll_one = 1d3"); ($"VAR roll_two = ((1d4) * (roll_one == 3)) + ((roll_one) * (roll_one != 3))"); ($"roll_two")] ($"stdout") [(1, 5); (2, 5); (3, 1); (4, 1)])).  (* :280 *)
Definition python_dice_interpreter__probability_distribution_three_entangled_variables_example : unit := ltac:(passes (var_map [($"VAR roll_one = 1d3"); ($"VAR roll_two = ((1d4) * (roll_one == 3)) + ((roll_one) * (roll_one != 3))"); ($"VAR roll_three = ((1d5) * (roll_two == 4)) + ((roll_two) * (roll_two != 4))"); ($"roll_three")] ($"stdout") [(1, 326); (2, 326); (3, 6); (4, 1); (5, 1)])).  (* :298 *)
Definition python_dice_interpreter__probability_distribution_two_entangled_variables_renamed : unit := ltac:(passes (var_map [($"VAR a = 1d2"); ($"VAR b = a + a"); ($"VAR c = a + b"); ($"VAR d = c >= ( 1d2 * b )"); ($"VAR e = d == a")] ($"a") [(1, 1); (2, 1)])).  (* :318 *)
Definition python_dice_interpreter__probability_distribution_two_entangled_variables_renamed_2 : unit := ltac:(passes (var_map [($"VAR a = 1d2"); ($"VAR b = a + a"); ($"VAR c = a + b"); ($"VAR d = c >= ( 1d2 * b )"); ($"VAR e = d == a")] ($"b") [(2, 1); (4, 1)])).  (* :318 *)
Definition python_dice_interpreter__probability_distribution_two_entangled_variables_renamed_3 : unit := ltac:(passes (var_map [($"VAR a = 1d2"); ($"VAR b = a + a"); ($"VAR c = a + b"); ($"VAR d = c >= ( 1d2 * b )"); ($"VAR e = d == a")] ($"c") [(3, 1); (6, 1)])).  (* :318 *)
Definition python_dice_interpreter__probability_distribution_two_entangled_variables_renamed_4 : unit := ltac:(passes (var_map [($"VAR a = 1d2"); ($"VAR b = a + a"); ($"VAR c = a + b"); ($"VAR d = c >= ( 1d2 * b )"); ($"VAR e = d == a")] ($"d") [(0, 2); (1, 2)])).  (* :318 *)
Definition python_dice_interpreter__probability_distribution_two_entangled_variables_renamed_5 : unit := ltac:(passes (var_map [($"VAR a = 1d2"); ($"VAR b = a + a"); ($"VAR c = a + b"); ($"VAR d = c >= ( 1d2 * b )"); ($"VAR e = d == a")] ($"e") [(0, 3); (1, 1)])).  (* :318 *)
Definition python_dice_interpreter__probability_distribution_two_entangled_variables_simple : unit := ltac:(passes (var_map [($"VAR a = 2d3"); ($"VAR b = a + a")] ($"b") [(4, 1); (6, 4); (8, 9); (10, 4); (12, 1)])).  (* :369 *)
Definition python_dice_interpreter__probability_distribution_two_entangled_variables_chain : unit := ltac:(passes (var_map [($"VAR a = 2d3"); ($"VAR b = a + a"); ($"VAR a = b + a"); ($"VAR b = b + a")] ($"b") [(10, 1); (15, 32); (20, 243); (25, 32); (30, 1)])).  (* :388 *)

(** ** python_dice/test/expression/test_dice_expression.py *)
Definition dice_expression__dice_roll : unit := ltac:(passes (rolls_len ($"2d10") 19)).  (* :24 *)
Definition dice_expression__dice_roll_2 : unit := ltac:(passes (rolls_max ($"2d10") 20)).  (* :24 *)
Definition dice_expression__dice_roll_3 : unit := ltac:(passes (rolls_min ($"2d10") 2)).  (* :24 *)
Definition dice_expression__dice_roll_missing_dice_amount : unit := ltac:(passes (rolls_len ($"d10") 10)).  (* :33 *)
Definition dice_expression__dice_roll_missing_dice_amount_2 : unit := ltac:(passes (rolls_max ($"d10") 10)).  (* :33 *)
Definition dice_expression__dice_roll_missing_dice_amount_3 : unit := ltac:(passes (rolls_min ($"d10") 1)).  (* :33 *)
Definition dice_expression__dice_roll_percentile_dice : unit := ltac:(passes (rolls_len ($"1d%") 100)).  (* :42 *)
Definition dice_expression__dice_roll_percentile_dice_2 : unit := ltac:(passes (rolls_max ($"1d%") 100)).  (* :42 *)
Definition dice_expression__dice_roll_percentile_dice_3 : unit := ltac:(passes (rolls_min ($"1d%") 1)).  (* :42 *)
Definition dice_expression__dice_roll_fate_dice : unit := ltac:(passes (rolls_are ($"2dF") [(-2); (-1); 0; 1; 2])).  (* :51 *)
Definition dice_expression__dice_roll_custom_dice_negative : unit := ltac:(passes (rolls_are ($"2d[-2,2,100]") [(-4); 0; 4; 98; 102; 200])).  (* :58 *)
Definition dice_expression__dice_roll_custom_dice_large_set : unit := ltac:(passes (rolls_are ($"2d[-2,0,2,4,6,31]") [(-4); (-2); 0; 2; 4; 6; 8; 10; 12; 29; 31; 33; 35; 37; 62])).  (* :65 *)
Definition dice_expression__dice_max : unit := ltac:(passes (is_max ($"4d6") 24)).  (* :72 *)
Definition dice_expression__dice_max_missing_dice_amount : unit := ltac:(passes (is_max ($"d10") 10)).  (* :75 *)
Definition dice_expression__dice_max_percentile_dice : unit := ltac:(passes (is_max ($"1d%") 100)).  (* :79 *)
Definition dice_expression__dice_max_fate_dice : unit := ltac:(passes (is_max ($"2dF") 2)).  (* :83 *)
Definition dice_expression__dice_max_custom_dice_negative : unit := ltac:(passes (is_max ($"21d[-2,2,100]") 2100)).  (* :87 *)
Definition dice_expression__dice_max_custom_dice_large_set : unit := ltac:(passes (is_max ($"76d[-2,0,2,4,6,31]") 2356)).  (* :91 *)
Definition dice_expression__dice_min : unit := ltac:(passes (is_min ($"4d6") 4)).  (* :95 *)
Definition dice_expression__dice_min_missing_dice_amount : unit := ltac:(passes (is_min ($"d10") 1)).  (* :98 *)
Definition dice_expression__dice_min_percentile_dice : unit := ltac:(passes (is_min ($"1d%") 1)).  (* :102 *)
Definition dice_expression__dice_min_fate_dice : unit := ltac:(passes (is_min ($"4dF") (-4))).  (* :106 *)
Definition dice_expression__dice_min_custom_dice_negative : unit := ltac:(passes (is_min ($"21d[-2,2,100]") (-42))).  (* :110 *)
Definition dice_expression__dice_min_custom_dice_large_set : unit := ltac:(passes (is_min ($"d[-2,0,2,4,6,31,-2,-24]") (-24))).  (* :114 *)
Definition dice_expression__dice_str : unit := ltac:(passes (is_str ($"4d6") ($"4d6"))).  (* :118 *)
Definition dice_expression__dice_str_missing_dice_amount : unit := ltac:(passes (is_str ($"d10") ($"d10"))).  (* :121 *)
Definition dice_expression__dice_str_percentile_dice : unit := ltac:(passes (is_str ($"1d%") ($"1d%"))).  (* :125 *)
Definition dice_expression__dice_str_fate_dice : unit := ltac:(passes (is_str ($"4dF") ($"4dF"))).  (* :129 *)
Definition dice_expression__dice_str_custom_dice_negative : unit := ltac:(passes (is_str ($"21d[-2,2,100]") ($"21d[-2,2,100]"))).  (* :133 *)
Definition dice_expression__dice_str_custom_dice_large_set : unit := ltac:(passes (is_str ($"d[-2,0,2,4,6,31,-2,-24]") ($"d[-2,0,2,4,6,31,-2,-24]"))).  (* :137 *)
Definition dice_expression__dice_estimated_cost : unit := ltac:(passes (is_cost [($"4d6")] 24)).  (* :141 *)
Definition dice_expression__dice_estimated_cost_missing_dice_amount : unit := ltac:(passes (is_cost [($"d10")] 10)).  (* :144 *)
Definition dice_expression__dice_estimated_cost_percentile_dice : unit := ltac:(passes (is_cost [($"1d%")] 100)).  (* :148 *)
Definition dice_expression__dice_estimated_cost_fate_dice : unit := ltac:(passes (is_cost [($"10dF")] 30)).  (* :152 *)
Definition dice_expression__dice_estimated_custom_dice_negative : unit := ltac:(passes (is_cost [($"21d[-2,2,100]")] 63)).  (* :156 *)
Definition dice_expression__dice_estimated_custom_dice_large_set : unit := ltac:(passes (is_cost [($"2d[-2,0,2,4,6*7,31,-2,-24]")] 14)).  (* :160 *)
Definition dice_expression__dice_get_probability_distribution : unit := ltac:(passes (is_map ($"4d6") (counted [1; 2; 3; 4; 5; 6] 4))).  (* :164 *)
Definition dice_expression__dice_get_probability_distribution_missing_dice_amount : unit := ltac:(passes (is_map ($"d10") (counted [1; 2; 3; 4; 5; 6; 7; 8; 9; 10] 1))).  (* :173 *)
Definition dice_expression__dice_get_probability_distribution_fate_dice : unit := ltac:(passes (is_map ($"4dF") [((-4), 1); ((-3), 4); ((-2), 10); ((-1), 16); (0, 19); (1, 16); (2, 10); (3, 4); (4, 1)])).  (* :191 *)
Definition dice_expression__dice_get_probability_distribution_custom_dice_negative : unit := ltac:(passes (is_map ($"2d[-2,2,100]") [((-4), 1); (0, 2); (4, 1); (98, 2); (102, 2); (200, 1)])).  (* :198 *)
Definition dice_expression__dice_get_probability_distribution_custom_dice_large_set : unit := ltac:(passes (is_map ($"d[-2,0,2,4,6,31,-2,-24]") [((-24), 1); ((-2), 2); (0, 1); (2, 1); (4, 1); (6, 1); (31, 1)])).  (* :205 *)
Definition dice_expression__dice_get_probability_distribution_custom_dice_multiplier : unit := ltac:(passes (is_map ($"d[-2*3,0,2]") [((-2), 3); (0, 1); (2, 1)])).  (* :212 *)
Definition dice_expression__dice_get_probability_distribution_custom_dice_range : unit := ltac:(passes (is_map ($"d[1-2*3,0,2]") [(0, 1); (1, 3); (2, 4)])).  (* :219 *)
Definition dice_expression__dice_get_probability_distribution_custom_dice_multiplier_range : unit := ltac:(passes (is_map ($"d[1-2*3,-4--9*10]") [((-9), 10); ((-8), 10); ((-7), 10); ((-6), 10); ((-5), 10); ((-4), 10); (1, 3); (2, 3)])).  (* :226 *)
Definition dice_expression__dice_get_contained_variables : unit := ltac:(passes (no_variables ($"4d6"))).  (* :233 *)

(** ** python_dice/test/expression/test_drop_keep_expression.py *)
Definition drop_keep_expression__drop_keep_roll_keep_percentile_dice : unit := ltac:(passes (rolls_min ($"2d%k1") 1)).  (* :37 *)
Definition drop_keep_expression__drop_keep_roll_keep_percentile_dice_2 : unit := ltac:(passes (rolls_max ($"2d%k1") 100)).  (* :37 *)
Definition drop_keep_expression__drop_keep_roll_keep_percentile_dice_3 : unit := ltac:(passes (rolls_len ($"2d%k1") 100)).  (* :37 *)
Definition drop_keep_expression__drop_keep_roll_drop_percentile_dice : unit := ltac:(passes (rolls_min ($"2d%d1") 1)).  (* :46 *)
Definition drop_keep_expression__drop_keep_roll_drop_percentile_dice_2 : unit := ltac:(passes (rolls_max ($"2d%d1") 100)).  (* :46 *)
Definition drop_keep_expression__drop_keep_roll_drop_percentile_dice_3 : unit := ltac:(passes (rolls_len ($"2d%d1") 100)).  (* :46 *)
Definition drop_keep_expression__drop_keep_roll_keep_fate_dice : unit := ltac:(passes (rolls_are ($"3dFk2") [(-2); (-1); 0; 1; 2])).  (* :55 *)
Definition drop_keep_expression__drop_keep_roll_drop_fate_dice : unit := ltac:(passes (rolls_are ($"3dFd1") [(-2); (-1); 0; 1; 2])).  (* :62 *)
Definition drop_keep_expression__drop_keep_roll_keep_custom_dice : unit := ltac:(passes (rolls_are ($"3d[5,10,15]k2") [10; 15; 20; 25; 30])).  (* :69 *)
Definition drop_keep_expression__drop_keep_roll_drop_custom_dice : unit := ltac:(passes (rolls_are ($"3d[-3,2,4]d1") [(-6); (-1); 1; 4; 6; 8])).  (* :76 *)
Definition drop_keep_expression__drop_keep_roll_keep_to_many : unit := ltac:(passes (rolls_min ($"2d3k10") 2)).  (* :83 *)
Definition drop_keep_expression__drop_keep_roll_keep_to_many_2 : unit := ltac:(passes (rolls_max ($"2d3k10") 6)).  (* :83 *)
Definition drop_keep_expression__drop_keep_roll_keep_to_many_3 : unit := ltac:(passes (rolls_len ($"2d3k10") 5)).  (* :83 *)
Definition drop_keep_expression__drop_keep_roll_drop_to_many : unit := ltac:(passes (rolls_min ($"2d3d10") 0)).  (* :92 *)
Definition drop_keep_expression__drop_keep_roll_drop_to_many_2 : unit := ltac:(passes (rolls_max ($"2d3d10") 0)).  (* :92 *)
Definition drop_keep_expression__drop_keep_roll_drop_to_many_3 : unit := ltac:(passes (rolls_len ($"2d3d10") 1)).  (* :92 *)
Definition drop_keep_expression__drop_keep_roll_keep_to_zero : unit := ltac:(passes (rolls_min ($"2d3k0") 0)).  (* :101 *)
Definition drop_keep_expression__drop_keep_roll_keep_to_zero_2 : unit := ltac:(passes (rolls_max ($"2d3k0") 0)).  (* :101 *)
Definition drop_keep_expression__drop_keep_roll_keep_to_zero_3 : unit := ltac:(passes (rolls_len ($"2d3k0") 1)).  (* :101 *)
Definition drop_keep_expression__drop_keep_roll_drop_to_zero : unit := ltac:(passes (rolls_min ($"2d3d0") 2)).  (* :110 *)
Definition drop_keep_expression__drop_keep_roll_drop_to_zero_2 : unit := ltac:(passes (rolls_max ($"2d3d0") 6)).  (* :110 *)
Definition drop_keep_expression__drop_keep_roll_drop_to_zero_3 : unit := ltac:(passes (rolls_len ($"2d3d0") 5)).  (* :110 *)
Definition drop_keep_expression__drop_keep_max_drop : unit := ltac:(passes (is_max ($"4d6d2") 12)).  (* :119 *)
Definition drop_keep_expression__drop_keep_max_keep : unit := ltac:(passes (is_max ($"4d6k2") 12)).  (* :122 *)
Definition drop_keep_expression__drop_keep_max_keep_percentile_dice : unit := ltac:(passes (is_max ($"59d%k2") 200)).  (* :125 *)
Definition drop_keep_expression__drop_keep_max_drop_percentile_dice : unit := ltac:(passes (is_max ($"24d%d12") 1200)).  (* :129 *)
Definition drop_keep_expression__drop_keep_max_keep_fate_dice : unit := ltac:(passes (is_max ($"3dFk2") 2)).  (* :133 *)
Definition drop_keep_expression__drop_keep_max_drop_fate_dice : unit := ltac:(passes (is_max ($"3dFd1") 2)).  (* :137 *)
Definition drop_keep_expression__drop_keep_max_keep_custom_dice : unit := ltac:(passes (is_max ($"3d[5,10,15]k2") 30)).  (* :141 *)
Definition drop_keep_expression__drop_keep_max_drop_custom_dice : unit := ltac:(passes (is_max ($"3d[-3,2,4]d1") 8)).  (* :145 *)
Definition drop_keep_expression__drop_keep_max_keep_to_many : unit := ltac:(passes (is_max ($"2d3k10") 6)).  (* :149 *)
Definition drop_keep_expression__drop_keep_max_drop_to_many : unit := ltac:(passes (is_max ($"2d3d10") 0)).  (* :153 *)
Definition drop_keep_expression__drop_keep_max_keep_to_zero : unit := ltac:(passes (is_max ($"2d3k0") 0)).  (* :157 *)
Definition drop_keep_expression__drop_keep_max_drop_to_zero : unit := ltac:(passes (is_max ($"2d3d0") 6)).  (* :161 *)
Definition drop_keep_expression__drop_keep_min_drop : unit := ltac:(passes (is_min ($"4d6d2") 2)).  (* :165 *)
Definition drop_keep_expression__drop_keep_min_keep : unit := ltac:(passes (is_min ($"4d6k2") 2)).  (* :168 *)
Definition drop_keep_expression__drop_keep_min_keep_percentile_dice : unit := ltac:(passes (is_min ($"14d%k12") 12)).  (* :171 *)
Definition drop_keep_expression__drop_keep_min_drop_percentile_dice : unit := ltac:(passes (is_min ($"24d%d12") 12)).  (* :175 *)
Definition drop_keep_expression__drop_keep_min_keep_fate_dice : unit := ltac:(passes (is_min ($"3dFk2") (-2))).  (* :179 *)
Definition drop_keep_expression__drop_keep_min_drop_fate_dice : unit := ltac:(passes (is_min ($"3dFd1") (-2))).  (* :183 *)
Definition drop_keep_expression__drop_keep_min_keep_custom_dice : unit := ltac:(passes (is_min ($"3d[5,10,15]k2") 10)).  (* :187 *)
Definition drop_keep_expression__drop_keep_min_drop_custom_dice : unit := ltac:(passes (is_min ($"3d[-3,2,4]d1") (-6))).  (* :191 *)
Definition drop_keep_expression__drop_keep_min_keep_to_many : unit := ltac:(passes (is_min ($"2d3k10") 2)).  (* :195 *)
Definition drop_keep_expression__drop_keep_min_drop_to_many : unit := ltac:(passes (is_min ($"2d3d10") 0)).  (* :199 *)
Definition drop_keep_expression__drop_keep_min_keep_to_zero : unit := ltac:(passes (is_min ($"2d3k0") 0)).  (* :203 *)
Definition drop_keep_expression__drop_keep_min_drop_to_zero : unit := ltac:(passes (is_min ($"2d3d0") 2)).  (* :207 *)
Definition drop_keep_expression__drop_keep_str_drop : unit := ltac:(passes (is_str ($"4d6d2") ($"4d6d2"))).  (* :211 *)
Definition drop_keep_expression__drop_keep_str_keep : unit := ltac:(passes (is_str ($"4d6k2") ($"4d6k2"))).  (* :214 *)
Definition drop_keep_expression__drop_keep_str_keep_percentile_dice : unit := ltac:(passes (is_str ($"14d%k12") ($"14d%k12"))).  (* :217 *)
Definition drop_keep_expression__drop_keep_str_drop_percentile_dice : unit := ltac:(passes (is_str ($"24d%d12") ($"24d%d12"))).  (* :221 *)
Definition drop_keep_expression__drop_keep_str_keep_fate_dice : unit := ltac:(passes (is_str ($"3dFk2") ($"3dFk2"))).  (* :225 *)
Definition drop_keep_expression__drop_keep_str_drop_fate_dice : unit := ltac:(passes (is_str ($"3dFd1") ($"3dFd1"))).  (* :229 *)
Definition drop_keep_expression__drop_keep_str_keep_custom_dice : unit := ltac:(passes (is_str ($"3d[5,10,15]k2") ($"3d[5,10,15]k2"))).  (* :233 *)
Definition drop_keep_expression__drop_keep_str_drop_custom_dice : unit := ltac:(passes (is_str ($"3d[-3,2,4]d1") ($"3d[-3,2,4]d1"))).  (* :237 *)
Definition drop_keep_expression__drop_keep_estimated_cost : unit := ltac:(passes (is_cost [($"4d6d2")] 48)).  (* :241 *)
Definition drop_keep_expression__drop_keep_estimated_cost_2 : unit := ltac:(passes (is_cost [($"4d6k2")] 48)).  (* :241 *)
Definition drop_keep_expression__drop_keep_estimated_cost_missing_dice_amount : unit := ltac:(passes (is_cost [($"d6d2")] 2)).  (* :245 *)
Definition drop_keep_expression__drop_keep_estimated_cost_missing_dice_amount_2 : unit := ltac:(passes (is_cost [($"d6k2")] 6)).  (* :245 *)
Definition drop_keep_expression__drop_keep_estimated_cost_percentile_dice : unit := ltac:(passes (is_cost [($"4d%d2")] 800)).  (* :251 *)
Definition drop_keep_expression__drop_keep_estimated_cost_percentile_dice_2 : unit := ltac:(passes (is_cost [($"4d%k2")] 800)).  (* :251 *)
Definition drop_keep_expression__drop_keep_estimated_cost_fate_dice : unit := ltac:(passes (is_cost [($"4dFd2")] 24)).  (* :257 *)
Definition drop_keep_expression__drop_keep_estimated_cost_fate_dice_2 : unit := ltac:(passes (is_cost [($"4dFk2")] 24)).  (* :257 *)
Definition drop_keep_expression__drop_keep_estimated_custom_dice_negative : unit := ltac:(passes (is_cost [($"4d[-2,2,100]d2")] 24)).  (* :263 *)
Definition drop_keep_expression__drop_keep_estimated_custom_dice_negative_2 : unit := ltac:(passes (is_cost [($"4d[-2,2,100]k2")] 24)).  (* :263 *)
Definition drop_keep_expression__drop_keep_estimated_custom_dice_large_set : unit := ltac:(passes (is_cost [($"4d[-2,0,2,4,6*7,31,-2,-24]d2")] 56)).  (* :269 *)
Definition drop_keep_expression__drop_keep_estimated_custom_dice_large_set_2 : unit := ltac:(passes (is_cost [($"4d[-2,0,2,4,6*7,31,-2,-24]k2")] 56)).  (* :269 *)
Definition drop_keep_expression__drop_keep_get_probability_distribution_drop : unit := ltac:(passes (is_map ($"6d4d4") [(2, 1909); (3, 1266); (4, 659); (5, 192); (6, 63); (7, 6); (8, 1)])).  (* :279 *)
Definition drop_keep_expression__drop_keep_get_probability_distribution_drop_large_dice : unit := ltac:(passes (is_map ($"6d8d4") [(2, 43653); (3, 54186); (4, 52243); (5, 40512); (6, 29573); (7, 18558); (8, 11523); (9, 6144); (10, 3367); (11, 1458); (12, 665); (13, 192); (14, 63); (15, 6); (16, 1)])).  (* :286 *)
Definition drop_keep_expression__drop_keep_get_probability_distribution_drop_large_number_dice : unit := ltac:(passes (is_map ($"20d3d16") [(4, 3276020625); (5, 149420940); (6, 49804890); (7, 10485360); (8, 1050835); (9, 1520); (10, 210); (11, 20); (12, 1)])).  (* :309 *)
Definition drop_keep_expression__drop_keep_get_probability_distribution_keep : unit := ltac:(passes (is_map ($"6d4k2") [(2, 1); (3, 6); (4, 63); (5, 192); (6, 659); (7, 1266); (8, 1909)])).  (* :326 *)
Definition drop_keep_expression__drop_keep_get_probability_distribution_keep_large_dice : unit := ltac:(passes (is_map ($"6d8k2") [(2, 1); (3, 6); (4, 63); (5, 192); (6, 665); (7, 1458); (8, 3367); (9, 6144); (10, 11523); (11, 18558); (12, 29573); (13, 40512); (14, 52243); (15, 54186); (16, 43653)])).  (* :333 *)
Definition drop_keep_expression__drop_keep_get_probability_distribution_keep_large_number_dice : unit := ltac:(passes (is_map ($"20d3k4") [(4, 1); (5, 20); (6, 210); (7, 1520); (8, 1050835); (9, 10485360); (10, 49804890); (11, 149420940); (12, 3276020625)])).  (* :356 *)
Definition drop_keep_expression__drop_keep_get_probability_distribution_keep_percentile_dice : unit := ltac:(passes (is_map ($"2d%k1") [(1, 1); (2, 3); (3, 5); (4, 7); (5, 9); (6, 11); (7, 13); (8, 15); (9, 17); (10, 19); (11, 21); (12, 23); (13, 25); (14, 27); (15, 29); (16, 31); (17, 33); (18, 35); (19, 37); (20, 39); (21, 41); (22, 43); (23, 45); (24, 47); (25, 49); (26, 51); (27, 53); (28, 55); (29, 57); (30, 59); (31, 61); (32, 63); (33, 65); (34, 67); (35, 69); (36, 71); (37, 73); (38, 75); (39, 77); (40, 79); (41, 81); (42, 83); (43, 85); (44, 87); (45, 89); (46, 91); (47, 93); (48, 95); (49, 97); (50, 99); (51, 101); (52, 103); (53, 105); (54, 107); (55, 109); (56, 111); (57, 113); (58, 115); (59, 117); (60, 119); (61, 121); (62, 123); (63, 125); (64, 127); (65, 129); (66, 131); (67, 133); (68, 135); (69, 137); (70, 139); (71, 141); (72, 143); (73, 145); (74, 147); (75, 149); (76, 151); (77, 153); (78, 155); (79, 157); (80, 159); (81, 161); (82, 163); (83, 165); (84, 167); (85, 169); (86, 171); (87, 173); (88, 175); (89, 177); (90, 179); (91, 181); (92, 183); (93, 185); (94, 187); (95, 189); (96, 191); (97, 193); (98, 195); (99, 197); (100, 199)])).  (* :373 *)
Definition drop_keep_expression__drop_keep_get_probability_distribution_drop_percentile_dice : unit := ltac:(passes (is_map ($"2d%d1") [(1, 199); (2, 197); (3, 195); (4, 193); (5, 191); (6, 189); (7, 187); (8, 185); (9, 183); (10, 181); (11, 179); (12, 177); (13, 175); (14, 173); (15, 171); (16, 169); (17, 167); (18, 165); (19, 163); (20, 161); (21, 159); (22, 157); (23, 155); (24, 153); (25, 151); (26, 149); (27, 147); (28, 145); (29, 143); (30, 141); (31, 139); (32, 137); (33, 135); (34, 133); (35, 131); (36, 129); (37, 127); (38, 125); (39, 123); (40, 121); (41, 119); (42, 117); (43, 115); (44, 113); (45, 111); (46, 109); (47, 107); (48, 105); (49, 103); (50, 101); (51, 99); (52, 97); (53, 95); (54, 93); (55, 91); (56, 89); (57, 87); (58, 85); (59, 83); (60, 81); (61, 79); (62, 77); (63, 75); (64, 73); (65, 71); (66, 69); (67, 67); (68, 65); (69, 63); (70, 61); (71, 59); (72, 57); (73, 55); (74, 53); (75, 51); (76, 49); (77, 47); (78, 45); (79, 43); (80, 41); (81, 39); (82, 37); (83, 35); (84, 33); (85, 31); (86, 29); (87, 27); (88, 25); (89, 23); (90, 21); (91, 19); (92, 17); (93, 15); (94, 13); (95, 11); (96, 9); (97, 7); (98, 5); (99, 3); (100, 1)])).  (* :380 *)
Definition drop_keep_expression__drop_keep_get_probability_distribution_keep_fate_dice : unit := ltac:(passes (is_map ($"3dFk2") [((-2), 1); ((-1), 3); (0, 7); (1, 9); (2, 7)])).  (* :387 *)
Definition drop_keep_expression__drop_keep_get_probability_distribution_drop_fate_dice : unit := ltac:(passes (is_map ($"3dFd1") [((-2), 7); ((-1), 9); (0, 7); (1, 3); (2, 1)])).  (* :394 *)
Definition drop_keep_expression__drop_keep_get_probability_distribution_keep_custom_dice : unit := ltac:(passes (is_map ($"3d[5,10,15]k2") [(10, 1); (15, 3); (20, 7); (25, 9); (30, 7)])).  (* :401 *)
Definition drop_keep_expression__drop_keep_get_probability_distribution_drop_custom_dice : unit := ltac:(passes (is_map ($"3d[-3,2,4]d1") [((-6), 7); ((-1), 9); (1, 3); (4, 4); (6, 3); (8, 1)])).  (* :408 *)
Definition drop_keep_expression__drop_keep_get_probability_distribution_keep_to_many : unit := ltac:(passes (is_map ($"2d3k10") [(2, 1); (3, 2); (4, 3); (5, 2); (6, 1)])).  (* :415 *)
Definition drop_keep_expression__drop_keep_get_probability_distribution_drop_to_many : unit := ltac:(passes (is_map ($"2d3d10") [(0, 1)])).  (* :422 *)
Definition drop_keep_expression__drop_keep_get_probability_distribution_keep_to_zero : unit := ltac:(passes (is_map ($"2d3k0") [(0, 1)])).  (* :426 *)
Definition drop_keep_expression__drop_keep_get_probability_distribution_drop_to_zero : unit := ltac:(passes (is_map ($"2d3d0") [(2, 1); (3, 2); (4, 3); (5, 2); (6, 1)])).  (* :430 *)
Definition drop_keep_expression__drop_keep_get_probability_distribution_range : unit := ltac:(passes (is_map ($"3d[-1-1, 0]d1") [((-2), 10); ((-1), 24); (0, 23); (1, 6); (2, 1)])).  (* :437 *)
Definition drop_keep_expression__drop_keep_get_contained_variables : unit := ltac:(passes (no_variables ($"4d6d2"))).  (* :444 *)
Definition drop_keep_expression__drop_keep_get_contained_variables_2 : unit := ltac:(passes (no_variables ($"4d6k2"))).  (* :444 *)

(** ** python_dice/test/expression/test_dice_expression_helper.py *)
Definition dice_expression_helper__numbered_dice : unit := ltac:(passes (die_map ($"6") [(1, 1); (2, 1); (3, 1); (4, 1); (5, 1); (6, 1)])).  (* :7 *)
Definition dice_expression_helper__fate_dice : unit := ltac:(passes (die_map ($"F") [((-1), 1); (0, 1); (1, 1)])).  (* :13 *)
Definition dice_expression_helper__percentile_dice : unit := ltac:(passes (die_map ($"%") [(1, 1); (2, 1); (3, 1); (4, 1); (5, 1); (6, 1); (7, 1); (8, 1); (9, 1); (10, 1); (11, 1); (12, 1); (13, 1); (14, 1); (15, 1); (16, 1); (17, 1); (18, 1); (19, 1); (20, 1); (21, 1); (22, 1); (23, 1); (24, 1); (25, 1); (26, 1); (27, 1); (28, 1); (29, 1); (30, 1); (31, 1); (32, 1); (33, 1); (34, 1); (35, 1); (36, 1); (37, 1); (38, 1); (39, 1); (40, 1); (41, 1); (42, 1); (43, 1); (44, 1); (45, 1); (46, 1); (47, 1); (48, 1); (49, 1); (50, 1); (51, 1); (52, 1); (53, 1); (54, 1); (55, 1); (56, 1); (57, 1); (58, 1); (59, 1); (60, 1); (61, 1); (62, 1); (63, 1); (64, 1); (65, 1); (66, 1); (67, 1); (68, 1); (69, 1); (70, 1); (71, 1); (72, 1); (73, 1); (74, 1); (75, 1); (76, 1); (77, 1); (78, 1); (79, 1); (80, 1); (81, 1); (82, 1); (83, 1); (84, 1); (85, 1); (86, 1); (87, 1); (88, 1); (89, 1); (90, 1); (91, 1); (92, 1); (93, 1); (94, 1); (95, 1); (96, 1); (97, 1); (98, 1); (99, 1); (100, 1)])).  (* :16 *)
Definition dice_expression_helper__custom_dice : unit := ltac:(passes (die_map ($"[2, -9, 1]") [(2, 1); ((-9), 1); (1, 1)])).  (* :22 *)
Definition dice_expression_helper__custom_dice_repeated_sides : unit := ltac:(passes (die_map ($"[2, -9, 1, 1, 1, 1, 1 ,2     ]") [(2, 2); ((-9), 1); (1, 5)])).  (* :28 *)
Definition dice_expression_helper__custom_dice_range : unit := ltac:(passes (die_map ($"[7-9]") [(7, 1); (8, 1); (9, 1)])).  (* :34 *)
Definition dice_expression_helper__custom_dice_range_negative : unit := ltac:(passes (die_map ($"[-3-2]") [((-3), 1); ((-2), 1); ((-1), 1); (0, 1); (1, 1); (2, 1)])).  (* :40 *)
Definition dice_expression_helper__custom_dice_range_negative_to_negative : unit := ltac:(passes (die_map ($"[-3--1, -10--7, 0]") [((-10), 1); ((-9), 1); ((-8), 1); ((-7), 1); ((-3), 1); ((-2), 1); ((-1), 1); (0, 1)])).  (* :46 *)
Definition dice_expression_helper__custom_dice_range_out_of_order_range : unit := ltac:(passes (die_map ($"[4-1, -1--3]") [((-3), 1); ((-2), 1); ((-1), 1); (1, 1); (2, 1); (3, 1); (4, 1)])).  (* :52 *)
Definition dice_expression_helper__custom_dice_multiplier : unit := ltac:(passes (die_map ($"[4*1, 5*79]") [(5, 79); (4, 1)])).  (* :58 *)
Definition dice_expression_helper__custom_dice_multiplier_range : unit := ltac:(passes (die_map ($"[4-8*2, -1-1*10]") [((-1), 10); (0, 10); (1, 10); (4, 2); (5, 2); (6, 2); (7, 2); (8, 2)])).  (* :64 *)

(** ** python_dice/test/expression/test_abs_expression.py *)
Definition abs_expression__abs_roll_pos : unit := ltac:(passes (rolls_are ($"ABS(2)") [2])).  (* :34 *)
Definition abs_expression__abs_roll_neg : unit := ltac:(passes (rolls_are ($"ABS(-4)") [4])).  (* :38 *)
Definition abs_expression__abs_max : unit := ltac:(passes (is_max ($"ABS(d[-5*1,1*2,4*1])") 5)).  (* :43 *)
Definition abs_expression__abs_min : unit := ltac:(passes (is_min ($"ABS(d[-5*1,1*2,4*1])") 1)).  (* :46 *)
Definition abs_expression__abs_str : unit := ltac:(passes (is_str ($"ABS(7d3)") ($"ABS(7d3)"))).  (* :49 *)
Definition abs_expression__abs_estimated_cost : unit := ltac:(passes (is_cost [($"ABS(d21)")] 21)).  (* :52 *)
Definition abs_expression__abs_get_probability_distribution : unit := ltac:(passes (is_map ($"ABS(d[-5*1,1*2,4*1])") [(1, 2); (4, 1); (5, 1)])).  (* :55 *)
Definition abs_expression__abs_get_contained_variables : unit := ltac:(passes (variables ($"ABS(mock)") [($"mock")])).  (* :61 *)

(** ** python_dice/test/expression/test_add_expression.py *)
Definition add_expression__add_roll : unit := ltac:(passes (rolls_are ($"10 + 4") [14])).  (* :43 *)
Definition add_expression__add_max : unit := ltac:(passes (is_max ($"d[-2*1,4*1] + d[8*1,-3*2]") 12)).  (* :47 *)
Definition add_expression__add_min : unit := ltac:(passes (is_min ($"d[-2*1,4*1] + d[8*1,-3*2]") (-5))).  (* :50 *)
Definition add_expression__add_str : unit := ltac:(passes (is_str ($"7 + 2") ($"7 + 2"))).  (* :53 *)
Definition add_expression__add_estimated_cost : unit := ltac:(passes (is_cost [($"d7 + d2")] 9)).  (* :56 *)
Definition add_expression__add_get_probability_distribution : unit := ltac:(passes (is_map ($"d[10*1,-12*2,0*1] + d[2*1,3*2]") [(12, 1); ((-10), 2); (2, 1); (13, 2); ((-9), 4); (3, 2)])).  (* :59 *)
Definition add_expression__add_get_contained_variables : unit := ltac:(passes (variables ($"mock_one + mock_two") [($"mock_one"); ($"mock_two")])).  (* :71 *)

(** ** python_dice/test/expression/test_binary_operator_and_expression.py *)
Definition binary_operator_and_expression__and_roll_false : unit := ltac:(passes (rolls_are ($"10 AND 4") [0])).  (* :45 *)
Definition binary_operator_and_expression__and_roll_true : unit := ltac:(passes (rolls_are ($"4 AND 4") [1])).  (* :49 *)
Definition binary_operator_and_expression__and_max_true : unit := ltac:(passes (is_max ($"d[-3*1,0*2,4*1] AND d[-3*2,0*1,1*2,4*1]") 1)).  (* :54 *)
Definition binary_operator_and_expression__and_max_false : unit := ltac:(passes (is_max ($"d[-2*1,-1*2] AND d[0*1]") 0)).  (* :57 *)
Definition binary_operator_and_expression__and_min_true : unit := ltac:(passes (is_min ($"d[4*1] AND d[4*1]") 1)).  (* :67 *)
Definition binary_operator_and_expression__and_min_false : unit := ltac:(passes (is_min ($"d[-3*1,0*2,4*1] AND d[-3*2,0*1,1*2,4*1]") 0)).  (* :76 *)
Definition binary_operator_and_expression__and_str : unit := ltac:(passes (is_str ($"7 AND 2d8") ($"7 AND 2d8"))).  (* :79 *)
Definition binary_operator_and_expression__and_estimated_cost : unit := ltac:(passes (is_cost [($"d9 AND d7")] 16)).  (* :82 *)
Definition binary_operator_and_expression__and_get_probability_distribution : unit := ltac:(passes (is_map ($"d[-3*1,0*2,4*1] AND d[-3*2,0*1,1*2,4*1]") [(0, 21); (1, 3)])).  (* :85 *)
Definition binary_operator_and_expression__and_get_contained_variables : unit := ltac:(passes (variables ($"mock_one AND mock_two") [($"mock_one"); ($"mock_two")])).  (* :91 *)

(** ** python_dice/test/expression/test_binary_operator_equals_expression.py *)
Definition binary_operator_equals_expression__eq_roll_false : unit := ltac:(passes (rolls_are ($"10 == 4") [0])).  (* :45 *)
Definition binary_operator_equals_expression__eq_roll_true : unit := ltac:(passes (rolls_are ($"4 == 4") [1])).  (* :49 *)
Definition binary_operator_equals_expression__eq_max_true : unit := ltac:(passes (is_max ($"d[-3*1,0*2,4*1] == d[-3*2,0*1,1*2,4*1]") 1)).  (* :54 *)
Definition binary_operator_equals_expression__eq_max_false : unit := ltac:(passes (is_max ($"d[-2*1,0*2,4*1] == d[-3*2,1*1,3*2,5*1]") 0)).  (* :57 *)
Definition binary_operator_equals_expression__eq_min_true : unit := ltac:(passes (is_min ($"d[4*1] == d[4*1]") 1)).  (* :67 *)
Definition binary_operator_equals_expression__eq_min_false : unit := ltac:(passes (is_min ($"d[-3*1,0*2,4*1] == d[-3*2,0*1,1*2,4*1]") 0)).  (* :76 *)
Definition binary_operator_equals_expression__eq_str : unit := ltac:(passes (is_str ($"7 == 2d8") ($"7 == 2d8"))).  (* :79 *)
Definition binary_operator_equals_expression__eq_estimated_cost : unit := ltac:(passes (is_cost [($"d9 == d7")] 16)).  (* :82 *)
Definition binary_operator_equals_expression__eq_get_probability_distribution : unit := ltac:(passes (is_map ($"d[-3*1,0*2,4*1] == d[-3*2,0*1,1*2,4*1]") [(0, 19); (1, 5)])).  (* :85 *)
Definition binary_operator_equals_expression__eq_get_contained_variables : unit := ltac:(passes (variables ($"mock_one == mock_two") [($"mock_one"); ($"mock_two")])).  (* :91 *)

(** ** python_dice/test/expression/test_binary_operator_greater_than_equals_expression.py *)
Definition binary_operator_greater_than_equals_expression__ge_roll_true : unit := ltac:(passes (rolls_are ($"9 >= 4") [1])).  (* :45 *)
Definition binary_operator_greater_than_equals_expression__ge_roll_false : unit := ltac:(passes (rolls_are ($"2 >= 4") [0])).  (* :49 *)
Definition binary_operator_greater_than_equals_expression__ge_max_true : unit := ltac:(passes (is_max ($"d[-3*1,0*2,4*1] >= d[-3*2,0*1,1*2,4*1]") 1)).  (* :54 *)
Definition binary_operator_greater_than_equals_expression__ge_max_false : unit := ltac:(passes (is_max ($"d[3*1] >= d[5*1]") 0)).  (* :57 *)
Definition binary_operator_greater_than_equals_expression__ge_min_true : unit := ltac:(passes (is_min ($"d[4*1,5*1] >= d[4*1]") 1)).  (* :67 *)
Definition binary_operator_greater_than_equals_expression__ge_min_false : unit := ltac:(passes (is_min ($"d[-3*1,0*2,4*1] >= d[-3*2,0*1,1*2,4*1]") 0)).  (* :76 *)
Definition binary_operator_greater_than_equals_expression__ge_str : unit := ltac:(passes (is_str ($"7 >= 2d8") ($"7 >= 2d8"))).  (* :79 *)
Definition binary_operator_greater_than_equals_expression__ge_estimated_cost : unit := ltac:(passes (is_cost [($"d9 >= d7")] 16)).  (* :82 *)
Definition binary_operator_greater_than_equals_expression__ge_get_probability_distribution : unit := ltac:(passes (is_map ($"d[-3*1,0*2,4*1] >= d[-3*2,0*1,1*2,4*1]") [(0, 10); (1, 14)])).  (* :85 *)
Definition binary_operator_greater_than_equals_expression__ge_get_contained_variables : unit := ltac:(passes (variables ($"mock_one >= mock_two") [($"mock_one"); ($"mock_two")])).  (* :91 *)

(** ** python_dice/test/expression/test_binary_operator_greater_than_expression.py *)
Definition binary_operator_greater_than_expression__gt_roll_true : unit := ltac:(passes (rolls_are ($"9 > 4") [1])).  (* :45 *)
Definition binary_operator_greater_than_expression__gt_roll_false : unit := ltac:(passes (rolls_are ($"2 > 4") [0])).  (* :49 *)
Definition binary_operator_greater_than_expression__gt_max_true : unit := ltac:(passes (is_max ($"d[-3*1,0*2,4*1] > d[-3*2,0*1,1*2,4*1]") 1)).  (* :54 *)
Definition binary_operator_greater_than_expression__gt_max_false : unit := ltac:(passes (is_max ($"d[5*1] > d[5*1]") 0)).  (* :57 *)
Definition binary_operator_greater_than_expression__gt_min_true : unit := ltac:(passes (is_min ($"d[5*1,6*1] > d[4*1]") 1)).  (* :67 *)
Definition binary_operator_greater_than_expression__gt_min_false : unit := ltac:(passes (is_min ($"d[-3*1,0*2,4*1] > d[-3*2,0*1,1*2,4*1]") 0)).  (* :76 *)
Definition binary_operator_greater_than_expression__gt_str : unit := ltac:(passes (is_str ($"7 > 2d8") ($"7 > 2d8"))).  (* :79 *)
Definition binary_operator_greater_than_expression__gt_estimated_cost : unit := ltac:(passes (is_cost [($"d9 > d7")] 16)).  (* :82 *)
Definition binary_operator_greater_than_expression__gt_get_probability_distribution : unit := ltac:(passes (is_map ($"d[-3*1,0*2,4*1] > d[-3*2,0*1,1*2,4*1]") [(0, 15); (1, 9)])).  (* :85 *)
Definition binary_operator_greater_than_expression__gt_get_contained_variables : unit := ltac:(passes (variables ($"mock_one > mock_two") [($"mock_one"); ($"mock_two")])).  (* :91 *)

(** ** python_dice/test/expression/test_binary_operator_less_than_equals_expression.py *)
Definition binary_operator_less_than_equals_expression__le_roll_true : unit := ltac:(passes (rolls_are ($"2 <= 4") [1])).  (* :45 *)
Definition binary_operator_less_than_equals_expression__le_roll_false : unit := ltac:(passes (rolls_are ($"5 <= 4") [0])).  (* :49 *)
Definition binary_operator_less_than_equals_expression__le_max_true : unit := ltac:(passes (is_max ($"d[-3*1,0*2,4*1] <= d[-3*2,0*1,1*2,4*1]") 1)).  (* :54 *)
Definition binary_operator_less_than_equals_expression__le_max_false : unit := ltac:(passes (is_max ($"d[6*1] <= d[5*1]") 0)).  (* :57 *)
Definition binary_operator_less_than_equals_expression__le_min_true : unit := ltac:(passes (is_min ($"d[3*1] <= d[4*1]") 1)).  (* :67 *)
Definition binary_operator_less_than_equals_expression__le_min_false : unit := ltac:(passes (is_min ($"d[-3*1,0*2,4*1] <= d[-3*2,0*1,1*2,4*1]") 0)).  (* :76 *)
Definition binary_operator_less_than_equals_expression__le_str : unit := ltac:(passes (is_str ($"7 <= 2d8") ($"7 <= 2d8"))).  (* :79 *)
Definition binary_operator_less_than_equals_expression__le_estimated_cost : unit := ltac:(passes (is_cost [($"d9 <= d7")] 16)).  (* :82 *)
Definition binary_operator_less_than_equals_expression__le_get_probability_distribution : unit := ltac:(passes (is_map ($"d[-3*1,0*2,4*1] <= d[-3*2,0*1,1*2,4*1]") [(0, 9); (1, 15)])).  (* :85 *)
Definition binary_operator_less_than_equals_expression__le_get_contained_variables : unit := ltac:(passes (variables ($"mock_one <= mock_two") [($"mock_one"); ($"mock_two")])).  (* :91 *)

(** ** python_dice/test/expression/test_binary_operator_less_than_expression.py *)
Definition binary_operator_less_than_expression__lt_roll_true : unit := ltac:(passes (rolls_are ($"2 < 4") [1])).  (* :45 *)
Definition binary_operator_less_than_expression__lt_roll_false : unit := ltac:(passes (rolls_are ($"4 < 4") [0])).  (* :49 *)
Definition binary_operator_less_than_expression__lt_max_true : unit := ltac:(passes (is_max ($"d[-3*1,0*2,4*1] < d[-3*2,0*1,1*2,4*1]") 1)).  (* :54 *)
Definition binary_operator_less_than_expression__lt_max_false : unit := ltac:(passes (is_max ($"d[5*1] < d[5*1]") 0)).  (* :57 *)
Definition binary_operator_less_than_expression__lt_min_true : unit := ltac:(passes (is_min ($"d[3*1] < d[4*1]") 1)).  (* :67 *)
Definition binary_operator_less_than_expression__lt_min_false : unit := ltac:(passes (is_min ($"d[-3*1,0*2,4*1] < d[-3*2,0*1,1*2,4*1]") 0)).  (* :76 *)
Definition binary_operator_less_than_expression__lt_str : unit := ltac:(passes (is_str ($"7 < 2d8") ($"7 < 2d8"))).  (* :79 *)
Definition binary_operator_less_than_expression__lt_estimated_cost : unit := ltac:(passes (is_cost [($"d9 < d7")] 16)).  (* :82 *)
Definition binary_operator_less_than_expression__lt_get_probability_distribution : unit := ltac:(passes (is_map ($"d[-3*1,0*2,4*1] < d[-3*2,0*1,1*2,4*1]") [(0, 14); (1, 10)])).  (* :85 *)
Definition binary_operator_less_than_expression__lt_get_contained_variables : unit := ltac:(passes (variables ($"mock_one < mock_two") [($"mock_one"); ($"mock_two")])).  (* :91 *)

(** ** python_dice/test/expression/test_binary_operator_not_equals_expression.py *)
Definition binary_operator_not_equals_expression__ne_roll_true : unit := ltac:(passes (rolls_are ($"10 != 4") [1])).  (* :45 *)
Definition binary_operator_not_equals_expression__ne_roll_false : unit := ltac:(passes (rolls_are ($"4 != 4") [0])).  (* :49 *)
Definition binary_operator_not_equals_expression__ne_max_true : unit := ltac:(passes (is_max ($"d[-3*1,0*2,4*1] != d[-3*2,0*1,1*2,4*1]") 1)).  (* :54 *)
Definition binary_operator_not_equals_expression__ne_max_false : unit := ltac:(passes (is_max ($"d[5*1] != d[5*1]") 0)).  (* :57 *)
Definition binary_operator_not_equals_expression__ne_min_true : unit := ltac:(passes (is_min ($"d[3*1] != d[4*1]") 1)).  (* :67 *)
Definition binary_operator_not_equals_expression__ne_min_false : unit := ltac:(passes (is_min ($"d[-3*1,0*2,4*1] != d[-3*2,0*1,1*2,4*1]") 0)).  (* :76 *)
Definition binary_operator_not_equals_expression__ne_str : unit := ltac:(passes (is_str ($"7 != 2d8") ($"7 != 2d8"))).  (* :79 *)
Definition binary_operator_not_equals_expression__ne_estimated_cost : unit := ltac:(passes (is_cost [($"d9 != d7")] 16)).  (* :82 *)
Definition binary_operator_not_equals_expression__ne_get_probability_distribution : unit := ltac:(passes (is_map ($"d[-3*1,0*2,4*1] != d[-3*2,0*1,1*2,4*1]") [(0, 5); (1, 19)])).  (* :85 *)
Definition binary_operator_not_equals_expression__ne_get_contained_variables : unit := ltac:(passes (variables ($"mock_one != mock_two") [($"mock_one"); ($"mock_two")])).  (* :91 *)

(** ** python_dice/test/expression/test_binary_operator_not_expression.py *)
Definition binary_operator_not_expression__ne_roll_true : unit := ltac:(passes (rolls_are ($"!0") [1])).  (* :33 *)
Definition binary_operator_not_expression__ne_roll_false : unit := ltac:(passes (rolls_are ($"!4") [0])).  (* :37 *)
Definition binary_operator_not_expression__ne_max_true : unit := ltac:(passes (is_max ($"!d[-3*1,0*2,4*1]") 1)).  (* :42 *)
Definition binary_operator_not_expression__ne_max_false : unit := ltac:(passes (is_max ($"!d[4*1,54*1]") 0)).  (* :46 *)
Definition binary_operator_not_expression__ne_min_true : unit := ltac:(passes (is_min ($"!d[0*1]") 1)).  (* :52 *)
Definition binary_operator_not_expression__ne_min_false : unit := ltac:(passes (is_min ($"!d[-3*1,0*2,4*1]") 0)).  (* :58 *)
Definition binary_operator_not_expression__ne_str : unit := ltac:(passes (is_str ($"!7d3") ($"!7d3"))).  (* :61 *)
Definition binary_operator_not_expression__ne_estimated_cost : unit := ltac:(passes (is_cost [($"!d9")] 9)).  (* :64 *)
Definition binary_operator_not_expression__ne_get_probability_distribution : unit := ltac:(passes (is_map ($"!d[-3*1,0*2,4*1]") [(0, 1); (1, 3)])).  (* :67 *)
Definition binary_operator_not_expression__ne_get_contained_variables : unit := ltac:(passes (variables ($"!mock") [($"mock")])).  (* :73 *)

(** ** python_dice/test/expression/test_binary_operator_or_expression.py *)
Definition binary_operator_or_expression__or_roll_false : unit := ltac:(passes (rolls_are ($"0 OR 0") [0])).  (* :45 *)
Definition binary_operator_or_expression__or_roll_true : unit := ltac:(passes (rolls_are ($"4 OR 4") [1])).  (* :51 *)
Definition binary_operator_or_expression__and_max_true : unit := ltac:(passes (is_max ($"d[-3*1,0*2,4*1] OR d[-3*2,0*1,1*2,4*1]") 1)).  (* :56 *)
Definition binary_operator_or_expression__or_max_false : unit := ltac:(passes (is_max ($"d[0*1] OR d[0*1]") 0)).  (* :59 *)
Definition binary_operator_or_expression__or_min_true : unit := ltac:(passes (is_min ($"d[4*1] OR d[4*1]") 1)).  (* :69 *)
Definition binary_operator_or_expression__or_min_false : unit := ltac:(passes (is_min ($"d[-3*1,0*2,4*1] OR d[-3*2,0*1,1*2,4*1]") 0)).  (* :78 *)
Definition binary_operator_or_expression__or_str : unit := ltac:(passes (is_str ($"7 OR 2d8") ($"7 OR 2d8"))).  (* :81 *)
Definition binary_operator_or_expression__or_estimated_cost : unit := ltac:(passes (is_cost [($"d9 OR d7")] 16)).  (* :84 *)
Definition binary_operator_or_expression__or_get_probability_distribution : unit := ltac:(passes (is_map ($"d[-3*1,0*2,4*1] OR d[-3*2,0*1,1*2,4*1]") [(0, 9); (1, 15)])).  (* :87 *)
Definition binary_operator_or_expression__or_get_contained_variables : unit := ltac:(passes (variables ($"mock_one OR mock_two") [($"mock_one"); ($"mock_two")])).  (* :93 *)

(** ** python_dice/test/expression/test_integer_division_expression.py *)
Definition integer_division_expression__integer_division_roll : unit := ltac:(passes (rolls_are ($"10 // 3") [3])).  (* :51 *)
Definition integer_division_expression__integer_division_roll_raise_on_zero : unit := ltac:(passes (roll_zero_division ($"10 // 0"))).  (* :55 *)
Definition integer_division_expression__integer_division_max : unit := ltac:(passes (is_max ($"d[201*1,-10*1] // d[2*1,-2*1]") 100)).  (* :59 *)
Definition integer_division_expression__integer_division_max_raise_on_zero : unit := ltac:(passes (ext_zero_division true ($"d[10*1,12*2] // d[2*1,3*2,0*10]"))).  (* :62 *)
Definition integer_division_expression__integer_division_min : unit := ltac:(passes (is_min ($"d[201*1,-10*1] // d[2*1,-2*1]") (-101))).  (* :66 *)
Definition integer_division_expression__integer_division_min_raise_on_zero : unit := ltac:(passes (ext_zero_division false ($"d[10*1,12*2] // d[2*1,3*2,0*10]"))).  (* :69 *)
Definition integer_division_expression__integer_division_str : unit := ltac:(passes (is_str ($"7 // 2") ($"7 // 2"))).  (* :73 *)
Definition integer_division_expression__integer_division_estimated_cost : unit := ltac:(passes (is_cost [($"d7 // d9")] 16)).  (* :76 *)
Definition integer_division_expression__integer_division_get_probability_distribution : unit := ltac:(passes (is_map ($"d[10*1,12*2,0*1] // d[2*1,3*2]") [(5, 1); (6, 2); (3, 2); (4, 4); (0, 3)])).  (* :79 *)
Definition integer_division_expression__integer_division_get_probability_distribution_raise_on_zero : unit := ltac:(passes (dist_zero_division ($"d[10*1,12*2] // d[2*1,3*2,0*10]"))).  (* :91 *)
Definition integer_division_expression__integer_division_get_contained_variables : unit := ltac:(passes (variables ($"mock_one // mock_two") [($"mock_one"); ($"mock_two")])).  (* :95 *)

(** ** python_dice/test/expression/test_minmax_expression.py *)
Definition minmax_expression__max_roll : unit := ltac:(passes (rolls_are ($"MAX(10, 4)") [10])).  (* :45 *)
Definition minmax_expression__min_roll : unit := ltac:(passes (rolls_are ($"MIN(10, 4)") [4])).  (* :49 *)
Definition minmax_expression__max_max : unit := ltac:(passes (is_max ($"MAX(8, 6)") 8)).  (* :54 *)
Definition minmax_expression__min_max : unit := ltac:(passes (is_max ($"MIN(8, 6)") 6)).  (* :57 *)
Definition minmax_expression__max_min : unit := ltac:(passes (is_max ($"MAX(8, 6)") 8)).  (* :61 *)
Definition minmax_expression__min_min : unit := ltac:(passes (is_min ($"MIN(6, 8)") 6)).  (* :64 *)
Definition minmax_expression__max_str : unit := ltac:(passes (is_str ($"MAX(7d7, 2d2)") ($"MAX(7d7, 2d2)"))).  (* :68 *)
Definition minmax_expression__min_str : unit := ltac:(passes (is_str ($"MIN(7d7, 2d2)") ($"MIN(7d7, 2d2)"))).  (* :71 *)
Definition minmax_expression__min_max_estimated_cost : unit := ltac:(passes (is_cost [($"MAX(d9, d7)")] 16)).  (* :75 *)
Definition minmax_expression__max_get_probability_distribution : unit := ltac:(passes (is_map ($"MAX(d[10*1,-12*2,0*1], d[2*1,3*2])") [(2, 3); (3, 6); (10, 3)])).  (* :78 *)
Definition minmax_expression__min_get_probability_distribution : unit := ltac:(passes (is_map ($"MIN(d[10*1,-12*2,0*1], d[2*1,3*2])") [((-12), 6); (0, 3); (2, 1); (3, 2)])).  (* :90 *)
Definition minmax_expression__max_get_probability_distribution_second_example : unit := ltac:(passes (is_map ($"MAX(d[-3*1,-2*1,-1*1,0*1,5*1,6*1], d[0*1])") [(0, 4); (5, 1); (6, 1)])).  (* :103 *)
Definition minmax_expression__min_get_probability_distribution_second_example : unit := ltac:(passes (is_map ($"MIN(d[-1*1,1*1], d[0*1])") [(0, 1); ((-1), 1)])).  (* :115 *)
Definition minmax_expression__max_get_probability_distribution_third_example : unit := ltac:(passes (is_map ($"MAX(d[-1*1,1*1], d[0*1])") [(0, 1); (1, 1)])).  (* :128 *)
Definition minmax_expression__min_get_probability_distribution_third_example : unit := ltac:(passes (is_map ($"MIN(d[-3*1,-2*1,-1*1,0*1,5*1,6*1], d[0*1])") [((-3), 1); ((-2), 1); ((-1), 1); (0, 3)])).  (* :140 *)
Definition minmax_expression__min_get_contained_variables : unit := ltac:(passes (variables ($"MAX(mock_one, mock_two)") [($"mock_one"); ($"mock_two")])).  (* :153 *)

(** ** python_dice/test/expression/test_multiply_expression.py *)
Definition multiply_expression__multiply_roll : unit := ltac:(passes (rolls_are ($"10 * 4") [40])).  (* :43 *)
Definition multiply_expression__multiply_max : unit := ltac:(passes (is_max ($"d[-2*1,4*1] * d[8*1,-3*2]") 32)).  (* :47 *)
Definition multiply_expression__multiply_min : unit := ltac:(passes (is_min ($"d[-2*1,4*1] * d[8*1,-3*2]") (-16))).  (* :50 *)
Definition multiply_expression__multiply_str : unit := ltac:(passes (is_str ($"7 * 2") ($"7 * 2"))).  (* :53 *)
Definition multiply_expression__multiply_estimated_cost : unit := ltac:(passes (is_cost [($"d9 * d7")] 16)).  (* :56 *)
Definition multiply_expression__multiply_get_probability_distribution : unit := ltac:(passes (is_map ($"d[10*1,-12*2,0*1] * d[2*1,3*2]") [((-36), 4); ((-24), 2); (0, 3); (20, 1); (30, 2)])).  (* :59 *)
Definition multiply_expression__multiply_get_contained_variables : unit := ltac:(passes (variables ($"mock_one * mock_two") [($"mock_one"); ($"mock_two")])).  (* :71 *)

(** ** python_dice/test/expression/test_subtract_expression.py *)
Definition subtract_expression__subtract_roll : unit := ltac:(passes (rolls_are ($"10 - 4") [6])).  (* :43 *)
Definition subtract_expression__subtract_max : unit := ltac:(passes (is_max ($"d[-2*1,4*1] - d[8*1,-3*2]") 7)).  (* :47 *)
Definition subtract_expression__subtract_min : unit := ltac:(passes (is_min ($"d[-2*1,4*1] - d[8*1,-3*2]") (-10))).  (* :50 *)
Definition subtract_expression__subtract_str : unit := ltac:(passes (is_str ($"7 - 2") ($"7 - 2"))).  (* :53 *)
Definition subtract_expression__subtract_estimated_cost : unit := ltac:(passes (is_cost [($"d9 - d7")] 16)).  (* :56 *)
Definition subtract_expression__subtract_get_probability_distribution : unit := ltac:(passes (is_map ($"d[10*1,-12*2,0*1] - d[2*1,3*2]") [(8, 1); ((-14), 2); ((-2), 1); (7, 2); ((-15), 4); ((-3), 2)])).  (* :59 *)
Definition subtract_expression__subtract_get_contained_variables : unit := ltac:(passes (variables ($"mock_one - mock_two") [($"mock_one"); ($"mock_two")])).  (* :71 *)

(** ** python_dice/test/probability_distribution/test_probability_distribution.py *)
Definition probability_distribution__probability_distribution_get_result_map : unit := ltac:(passes (map_is (made [(1, 1); (2, 1); (3, 1); (4, 1)]) [(1, 1); (2, 1); (3, 1); (4, 1)])).  (* :21 *)
Definition probability_distribution__probability_distribution_get_dict_form : unit := ltac:(passes (dict_is (made [(1, 1); (2, 1); (3, 1); (4, 1)]) [(1, S754_finite false 4503599627370496 (-54)); (2, S754_finite false 4503599627370496 (-54)); (3, S754_finite false 4503599627370496 (-54)); (4, S754_finite false 4503599627370496 (-54))])).  (* :24 *)
Definition probability_distribution__probability_distribution_add : unit := ltac:(passes (map_is (joined VAdd (made [(1, 1); (2, 1); (3, 1); (4, 1)]) (made [(2, 1)])) [(3, 1); (4, 1); (5, 1); (6, 1)])).  (* :30 *)
Definition probability_distribution__probability_distribution_add_2 : unit := ltac:(passes (map_is (joined VAdd (made [(1, 1); (2, 1); (3, 1); (4, 1)]) (made [(1, 1); (2, 1); (3, 1); (4, 1)])) [(2, 1); (3, 2); (4, 3); (5, 4); (6, 3); (7, 2); (8, 1)])).  (* :30 *)
Definition probability_distribution__probability_distribution_sub : unit := ltac:(passes (map_is (joined VSub (made [(1, 1); (2, 1); (3, 1); (4, 1)]) (made [(2, 1)])) [((-1), 1); (0, 1); (1, 1); (2, 1)])).  (* :46 *)
Definition probability_distribution__probability_distribution_sub_2 : unit := ltac:(passes (map_is (joined VSub (made [(1, 1); (2, 1); (3, 1); (4, 1)]) (made [(1, 1); (2, 1); (3, 1); (4, 1)])) [((-3), 1); ((-2), 2); ((-1), 3); (0, 4); (1, 3); (2, 2); (3, 1)])).  (* :46 *)
Definition probability_distribution__probability_distribution_mul : unit := ltac:(passes (map_is (joined VMul (made [(1, 1); (2, 1); (3, 1); (4, 1)]) (made [(2, 1)])) [(2, 1); (4, 1); (6, 1); (8, 1)])).  (* :62 *)
Definition probability_distribution__probability_distribution_mul_2 : unit := ltac:(passes (map_is (joined VMul (made [(1, 1); (2, 1); (3, 1); (4, 1)]) (made [(1, 1); (2, 1); (3, 1); (4, 1)])) [(1, 1); (2, 2); (3, 2); (4, 3); (6, 2); (8, 2); (9, 1); (12, 2); (16, 1)])).  (* :62 *)
Definition probability_distribution__probability_distribution_floordiv : unit := ltac:(passes (map_is (joined VDiv (made [(1, 1); (2, 1); (3, 1); (4, 1)]) (made [(2, 1)])) [(0, 1); (1, 2); (2, 1)])).  (* :78 *)
Definition probability_distribution__probability_distribution_floordiv_2 : unit := ltac:(passes (map_is (joined VDiv (made [(1, 1); (2, 1); (3, 1); (4, 1)]) (made [(1, 1); (2, 1); (3, 1); (4, 1)])) [(0, 6); (1, 6); (2, 2); (3, 1); (4, 1)])).  (* :78 *)
Definition probability_distribution__probability_distribution_max_operator : unit := ltac:(passes (map_is (joined VMax (made [(1, 1); (2, 1); (3, 1); (4, 1)]) (made [(2, 1)])) [(2, 2); (3, 1); (4, 1)])).  (* :91 *)
Definition probability_distribution__probability_distribution_max_operator_2 : unit := ltac:(passes (map_is (joined VMax (made [(1, 1); (2, 1); (3, 1); (4, 1)]) (made [(1, 1); (2, 1); (3, 1); (4, 1)])) [(1, 1); (2, 3); (3, 5); (4, 7)])).  (* :91 *)
Definition probability_distribution__probability_distribution_min_operator : unit := ltac:(passes (map_is (joined VMin (made [(1, 1); (2, 1); (3, 1); (4, 1)]) (made [(2, 1)])) [(1, 1); (2, 3)])).  (* :104 *)
Definition probability_distribution__probability_distribution_min_operator_2 : unit := ltac:(passes (map_is (joined VMin (made [(1, 1); (2, 1); (3, 1); (4, 1)]) (made [(1, 1); (2, 1); (3, 1); (4, 1)])) [(1, 7); (2, 5); (3, 3); (4, 1)])).  (* :104 *)
Definition probability_distribution__probability_distribution_max : unit := ltac:(passes (ext_is true (joined VMul (made [(1, 1); (2, 1); (3, 1); (4, 1)]) (made [(2, 1)])) 8)).  (* :117 *)
Definition probability_distribution__probability_distribution_max_2 : unit := ltac:(passes (ext_is true (joined VSub (made [(1, 1); (2, 1); (3, 1); (4, 1)]) (made [(1, 1); (2, 1); (3, 1); (4, 1)])) 3)).  (* :117 *)
Definition probability_distribution__probability_distribution_min : unit := ltac:(passes (ext_is false (joined VMul (made [(1, 1); (2, 1); (3, 1); (4, 1)]) (made [(1, 1); (2, 1); (3, 1); (4, 1)])) 1)).  (* :123 *)
Definition probability_distribution__probability_distribution_min_2 : unit := ltac:(passes (ext_is false (joined VSub (made [(1, 1); (2, 1); (3, 1); (4, 1)]) (made [(1, 1); (2, 1); (3, 1); (4, 1)])) (-3))).  (* :123 *)
Definition probability_distribution__probability_distribution_contains_zero : unit := ltac:(passes (zero_is (joined VMul (made [(1, 1); (2, 1); (3, 1); (4, 1)]) (made [(1, 1); (2, 1); (3, 1); (4, 1)])) false)).  (* :129 *)
Definition probability_distribution__probability_distribution_contains_zero_2 : unit := ltac:(passes (zero_is (joined VSub (made [(1, 1); (2, 1); (3, 1); (4, 1)]) (made [(1, 1); (2, 1); (3, 1); (4, 1)])) true)).  (* :129 *)
Definition probability_distribution__probability_distribution_eq : unit := ltac:(passes (map_is (joined VEq (made [(1, 1); (2, 1); (3, 1); (4, 1)]) (made [(1, 1); (2, 1); (3, 1); (4, 1)])) [(0, 12); (1, 4)])).  (* :181 *)
Definition probability_distribution__probability_distribution_ne : unit := ltac:(passes (map_is (joined VNe (made [(1, 1); (2, 1); (3, 1); (4, 1)]) (made [(1, 1); (2, 1); (3, 1); (4, 1)])) [(0, 4); (1, 12)])).  (* :192 *)
Definition probability_distribution__probability_distribution_lt : unit := ltac:(passes (map_is (joined VLt (made [(1, 1); (2, 1); (3, 1); (4, 1)]) (made [(1, 1); (2, 1); (3, 1); (4, 1)])) [(0, 10); (1, 6)])).  (* :203 *)
Definition probability_distribution__probability_distribution_le : unit := ltac:(passes (map_is (joined VLe (made [(1, 1); (2, 1); (3, 1); (4, 1)]) (made [(1, 1); (2, 1); (3, 1); (4, 1)])) [(0, 6); (1, 10)])).  (* :214 *)
Definition probability_distribution__probability_distribution_gt : unit := ltac:(passes (map_is (joined VGt (made [(1, 1); (2, 1); (3, 1); (4, 1)]) (made [(1, 1); (2, 1); (3, 1); (4, 1)])) [(0, 10); (1, 6)])).  (* :225 *)
Definition probability_distribution__probability_distribution_ge : unit := ltac:(passes (map_is (joined VGe (made [(1, 1); (2, 1); (3, 1); (4, 1)]) (made [(1, 1); (2, 1); (3, 1); (4, 1)])) [(0, 6); (1, 10)])).  (* :236 *)
Definition probability_distribution__probability_distribution_not_operator : unit := ltac:(passes (map_is (changed o_not (made [(0, 1); (1, 1); (2, 1); (3, 1)])) [(0, 3); (1, 1)])).  (* :247 *)
Definition probability_distribution__probability_distribution_and : unit := ltac:(passes (map_is (joined VAnd (made [(1, 1); (2, 1); (3, 1); (4, 1)]) (made [(0, 1); (1, 1)])) [(0, 4); (1, 4)])).  (* :254 *)
Definition probability_distribution__probability_distribution_or : unit := ltac:(passes (map_is (joined VOr (made [(0, 1); (1, 1)]) (made [(0, 1); (1, 1)])) [(0, 1); (1, 3)])).  (* :266 *)
Definition probability_distribution__probability_distribution_abs : unit := ltac:(passes (map_is (changed o_abs (made [((-2), 2); ((-1), 1); (0, 1); (1, 1); (2, 3)])) [(0, 1); (1, 2); (2, 5)])).  (* :278 *)
Definition probability_distribution__str : unit := ltac:(passes (printed (made [(1, 2); (2, 3); (3, 16); (4, 1)]) ($"ProbabilityDistribution, result_map={ProbabilityOutcome: value=1, constraint_set=ConstraintSet: {NullConstraint}: 2, ProbabilityOutcome: value=2, constraint_set=ConstraintSet: {NullConstraint}: 3, ProbabilityOutcome: value=3, constraint_set=ConstraintSet: {NullConstraint}: 16, ProbabilityOutcome: value=4, constraint_set=ConstraintSet: {NullConstraint}: 1}"))).  (* :378 *)
Definition probability_distribution__repr : unit := ltac:(passes (printed (made [(1, 2); (2, 3); (3, 16); (4, 1)]) ($"ProbabilityDistribution, result_map={ProbabilityOutcome: value=1, constraint_set=ConstraintSet: {NullConstraint}: 2, ProbabilityOutcome: value=2, constraint_set=ConstraintSet: {NullConstraint}: 3, ProbabilityOutcome: value=3, constraint_set=ConstraintSet: {NullConstraint}: 16, ProbabilityOutcome: value=4, constraint_set=ConstraintSet: {NullConstraint}: 1}"))).  (* :388 *)

(** ** python_dice/test/probability_distribution/test_intergration_probability_outcome.py *)
Definition intergration_probability_outcome__add : unit := ltac:(passes (outcome_is VAdd 2222222211)).  (* :56 *)
Definition intergration_probability_outcome__sub : unit := ltac:(passes (outcome_is VSub 246913569)).  (* :71 *)
Definition intergration_probability_outcome__mul : unit := ltac:(passes (outcome_is VMul 1219326311126352690)).  (* :86 *)
Definition intergration_probability_outcome__floordiv : unit := ltac:(passes (outcome_is VDiv 1)).  (* :101 *)
Definition intergration_probability_outcome__equal : unit := ltac:(passes (outcome_is VEq 0)).  (* :116 *)
Definition intergration_probability_outcome__not_equal : unit := ltac:(passes (outcome_is VNe 1)).  (* :131 *)
Definition intergration_probability_outcome__lt : unit := ltac:(passes (outcome_is VLt 0)).  (* :146 *)
Definition intergration_probability_outcome__le : unit := ltac:(passes (outcome_is VLe 0)).  (* :161 *)
Definition intergration_probability_outcome__gt : unit := ltac:(passes (outcome_is VGt 1)).  (* :176 *)
Definition intergration_probability_outcome__ge : unit := ltac:(passes (outcome_is VGe 1)).  (* :191 *)
Definition intergration_probability_outcome__and : unit := ltac:(passes (outcome_is VAnd 1)).  (* :206 *)
Definition intergration_probability_outcome__or : unit := ltac:(passes (outcome_is VOr 1)).  (* :221 *)
Definition intergration_probability_outcome__max_operator : unit := ltac:(passes (outcome_is VMax 1234567890)).  (* :246 *)
Definition intergration_probability_outcome__min_operator : unit := ltac:(passes (outcome_is VMin 987654321)).  (* :261 *)
