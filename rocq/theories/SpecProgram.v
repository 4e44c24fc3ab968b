(** * SpecProgram: what expressions and programs mean, as the README describes them.

    The dice of an expression are rolled, every joint result being listed once; the expression is then
    read as arithmetic.  Nothing here refers to how the code computes distributions. *)
From Verif Require Import Py Constraint Distribution DiceModel Expr SpecDice.

(** ** Arithmetic of the README: comparisons give 1 or 0, and a value above 0 counts as true *)
Definition truth (b : bool) : Z := if b then 1 else 0.
Definition is_true (x : Z) : bool := 0 <? x.

Definition operator_meaning (op : text) : option (Z -> Z -> Z) :=
  if text_eqb op $"==" then Some (fun x y => truth (x =? y))
  else if text_eqb op $"!=" then Some (fun x y => truth (negb (x =? y)))
  else if text_eqb op $"<" then Some (fun x y => truth (x <? y))
  else if text_eqb op $"<=" then Some (fun x y => truth (x <=? y))
  else if text_eqb op $">" then Some (fun x y => truth (y <? x))
  else if text_eqb op $">=" then Some (fun x y => truth (y <=? x))
  else if text_eqb op $"AND" then Some (fun x y => truth (is_true x && is_true y))
  else if text_eqb op $"OR" then Some (fun x y => truth (is_true x || is_true y))
  else None.

Definition minmax_meaning (mm : text) : option (Z -> Z -> Z) :=
  if text_eqb mm $"MAX" then Some Z.max else if text_eqb mm $"MIN" then Some Z.min else None.

(** ** Joint results of the dice of an expression.

    [None] is a result on which the expression has no value: a division by zero, or a variable without a
    value.  [sides] gives the list of sides of a die from its map: [faces] lists a side as often as it occurs,
    [map fst] lists it once even if its multiplicity is zero. *)
Definition both (f : Z -> Z -> option Z) (a b : list (option Z)) : list (option Z) :=
  flat_map (fun x => map (fun y => match x, y with Some x, Some y => f x y | _, _ => None end) b) a.

Definition meaning (f : option (Z -> Z -> Z)) (x y : Z) : option Z :=
  match f with Some f => Some (f x y) | None => None end.

(** The results of a drop or keep pool; when no die counts, there is nothing to roll *)
Definition pool_results (sides : list (Z * Z) -> list Z) (dk : dropkeep) : list Z :=
  let rolls := tuples (Z.to_nat (dk_num dk)) (sides (dk_map dk)) in
  if dk_keep dk then
    if dk_k dk =? 0 then [0] else map (keep_highest (Z.to_nat (dk_k dk))) rolls
  else
    if dk_num dk <=? dk_k dk then [0] else map (drop_highest (Z.to_nat (dk_k dk))) rolls.

Fixpoint joint (sides : list (Z * Z) -> list Z) (env : text -> option Z) (e : expr) : list (option Z) :=
  match e with
  | EParen e => joint sides env e
  | ENot e => map (option_map (fun x => truth (negb (is_true x)))) (joint sides env e)
  | EAbs e => map (option_map Z.abs) (joint sides env e)
  | EDice d => map (fun t => Some (total t)) (tuples (Z.to_nat (dice_num d)) (sides (dice_map d)))
  | EDropKeep dk => map Some (pool_results sides dk)
  | EInt n => [match int_of_text n with Ok z => Some z | Raise _ => None end]
  | EBool s => [Some (truth (text_eqb s $"True"))]
  | EAdd a b => both (fun x y => Some (x + y)) (joint sides env a) (joint sides env b)
  | ESub a b => both (fun x y => Some (x - y)) (joint sides env a) (joint sides env b)
  | EMul a b => both (fun x y => Some (x * y)) (joint sides env a) (joint sides env b)
  | EDiv a b => both (fun x y => if y =? 0 then None else Some (x / y)) (joint sides env a) (joint sides env b)
  | EBin op a b => both (meaning (operator_meaning op)) (joint sides env a) (joint sides env b)
  | EMinMax mm a b => both (meaning (minmax_meaning mm)) (joint sides env a) (joint sides env b)
  | EAssign _ e => joint sides env e
  | EVar n => [env n]
  end.

(** How often [v] occurs *)
Definition occurrences (v : Z) (l : list (option Z)) : Z :=
  Z.of_nat (length (filter (fun x => match x with Some x => x =? v | None => false end) l)).

(** ** Expressions without assignments, made of pieces that exist: at least one die, a known operator *)
Fixpoint simple (e : expr) : Prop :=
  match e with
  | EParen e | ENot e | EAbs e => simple e
  | EDice d => (exists form, mk_dice form = Ok d) /\ 1 <= dice_num d
  | EDropKeep dk => (exists form, mk_dropkeep form = Ok dk) /\ 1 <= dk_num dk /\ 0 <= dk_k dk
  | EInt n => exists z, int_of_text n = Ok z
  | EBool s => s = $"True" \/ s = $"False"
  | EAdd a b | ESub a b | EMul a b | EDiv a b => simple a /\ simple b
  | EBin op a b => operator_meaning op <> None /\ simple a /\ simple b
  | EMinMax mm a b => minmax_meaning mm <> None /\ simple a /\ simple b
  | EAssign _ _ => False
  | EVar _ => True
  end.

(** The variables read, once for each place where they are read *)
Fixpoint reads (e : expr) : list text :=
  match e with
  | EParen e | ENot e | EAbs e | EAssign _ e => reads e
  | EDropKeep _ | EDice _ | EInt _ | EBool _ => []
  | EAdd a b | ESub a b | EMul a b | EDiv a b | EBin _ a b | EMinMax _ a b => reads a ++ reads b
  | EVar n => [n]
  end.

Definition times_read (n : text) (e : expr) : Z := Z.of_nat (length (filter (text_eqb n) (reads e))).

(** ** Programs: lines [VAR n = e] (written [(Some n, e)]) and lines [e] (written [(None, e)]).
    The result of a program is the result of its last line. *)
Definition program : Type := list (option text * expr).

Definition line_expr (l : option text * expr) : expr :=
  match l with (Some n, e) => EAssign n e | (None, e) => e end.

Definition no_values : text -> option Z := fun _ => None.
Definition bind_value (env : text -> option Z) (n : option text) (x : Z) : text -> option Z :=
  match n with Some n => fun m => if text_eqb m n then Some x else env m | None => env end.

(** All joint results of rolling a program once: each variable is rolled once, on its own line, and keeps
    its value *)
Fixpoint results (sides : list (Z * Z) -> list Z) (env : text -> option Z) (p : program) : list (option Z) :=
  match p with
  | [] => []
  | [(_, e)] => joint sides env e
  | (n, e) :: p' =>
      flat_map (fun x => match x with Some x => results sides (bind_value env n x) p' | None => [None] end)
               (joint sides env e)
  end.

(** Every variable is assigned on an earlier line before it is read; [known] are those assigned already *)
Fixpoint closed (known : list text) (p : program) : Prop :=
  match p with
  | [] => True
  | (n, e) :: p' => (forall m, In m (reads e) -> In m known) /\ closed (match n with Some n => n :: known | None => known end) p'
  end.

(** Variable names: no comma, and not the name the interpreter uses for the result of a line *)
Definition var_name (n : text) : Prop := ~ In ","%char n /\ n <> $"stdout".

Definition good_program (p : program) : Prop :=
  p <> [] /\ closed [] p /\ forall n e, In (n, e) p -> simple e /\ match n with Some n => var_name n | None => True end.

(** ** How often the value of a variable enters the result of the last line.

    [uses n p]: the number of times the value that [n] has before [p] is read for the last line of [p],
    directly or through other variables. *)
Fixpoint uses (n : text) (p : program) : Z :=
  match p with
  | [] => 0
  | [(_, e)] => times_read n e
  | (None, _) :: p' => uses n p'
  | (Some m, e) :: p' => times_read n e * uses m p' + (if text_eqb n m then 0 else uses n p')
  end.

(** The weighted count that belongs to [v]: like the number of joint results that give [v], but with the number
    of ways of a variable's value raised to the number of its uses (and unused variables not counted). *)
Fixpoint weighted (sides : list (Z * Z) -> list Z) (env : text -> option Z) (p : program) (v : Z) : Z :=
  match p with
  | [] => 0
  | [(_, e)] => occurrences v (joint sides env e)
  | (None, _) :: p' => weighted sides env p' v
  | (Some n, e) :: p' =>
      if uses n p' =? 0 then weighted sides env p' v
      else fold_right (fun x acc =>
             match x with
             | Some x => occurrences x (joint sides env e) ^ uses n p' * weighted sides (bind_value env (Some n) x) p' v + acc
             | None => acc
             end) 0
             (nodup (fun a b : option Z => ltac:(decide equality; apply Z.eq_dec) : {a = b} + {a <> b}) (joint sides env e))
  end.

(** The same for the set of possible results, leaving out the lines that the last line does not use *)
Fixpoint used_results (sides : list (Z * Z) -> list Z) (env : text -> option Z) (p : program) : list (option Z) :=
  match p with
  | [] => []
  | [(_, e)] => joint sides env e
  | (None, _) :: p' => used_results sides env p'
  | (Some n, e) :: p' =>
      if uses n p' =? 0 then used_results sides env p'
      else flat_map (fun x => match x with Some x => used_results sides (bind_value env (Some n) x) p' | None => [None] end)
                    (joint sides env e)
  end.

(** ** The dice of expressions and programs, each given by its map from side to multiplicity *)
Fixpoint dice_of (e : expr) : list (list (Z * Z)) :=
  match e with
  | EParen e | ENot e | EAbs e | EAssign _ e => dice_of e
  | EDropKeep dk => [dk_map dk]
  | EDice d => [dice_map d]
  | EInt _ | EBool _ | EVar _ => []
  | EAdd a b | ESub a b | EMul a b | EDiv a b | EBin _ a b | EMinMax _ a b => dice_of a ++ dice_of b
  end.
Definition program_dice (p : program) : list (list (Z * Z)) := flat_map (fun l => dice_of (snd l)) p.

(** Every die can be rolled: it has a side with a multiplicity above zero *)
Definition rollable (p : program) : Prop := forall m, In m (program_dice p) -> faces m <> [].
(** Integers from this one on are not rounded to a float *)
Definition float_limit : Z := 2 ^ 1024 - 2 ^ 970.
(** roll() can choose a side of every die: there is one with a multiplicity above zero, and the sum of the multiplicities can be a float *)
Definition can_choose (m : list (Z * Z)) : Prop := faces m <> [] /\ zsum (map snd m) < float_limit.
Definition drawable (p : program) : Prop := forall m, In m (program_dice p) -> can_choose m.
(** Every die has a side, perhaps with multiplicity zero *)
Definition sided (p : program) : Prop := forall m, In m (program_dice p) -> m <> [].
(** No side has multiplicity zero *)
Definition positive (p : program) : Prop := forall m v c, In m (program_dice p) -> In (v, c) m -> 0 < c.

(** A result of [e] that can occur at all occurs in one and the same number of ways *)
Definition uniform (e : expr) : Prop := exists c, 0 < c /\
  forall env x, occurrences x (joint faces env e) = 0 \/ occurrences x (joint faces env e) = c.

(** Every variable is used at most once for the last line, or is uniform *)
Fixpoint used_once_or_uniform (p : program) : Prop :=
  match p with
  | [] => True
  | (None, _) :: p' => used_once_or_uniform p'
  | (Some n, e) :: p' => (uses n p' <= 1 \/ uniform e) /\ used_once_or_uniform p'
  end.

(** ** Expressions as the parser builds them: also with zero dice, and with assignments inside *)
Fixpoint well_formed (e : expr) : Prop :=
  match e with
  | EParen e | ENot e | EAbs e => well_formed e
  | EDice d => (exists form, mk_dice form = Ok d) /\ 0 <= dice_num d
  | EDropKeep dk => (exists form, mk_dropkeep form = Ok dk) /\ 0 <= dk_num dk /\ 0 <= dk_k dk
  | EInt n => exists z, int_of_text n = Ok z
  | EBool s => s = $"True" \/ s = $"False"
  | EAdd a b | ESub a b | EMul a b | EDiv a b => well_formed a /\ well_formed b
  | EBin op a b => operator_meaning op <> None /\ well_formed a /\ well_formed b
  | EMinMax mm a b => minmax_meaning mm <> None /\ well_formed a /\ well_formed b
  | EAssign n e => ~ In ","%char n /\ well_formed e
  | EVar n => True
  end.
