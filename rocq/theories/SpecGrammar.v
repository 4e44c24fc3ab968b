(** * SpecGrammar: the grammar of the language and the grouping of its operators, as the README and the
    production rules state them, without a parsing algorithm. *)
From Verif Require Import Py Regex Lexer DiceModel Expr.

(** ** The production rules

    [derives e ts]: the production rules derive the token sequence [ts], with [e] as its tree.  The
    grammar is ambiguous: which tree is meant is said by [well_grouped] below. *)
Definition named (n : tokname) (t : token) : Prop := tk_name t = n.

Inductive derives : expr -> list token -> Prop :=
| dv_paren : forall o e ts c, named T_OPEN_PARENTHESIS o -> derives e ts -> named T_CLOSE_PARENTHESIS c ->
    derives (EParen e) (o :: ts ++ [c])
| dv_not : forall n e ts, named T_NOT n -> derives e ts -> derives (ENot e) (n :: ts)
| dv_dropkeep : forall t d, named T_DROP_KEEP_DICE t -> mk_dropkeep (tk_text t) = Ok d -> derives (EDropKeep d) [t]
| dv_dice : forall t d, named T_DICE t -> mk_dice (tk_text t) = Ok d -> derives (EDice d) [t]
| dv_int : forall t, named T_CONSTANT_INTEGER t -> derives (EInt (tk_text t)) [t]
| dv_bool : forall t, named T_CONSTANT_BINARY t -> derives (EBool (tk_text t)) [t]
| dv_add : forall a ta o b tb, derives a ta -> named T_ADD o -> derives b tb -> derives (EAdd a b) (ta ++ o :: tb)
| dv_sub : forall a ta o b tb, derives a ta -> named T_SUBTRACT o -> derives b tb -> derives (ESub a b) (ta ++ o :: tb)
| dv_mul : forall a ta o b tb, derives a ta -> named T_MULTIPLY o -> derives b tb -> derives (EMul a b) (ta ++ o :: tb)
| dv_div : forall a ta o b tb, derives a ta -> named T_INTEGER_DIVISION o -> derives b tb -> derives (EDiv a b) (ta ++ o :: tb)
| dv_bin : forall a ta o b tb, derives a ta -> named T_BINARY_OPERATOR o -> derives b tb ->
    derives (EBin (tk_text o) a b) (ta ++ o :: tb)
| dv_minmax : forall m o a ta k b tb c, named T_MINMAX m -> named T_OPEN_PARENTHESIS o -> derives a ta ->
    named T_COMMA k -> derives b tb -> named T_CLOSE_PARENTHESIS c ->
    derives (EMinMax (tk_text m) a b) (m :: o :: ta ++ k :: tb ++ [c])
| dv_abs : forall m o e ts c, named T_ABS m -> named T_OPEN_PARENTHESIS o -> derives e ts ->
    named T_CLOSE_PARENTHESIS c -> derives (EAbs e) (m :: o :: ts ++ [c])
| dv_assign : forall v n q e ts, named T_VAR v -> named T_NAME n -> named T_ASSIGNMENT q -> derives e ts ->
    derives (EAssign (tk_text n) e) (v :: n :: q :: ts)
| dv_var : forall t, named T_NAME t -> derives (EVar (tk_text t)) [t].

(** ** How operators group *)

(** The operand of a [!] or of a [VAR name =] takes everything to its right: an expression that ends in
    one cannot be followed by an operator. *)
Fixpoint open_ended (e : expr) : bool :=
  match e with
  | ENot _ | EAssign _ _ => true
  | EAdd _ b | ESub _ b | EMul _ b | EDiv _ b | EBin _ _ b => open_ended b
  | _ => false
  end.

(** How tightly the infix operator at the top of a tree binds: + and - least, comparisons, AND and OR most *)
Definition tightness (e : expr) : option nat :=
  match e with
  | EAdd _ _ | ESub _ _ => Some 1%nat
  | EMul _ _ | EDiv _ _ => Some 2%nat
  | EBin _ _ _ => Some 3%nat
  | _ => None
  end.

Definition left_operand (n : nat) (a : expr) : Prop :=
  open_ended a = false /\ match tightness a with Some m => (n <= m)%nat | None => True end.
Definition right_operand (n : nat) (b : expr) : Prop :=
  match tightness b with Some m => (n < m)%nat | None => True end.

Fixpoint well_grouped (e : expr) : Prop :=
  match e with
  | EParen e | ENot e | EAbs e | EAssign _ e => well_grouped e
  | EAdd a b | ESub a b => left_operand 1 a /\ right_operand 1 b /\ well_grouped a /\ well_grouped b
  | EMul a b | EDiv a b => left_operand 2 a /\ right_operand 2 b /\ well_grouped a /\ well_grouped b
  | EBin _ a b => left_operand 3 a /\ right_operand 3 b /\ well_grouped a /\ well_grouped b
  | EMinMax _ a b => well_grouped a /\ well_grouped b
  | EDropKeep _ | EDice _ | EInt _ | EBool _ | EVar _ => True
  end.
