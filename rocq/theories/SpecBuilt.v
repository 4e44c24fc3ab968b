(** * SpecBuilt: expression objects put together by hand, and where brackets would be needed in their text *)
From Verif Require Import Py Regex Lexer DiceModel Expr.

(** The lexer takes the text [w] as one token of kind [n] *)
Definition one_token (n : tokname) (w : text) : Prop := lex w = LexOk [{| tk_name := n; tk_text := w |}].

(** An object made by the constructors of the expression classes, each given a text of the kind that it is for: any class inside any
    other, whether or not the parser would put them together so *)
Fixpoint built (e : expr) : Prop :=
  match e with
  | EParen e | ENot e | EAbs e => built e
  | EDropKeep d => exists w, one_token T_DROP_KEEP_DICE w /\ mk_dropkeep w = Ok d
  | EDice d => exists w, one_token T_DICE w /\ mk_dice w = Ok d
  | EInt w => one_token T_CONSTANT_INTEGER w
  | EBool w => one_token T_CONSTANT_BINARY w
  | EAdd a b | ESub a b | EMul a b | EDiv a b => built a /\ built b
  | EBin op a b => one_token T_BINARY_OPERATOR op /\ built a /\ built b
  | EMinMax mm a b => one_token T_MINMAX mm /\ built a /\ built b
  | EAssign n e => one_token T_NAME n /\ built e
  | EVar n => one_token T_NAME n
  end.

(** The same object with parentheses around the operands of every infix operator *)
Fixpoint bracketed (e : expr) : expr :=
  match e with
  | EParen e => EParen (bracketed e)
  | ENot e => ENot (bracketed e)
  | EAbs e => EAbs (bracketed e)
  | EAdd a b => EAdd (EParen (bracketed a)) (EParen (bracketed b))
  | ESub a b => ESub (EParen (bracketed a)) (EParen (bracketed b))
  | EMul a b => EMul (EParen (bracketed a)) (EParen (bracketed b))
  | EDiv a b => EDiv (EParen (bracketed a)) (EParen (bracketed b))
  | EBin op a b => EBin op (EParen (bracketed a)) (EParen (bracketed b))
  | EMinMax mm a b => EMinMax mm (bracketed a) (bracketed b)
  | EAssign n e => EAssign n (bracketed e)
  | EDropKeep _ | EDice _ | EInt _ | EBool _ | EVar _ => e
  end.
