(** * SpecRename: other names for the variables *)
From Verif Require Import Py PyFloat Constraint Distribution Expr Lexer Interp SpecCalls SpecSeed.

(** A line in which every name is replaced, or two lines that do not consist of tokens *)
Definition rename_token (rho : text -> text) (t : token) : token :=
  match tk_name t with T_NAME => {| tk_name := T_NAME; tk_text := rho (tk_text t) |} | _ => t end.
Definition renamed (rho : text -> text) (l l' : text) : Prop :=
  (exists ts, lex l = LexOk ts /\ lex l' = LexOk (map (rename_token rho) ts)) \/
  (exists m m', lex l = LexValueError m /\ lex l' = LexValueError m').

Definition renamed_call (rho : text -> text) (c c' : call) : Prop :=
  match c, c' with
  | CRoll l, CRoll l' | CMax l, CMax l' | CMin l, CMin l' | CDistributions l, CDistributions l' | CDict l, CDict l'
  | CAverage l, CAverage l' | CHistogram l, CHistogram l' | CAtLeast l, CAtLeast l' | CAtMost l, CAtMost l' | CCost l, CCost l' =>
      Forall2 (renamed rho) l l'
  | _, _ => False
  end.

Definition renamed_action (rho : text -> text) (a a' : action) : Prop :=
  match a, a' with
  | ACall i c, ACall i' c' => i = i' /\ renamed_call rho c c'
  | ARolls i l, ARolls i' l' => i = i' /\ Forall2 (renamed rho) l l'
  | _, _ => a = a'
  end.

(** What is seen has the new names, in the same places *)
Definition on_name {A} (rho : text -> text) (x : text * A) : text * A := (rho (fst x), snd x).
Definition rename_sight (rho : text -> text) (x : sight) : sight :=
  match x with
  | SeenConstants r => SeenConstants (rmap (map (on_name rho)) r)
  | SeenDistributions r => SeenDistributions (rmap (map (on_name rho)) r)
  | SeenDict r => SeenDict (rmap (map (on_name rho)) r)
  | SeenAverages r => SeenAverages (rmap (map (on_name rho)) r)
  | SeenRolls l => SeenRolls (map (fun run => (fst run, (map (on_name rho) (fst (snd run)), snd (snd run)))) l)
  | _ => x
  end.
