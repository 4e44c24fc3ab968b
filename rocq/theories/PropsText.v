(** * Properties C01 - C04, C25, C26 and C53 again, from the text of a program *)
From Coq Require Import Permutation.
From Verif Require Import Py PyFloat Constraint Distribution DiceModel Expr Lexer Parser Interp Instances SpecDice SpecNotation SpecGrammar SpecLexer SpecInterp SpecText
  Checks TextProofs.

(** ** C01 NdS counts are the number of ways to roll *)
Theorem C01_program : forall (R : Runtime) s t ct n sides fs vs, count_notation ct n -> 1 <= n -> die_text sides fs vs -> alone (ct ++ $"d" ++ sides) t ->
  exists d, reports R s [t] d /\ (forall v, reported R d v = ways total (Z.to_nat n) fs v) /\
    (forall v, listed R d v <-> exists r, In r (tuples (Z.to_nat n) vs) /\ total r = v).
Proof. exact dice_program. Qed.
Print Assumptions C01_program.

Definition num (z : Z) : numeral := {| n_minus := z <? 0; n_digits := text_of_Z (Z.abs z) |}.
Definition example_entries : list entry :=
  [{| e_from := num 2; e_to := Some (num 1); e_copies := None |}; {| e_from := num (-3); e_to := None; e_copies := Some $"0" |}].
Example C01_program_nonvacuous : count_notation $"2" 2 /\ die_text $"[ 2-1,-3*0]" [1; 2] [1; 2; -3] /\
  alone ($"2" ++ $"d" ++ $"[ 2-1,-3*0]") $" 2d[ 2-1,-3*0] " /\
  (exists d, reports rt_fwd (empty_state rt_fwd) [$" 2d[ 2-1,-3*0] "] d /\ get_result_map rt_fwd d = [(2, 1); (3, 2); (-2, 0); (4, 1); (-1, 0); (-6, 0)]) /\
  map (ways total 2 [1; 2]) [2; 3; 4; -2] = [1; 2; 1; 0].
Proof.
  split; [right; split; [split; [discriminate|reflexivity]|reflexivity]|]. split.
  - apply (dt_custom $"[ 2-1,-3*0]" example_entries). split; [discriminate|]. split.
    + intros e [<-|[<-|[]]]; repeat split; discriminate.
    + exists [$" 2-1"; $"-3*0"], []. split; [|split; reflexivity]. constructor; [exists $" ", []; repeat split|]. constructor; [exists [], []; repeat split|constructor].
  - split; [exists $" ", $" "; repeat split|]. split; [|reflexivity]. apply (shown_reports rt_fwd). vm_compute. reflexivity.
Qed.

(** ** C02 and C03 Keeping and dropping the highest dice *)
Theorem C02_program : forall (R : Runtime) s t ct n sides fs vs kt, count_notation ct n -> die_text sides fs vs -> is_digits kt -> 0 < decimal kt < n ->
  alone (ct ++ $"d" ++ sides ++ $"k" ++ kt) t ->
  exists d, reports R s [t] d /\ (forall v, reported R d v = ways (keep_highest (Z.to_nat (decimal kt))) (Z.to_nat n) fs v) /\
    (forall v, listed R d v <-> exists r, In r (tuples (Z.to_nat n) vs) /\ keep_highest (Z.to_nat (decimal kt)) r = v).
Proof. exact (fun R s t ct n sides fs vs kt => dropkeep_program R s t ct n sides fs vs true kt). Qed.
Print Assumptions C02_program.

Theorem C03_program : forall (R : Runtime) s t ct n sides fs vs kt, count_notation ct n -> die_text sides fs vs -> is_digits kt -> 0 < decimal kt < n ->
  alone (ct ++ $"d" ++ sides ++ $"d" ++ kt) t ->
  exists d, reports R s [t] d /\ (forall v, reported R d v = ways (drop_highest (Z.to_nat (decimal kt))) (Z.to_nat n) fs v) /\
    (forall v, listed R d v <-> exists r, In r (tuples (Z.to_nat n) vs) /\ drop_highest (Z.to_nat (decimal kt)) r = v).
Proof. exact (fun R s t ct n sides fs vs kt => dropkeep_program R s t ct n sides fs vs false kt). Qed.
Print Assumptions C03_program.

Example C02_C03_program_nonvacuous : count_notation $"3" 3 /\ die_text $"2" [1; 2] [1; 2] /\ is_digits $"02" /\ 0 < decimal $"02" < 3 /\
  alone ($"3" ++ $"d" ++ $"2" ++ $"k" ++ $"02") $"3d2k02" /\
  (exists d, reports rt_fwd (empty_state rt_fwd) [$"3d2k02"] d /\ get_result_map rt_fwd d = [(2, 1); (3, 3); (4, 4)]) /\
  (exists d, reports rt_fwd (empty_state rt_fwd) [$"3d2d02"] d /\ get_result_map rt_fwd d = [(1, 7); (2, 1)]) /\
  map (ways (keep_highest 2) 3 [1; 2]) [2; 3; 4] = [1; 3; 4] /\ map (ways (drop_highest 2) 3 [1; 2]) [1; 2] = [7; 1].
Proof.
  split; [right; split; [split; [discriminate|reflexivity]|reflexivity]|]. split; [apply (dt_numbered $"2"); split; [discriminate|reflexivity]|].
  split; [split; [discriminate|reflexivity]|]. split; [vm_compute; split; reflexivity|]. split; [exists [], []; repeat split|].
  split; [apply (shown_reports rt_fwd); vm_compute; reflexivity|]. split; [apply (shown_reports rt_fwd); vm_compute; reflexivity|]. split; reflexivity.
Qed.

(** ** C04 Keep/drop boundary rules: the line can be replaced in any program, for every call *)
Theorem C04_program_all_kept : forall (R : Runtime) t1 t2 ct n sides fs vs (keep : bool) kt, count_notation ct n -> die_text sides fs vs -> is_digits kt ->
  (if keep then n <= decimal kt else decimal kt = 0 /\ 0 < n) ->
  alone (ct ++ $"d" ++ sides ++ (if keep then $"k" else $"d") ++ kt) t1 -> alone (ct ++ $"d" ++ sides) t2 -> interchangeable R t1 t2.
Proof. exact boundary_dice. Qed.
Print Assumptions C04_program_all_kept.

(** Missing: keeping zero of zero dice (C04_keep_zero_of_zero_refuted) *)
Theorem C04_program_none_kept_partial : forall (R : Runtime) t1 t2 ct n sides fs vs (keep : bool) kt, count_notation ct n -> die_text sides fs vs -> is_digits kt ->
  (if keep then decimal kt = 0 /\ 0 < n else n <= decimal kt) ->
  alone (ct ++ $"d" ++ sides ++ (if keep then $"k" else $"d") ++ kt) t1 -> alone $"0" t2 -> interchangeable R t1 t2.
Proof. exact boundary_zero. Qed.
Print Assumptions C04_program_none_kept_partial.

Example C04_program_nonvacuous : count_notation [] 1 /\ die_text $"F" [-1; 0; 1] [-1; 0; 1] /\ is_digits $"1" /\ 1 <= decimal $"1" /\
  alone ([] ++ $"d" ++ $"F" ++ $"k" ++ $"1") $"dFk1" /\ alone ([] ++ $"d" ++ $"F") $"dF " /\ alone ([] ++ $"d" ++ $"F" ++ $"d" ++ $"1") $"dFd1" /\ alone $"0" $"0" /\
  parse $"dFk1" <> parse $"dF " /\ parse $"dFd1" <> parse $"0".
Proof.
  split; [now left|]. split; [apply dt_fate|]. split; [split; [discriminate|reflexivity]|]. split; [vm_compute; discriminate|]. split; [exists [], []; repeat split|].
  split; [exists [], $" "; repeat split|]. split; [exists [], []; repeat split|]. split; [exists [], []; repeat split|]. split; vm_compute; discriminate.
Qed.

(** ** C25 Equal multisets of faces give the same die *)
Theorem C25_program : forall (R : Runtime) s ct n s1 s2 fs1 fs2 vs1 vs2 t1 t2, count_notation ct n -> 1 <= n -> die_text s1 fs1 vs1 -> die_text s2 fs2 vs2 ->
  Permutation fs1 fs2 -> alone (ct ++ $"d" ++ s1) t1 -> alone (ct ++ $"d" ++ s2) t2 ->
  exists d1 d2, reports R s [t1] d1 /\ reports R s [t2] d2 /\ forall v, reported R d1 v = reported R d2 v.
Proof. exact same_faces_program. Qed.
Print Assumptions C25_program.

Example C25_program_nonvacuous : exists es vs, die_text $"2" [1; 2] [1; 2] /\ die_text $"[ 2-1,-3*0]" (custom_faces es) vs /\ Permutation [1; 2] (custom_faces es).
Proof.
  exists example_entries, (flat_map entry_values example_entries). split; [apply (dt_numbered $"2"); split; [discriminate|reflexivity]|]. split; [|reflexivity].
  exact (proj1 (proj2 C01_program_nonvacuous)).
Qed.

(** ** C26 A trailing comma: the lexer accepts it, but any program with such a die raises ValueError *)
Theorem C26_program_refuted : exists t es s, custom_text es true s /\ alone ($"d" ++ s) t /\ forall R, always_raises R t ValueError.
Proof.
  exists $"d[1,2,]", [{| e_from := num 1; e_to := None; e_copies := None |}; {| e_from := num 2; e_to := None; e_copies := None |}], $"[1,2,]".
  assert (C : custom_text [{| e_from := num 1; e_to := None; e_copies := None |}; {| e_from := num 2; e_to := None; e_copies := None |}] true $"[1,2,]").
  { split; [discriminate|]. split; [intros e [<-|[<-|[]]]; repeat split; discriminate|]. exists [$"1"; $"2"], []. split; [|split; reflexivity].
    constructor; [exists [], []; repeat split|]. constructor; [exists [], []; repeat split|constructor]. }
  split; [exact C|]. split; [exists [], []; repeat split|]. intros R. apply (trailing_line R $"d[1,2,]" [] _ $"[1,2,]" eq_refl C). exists [], []. repeat split.
Qed.
Print Assumptions C26_program_refuted.

Theorem C26_line_always_raises : forall R t ct es s, forallb is_digit ct = true -> custom_text es true s -> alone (ct ++ $"d" ++ s) t ->
  lex t = LexOk [{| tk_name := T_DICE; tk_text := ct ++ $"d" ++ s |}] /\ always_raises R t ValueError.
Proof. exact trailing_line. Qed.
Print Assumptions C26_line_always_raises.

Theorem C26_anywhere_always_raises : forall R t ts k ct es s, lex t = LexOk ts -> In k ts -> forallb is_digit ct = true -> custom_text es true s ->
  (named T_DICE k /\ tk_text k = ct ++ $"d" ++ s) \/
  (named T_DROP_KEEP_DICE k /\ exists o kt, (o = "k"%char \/ o = "d"%char) /\ tk_text k = ct ++ $"d" ++ s ++ [o] ++ kt) ->
  always_raises R t ValueError.
Proof. exact trailing_program. Qed.
Print Assumptions C26_anywhere_always_raises.

Example C26_anywhere_nonvacuous : exists ts, lex $"1 + 2d[1,]k1" = LexOk ts /\ In {| tk_name := T_DROP_KEEP_DICE; tk_text := $"2d[1,]k1" |} ts /\
  custom_text [{| e_from := num 1; e_to := None; e_copies := None |}] true $"[1,]".
Proof.
  eexists. split; [vm_compute; reflexivity|]. split; [cbn; tauto|]. split; [discriminate|]. split; [intros e [<-|[]]; repeat split; discriminate|].
  exists [$"1"], []. split; [|split; reflexivity]. constructor; [exists [], []; repeat split|constructor].
Qed.

(** ** C53 White space between tokens does not matter: in any program, a line can be replaced by one with the same tokens *)
Theorem C53_program : forall R u sp v ts1 ts2, lex (u ++ v) = LexOk (ts1 ++ ts2) -> spelled u ts1 -> blank sp -> interchangeable R (u ++ v) (u ++ sp ++ v).
Proof. exact spaced_program. Qed.
Print Assumptions C53_program.

Theorem C53_same_tokens : forall R t1 t2 ts, lex t1 = LexOk ts -> lex t2 = LexOk ts -> interchangeable R t1 t2.
Proof. exact same_tokens_program. Qed.
Print Assumptions C53_same_tokens.

Example C53_program_nonvacuous : exists ts, spelled $"VAR x=" ts /\ lex ($"VAR x=" ++ $"d6-1") = LexOk (ts ++ [{| tk_name := T_DICE; tk_text := $"d6" |}; {| tk_name := T_CONSTANT_INTEGER; tk_text := $"-1" |}]) /\
  lex $" VAR x = d6 -1 " = lex $"VAR x=d6-1" /\ lex $"VAR x = d6 - 1" <> lex $"VAR x=d6-1".
Proof.
  exists [{| tk_name := T_VAR; tk_text := $"VAR" |}; {| tk_name := T_NAME; tk_text := $"x" |}; {| tk_name := T_ASSIGNMENT; tk_text := $"=" |}].
  split; [|repeat split; vm_compute; try reflexivity; discriminate].
  apply (sp_token {| tk_name := T_VAR; tk_text := $"VAR" |}); [reflexivity|]. apply (sp_space " "); [reflexivity|].
  apply (sp_token {| tk_name := T_NAME; tk_text := $"x" |}); [split; [discriminate|reflexivity]|]. apply (sp_token {| tk_name := T_ASSIGNMENT; tk_text := $"=" |}); [reflexivity|]. apply sp_end.
Qed.
