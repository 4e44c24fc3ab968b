(** * BuiltProofs: lemmas for property C69 *)
From Verif Require Import Py PyFloat Constraint Distribution Regex Lexer DiceModel Expr Parser Random SpecNotation SpecGrammar SpecLexer SpecBuilt
  RegexFacts LexFacts LexProofs ParserFacts WfFacts SyntaxProofs.

(** ** Tokens *)
Lemma one_token_good : forall n w, one_token n w -> good_token {| tk_name := n; tk_text := w |}.
Proof. intros n w H. apply lexed_good in H. now apply Forall_cons_iff in H. Qed.
Lemma good_one_token : forall n w, token_form n w -> one_token n w.
Proof.
  intros n w H. apply laid_out_tokens. rewrite <- (app_nil_r w) at 1. apply (lo_token None {| tk_name := n; tk_text := w |}); cbn; auto. apply lo_end.
Qed.
Lemma good_one : forall t n, good_token t -> named n t -> one_token n (tk_text t).
Proof. intros t n G N. apply good_one_token. unfold good_token in G. now rewrite N in G. Qed.

Definition tok (n : tokname) (w : text) : token := {| tk_name := n; tk_text := w |}.

Ltac good_lit := unfold good_token; cbn [tk_name tk_text tok token_form]; reflexivity.
Ltac goods_up := repeat match goal with |- Forall _ (_ :: _) => constructor | |- Forall _ [] => constructor | |- Forall _ (_ ++ _) => apply Forall_app; split end;
  auto using one_token_good; try good_lit.

Lemma built_derives : forall e, built e -> exists ts, derives e ts /\ Forall good_token ts.
Proof.
  induction e; cbn [built]; intros B;
    repeat match goal with H : _ /\ _ |- _ => destruct H end;
    repeat match goal with IH : built ?e -> _, H : built ?e |- _ => specialize (IH H); let ts := fresh "ts" in destruct IH as [ts [? ?]] end.
  - eexists. split; [eapply (dv_paren (tok T_OPEN_PARENTHESIS $"(") _ _ (tok T_CLOSE_PARENTHESIS $")")); [reflexivity|eassumption|reflexivity]|]. goods_up.
  - eexists. split; [eapply (dv_not (tok T_NOT $"!")); [reflexivity|eassumption]|]. goods_up.
  - destruct B as [w [B E]]. eexists. split; [eapply (dv_dropkeep (tok T_DROP_KEEP_DICE w)); [reflexivity|exact E]|]. goods_up.
  - destruct B as [w [B E]]. eexists. split; [eapply (dv_dice (tok T_DICE w)); [reflexivity|exact E]|]. goods_up.
  - eexists. split; [eapply (dv_int (tok T_CONSTANT_INTEGER number)); reflexivity|]. goods_up.
  - eexists. split; [eapply (dv_bool (tok T_CONSTANT_BINARY binary_string)); reflexivity|]. goods_up.
  - eexists. split; [eapply (dv_add _ _ (tok T_ADD $"+")); [eassumption|reflexivity|eassumption]|]. goods_up.
  - eexists. split; [eapply (dv_sub _ _ (tok T_SUBTRACT $"-")); [eassumption|reflexivity|eassumption]|]. goods_up.
  - eexists. split; [eapply (dv_mul _ _ (tok T_MULTIPLY $"*")); [eassumption|reflexivity|eassumption]|]. goods_up.
  - eexists. split; [eapply (dv_div _ _ (tok T_INTEGER_DIVISION $"//")); [eassumption|reflexivity|eassumption]|]. goods_up.
  - eexists. split; [eapply (dv_bin _ _ (tok T_BINARY_OPERATOR operator)); [eassumption|reflexivity|eassumption]|]. goods_up.
  - eexists. split; [eapply (dv_minmax (tok T_MINMAX min_max) (tok T_OPEN_PARENTHESIS $"(") _ _ (tok T_COMMA $",") _ _ (tok T_CLOSE_PARENTHESIS $")"));
      [reflexivity|reflexivity|eassumption|reflexivity|eassumption|reflexivity]|]. goods_up.
  - eexists. split; [eapply (dv_abs (tok T_ABS $"ABS") (tok T_OPEN_PARENTHESIS $"(") _ _ (tok T_CLOSE_PARENTHESIS $")")); [reflexivity|reflexivity|eassumption|reflexivity]|]. goods_up.
  - eexists. split; [eapply (dv_assign (tok T_VAR $"VAR") (tok T_NAME name) (tok T_ASSIGNMENT $"=")); [reflexivity|reflexivity|reflexivity|eassumption]|]. goods_up.
  - eexists. split; [eapply (dv_var (tok T_NAME name)); reflexivity|]. goods_up.
Qed.

Lemma derives_built : forall e ts, derives e ts -> Forall good_token ts -> built e.
Proof.
  intros e ts D. induction D; intros Gs; goods; cbn [built]; repeat split; eauto using good_one.
Qed.

(** ** Printing *)
Definition shown (t : token) : text :=
  match tk_name t with
  | T_ADD | T_SUBTRACT | T_MULTIPLY | T_INTEGER_DIVISION | T_BINARY_OPERATOR | T_ASSIGNMENT => $" " ++ tk_text t ++ $" "
  | T_COMMA | T_VAR => tk_text t ++ $" "
  | _ => tk_text t
  end.
Definition shown_all (ts : list token) : text := flat_map shown ts.

Lemma good_fixed : forall t n w, good_token t -> named n t -> (token_form n (tk_text t) -> tk_text t = w) -> tk_text t = w.
Proof. exact good_text. Qed.

Lemma shown_app : forall a b, shown_all (a ++ b) = shown_all a ++ shown_all b.
Proof. intros. apply flat_map_app. Qed.
Lemma shown_cons : forall t ts, shown_all (t :: ts) = shown t ++ shown_all ts.
Proof. reflexivity. Qed.

Ltac rewrite_fixed := repeat match goal with
  | G : good_token ?t, N : named ?n ?t |- context [tk_text ?t] =>
      match n with T_DROP_KEEP_DICE => fail 1 | T_DICE => fail 1 | T_BINARY_OPERATOR => fail 1 | T_MINMAX => fail 1 | T_NAME => fail 1 | T_CONSTANT_INTEGER => fail 1 | T_CONSTANT_BINARY => fail 1
      | _ => rewrite (good_text t n _ G N (fun X => X)) end
  end.
Ltac rewrite_shown := unfold shown; repeat match goal with N : named ?n ?t |- context [tk_name ?t] => rewrite N end.

Lemma printed_tokens : forall e ts, derives e ts -> Forall good_token ts -> expr_str e = shown_all ts.
Proof.
  intros e ts D. induction D; intros Gs; goods; cbn [expr_str]; repeat rewrite ?shown_app, ?shown_cons; change (shown_all []) with (@nil ascii);
    repeat match goal with IH : Forall good_token ?ts -> _, H : Forall good_token ?ts |- _ => specialize (IH H); rewrite <- IH end;
    rewrite_shown; rewrite_fixed; rewrite ?app_nil_r; rewrite <- ?app_assoc; try reflexivity.
  - now rewrite (dropkeep_keeps_text _ _ H0).
  - now rewrite (dice_keeps_text _ _ H0).
Qed.

Lemma built_parse : forall e, built e -> exists e', parse (expr_str e) = Ok e' /\ expr_str e' = expr_str e.
Proof.
  intros e B. destruct (built_derives e B) as [ts [D G]]. destruct (grouped_exists e ts D) as [e' [W D']]. exists e'. split.
  - apply parse_ok. exists ts. split; [|auto]. apply laid_out_tokens. apply printed_layout; auto. exact I.
  - now rewrite (printed_tokens e' ts D' G), (printed_tokens e ts D G).
Qed.

Lemma parse_built : forall e, (exists t, parse t = Ok e) <-> built e /\ well_grouped e.
Proof.
  intros e. split.
  - intros [t P]. apply parse_ok in P. destruct P as [ts [L [D W]]]. split; auto. apply (derives_built e ts); auto. now apply (lexed_good t).
  - intros [B W]. destruct (built_derives e B) as [ts [D G]]. exists (expr_str e). apply parse_ok. exists ts. split; [|auto]. apply laid_out_tokens. apply printed_layout; auto. exact I.
Qed.

Lemma built_round_trip : forall e, built e -> (parse (expr_str e) = Ok e <-> well_grouped e).
Proof.
  intros e B. split; intros H.
  - apply (parse_built e). eauto.
  - destruct (proj2 (parse_built e) (conj B H)) as [t P]. now apply (round_trip t).
Qed.

(** ** With brackets *)
Lemma bracketed_built : forall e, built e -> built (bracketed e).
Proof. induction e; cbn [built bracketed]; tauto. Qed.
Lemma bracketed_grouped : forall e, well_grouped (bracketed e).
Proof. induction e; cbn [well_grouped bracketed]; unfold left_operand, right_operand; cbn [open_ended tightness]; auto 10. Qed.
Lemma bracketed_parses : forall e, built e -> parse (expr_str (bracketed e)) = Ok (bracketed e).
Proof. intros e B. apply built_round_trip; [now apply bracketed_built | apply bracketed_grouped]. Qed.

Lemma flat_map_ext' : forall A B (f g : A -> list B) l, (forall a, f a = g a) -> flat_map f l = flat_map g l.
Proof. intros A B f g l H. induction l; cbn; [reflexivity|]. now rewrite H, IHl. Qed.

Section Ops.
  Context (R : Runtime).

  Lemma bind_same : forall A B (m m' : M R A) (f f' : A -> M R B) s, (forall s, m s = m' s) -> (forall a s, f a s = f' a s) -> bind R m f s = bind R m' f' s.
  Proof. intros A B m m' f f' s H H'. unfold bind. rewrite H. destruct (m' s) as [s' [a|x]]; auto. Qed.
  Lemma wbind_same : forall A B (m m' : W R A) (f f' : A -> W R B) s, (forall s, m s = m' s) -> (forall a s, f a s = f' a s) -> wbind R m f s = wbind R m' f' s.
  Proof. intros A B m m' f f' s H H'. unfold wbind. rewrite H. apply flat_map_ext'. intros [w [s' [a|x]]]; auto. now rewrite H'. Qed.
  Lemma gbind_same : forall G A B (m m' : D R G A) (f f' : A -> D R G B) s g, (forall s g, m s g = m' s g) -> (forall a s g, f a s g = f' a s g) -> gbind R G m f s g = gbind R G m' f' s g.
  Proof. intros G A B m m' f f' s g H H'. unfold gbind. rewrite H. destruct (m' s g) as [[s' [a|x]] g']; auto. Qed.

  Ltac same := repeat first [reflexivity | apply bind_same; intros | apply wbind_same; intros | apply gbind_same; intros | assumption | match goal with H : forall s, _ = _ |- _ => apply H end
    | match goal with H : forall s g, _ = _ |- _ => apply H end].

  Lemma bracketed_dist : forall e s, dist_of R (bracketed e) s = dist_of R e s.
  Proof. induction e; intros s; cbn [bracketed dist_of]; unfold binop_m; same. destruct (dist_operator operator); unfold binop_m; same. Qed.
  Lemma bracketed_roll : forall e s, roll_of R (bracketed e) s = roll_of R e s.
  Proof.
    induction e; intros s; cbn [bracketed roll_of]; unfold wbinop; same.
    - destruct (a =? 0); same.
    - destruct (int_operator operator); unfold wbinop; same.
    - destruct (minmax_operator min_max); unfold wbinop; same.
  Qed.
  Lemma bracketed_drawn : forall G e s g, drawn_of R G (bracketed e) s g = drawn_of R G e s g.
  Proof.
    intros G. induction e; intros s g; cbn [bracketed drawn_of]; unfold gbinop; same.
    - destruct (a =? 0); same.
    - destruct (int_operator operator); unfold gbinop; same.
    - destruct (minmax_operator min_max); unfold gbinop; same.
  Qed.
  Lemma bracketed_cost : forall e s, cost_of R (bracketed e) s = cost_of R e s.
  Proof. induction e; intros s; cbn [bracketed cost_of]; unfold cost_sum; same. Qed.
  Lemma bracketed_ext : forall mx e s, ext_of R mx (bracketed e) s = ext_of R mx e s.
  Proof.
    intros mx. induction e; intros s; try (cbn [bracketed ext_of]; same; fail);
      try (change (ext_via_dist R mx (bracketed (ENot e)) s = ext_via_dist R mx (ENot e) s); apply bind_same; [apply bracketed_dist | reflexivity]);
      try (change (ext_via_dist R mx (bracketed (EAbs e)) s = ext_via_dist R mx (EAbs e) s); apply bind_same; [apply bracketed_dist | reflexivity]);
      try (match goal with |- ext_of _ _ (bracketed ?x) _ = _ => change (ext_via_dist R mx (bracketed x) s = ext_via_dist R mx x s) end; apply bind_same; [apply bracketed_dist | reflexivity]).
    - change (bind R (dist_of R (EParen (bracketed e2))) (fun d => if contains_zero R d then lift R (Raise ZeroDivisionError) else ext_via_dist R mx (bracketed (EDiv e1 e2))) s = ext_of R mx (EDiv e1 e2) s).
      cbn [ext_of]. apply bind_same; [apply bracketed_dist|]. intros d s'. destruct (contains_zero R d); [reflexivity|]. apply bind_same; [apply bracketed_dist | reflexivity].
    - cbn [bracketed ext_of]. destruct (minmax_operator min_max); same.
    - cbn [bracketed ext_of]. apply bind_same; [assumption|]. intros. apply bind_same; [reflexivity|]. intros. apply bind_same; [apply bracketed_dist | reflexivity].
  Qed.
End Ops.

Lemma bracketed_variables : forall e, contained_variables (bracketed e) = contained_variables e.
Proof. induction e; cbn [bracketed contained_variables]; congruence. Qed.

Lemma bracketed_same : forall (R : Runtime) e s, dist_of R (bracketed e) s = dist_of R e s /\ roll_of R (bracketed e) s = roll_of R e s /\
  (forall G g, drawn_of R G (bracketed e) s g = drawn_of R G e s g) /\ (forall mx, ext_of R mx (bracketed e) s = ext_of R mx e s) /\
  cost_of R (bracketed e) s = cost_of R e s /\ contained_variables (bracketed e) = contained_variables e.
Proof.
  intros R e s. repeat split; intros; auto using bracketed_dist, bracketed_roll, bracketed_drawn, bracketed_ext, bracketed_cost, bracketed_variables.
Qed.

Lemma regrouped : exists e e', built e /\ parse (expr_str e) = Ok e' /\
  forall (R : Runtime) s, roll_of R e s = [(1, (s, Ok 9))] /\ roll_of R e' s = [(1, (s, Ok 7))].
Proof.
  exists (EMul (EAdd (EInt $"1") (EInt $"2")) (EInt $"3")), (EAdd (EInt $"1") (EMul (EInt $"2") (EInt $"3"))).
  split; [cbn [built]; repeat split; vm_compute; reflexivity|]. split; [vm_compute; reflexivity|]. intros R s. split; reflexivity.
Qed.
