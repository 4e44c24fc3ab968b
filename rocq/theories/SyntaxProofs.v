(** * SyntaxProofs: the lemmas behind PropsSyntax *)
From Verif Require Import Py Regex Lexer DiceModel Expr Parser SpecGrammar SpecLexer ParserFacts LexFacts LexProofs WfFacts.

Lemma lexing_lossless : forall input,
  (exists ts, lex input = LexOk ts /\ spelled input ts) \/ (exists message, lex input = LexValueError message).
Proof.
  intros input. pose proof (lex_spec input) as H. destruct (lex input) as [ts|m|x]; [left; eauto | right; eauto | destruct H].
Qed.

Lemma accepts_grammar : forall ts,
  (forall e, parse_tokens ts = Parsed e -> derives e ts) /\
  ((exists e, parse_tokens ts = Parsed e) <-> exists e, derives e ts) /\
  (forall x, parse_tokens ts = ParseRaise x -> exists t, In t ts /\
     (named T_DICE t /\ mk_dice (tk_text t) = Raise x \/ named T_DROP_KEEP_DICE t /\ mk_dropkeep (tk_text t) = Raise x)).
Proof.
  intros ts. split; [|split].
  - intros e H. apply parsed_iff in H. tauto.
  - symmetry. apply derivable_parses.
  - intros x H. pose proof (parse_sound ts) as P. now rewrite H in P.
Qed.

Lemma parse_text : forall t,
  (forall e, parse t = Ok e -> exists ts, lex t = LexOk ts /\ derives e ts) /\
  ((exists e, parse t = Ok e) <-> exists ts e, lex t = LexOk ts /\ derives e ts) /\
  (forall x, parse t = Raise x -> x = ValueError).
Proof.
  intros t. split; [|split].
  - intros e H. apply parse_ok in H. destruct H as [ts [H1 [H2 _]]]. eauto.
  - split.
    + intros [e H]. apply parse_ok in H. destruct H as [ts [H1 [H2 _]]]. eauto.
    + intros [ts [e [H1 H2]]]. destruct (proj1 (derivable_parses ts)) as [e' H]; [eauto|]. exists e'. apply parse_ok. exists ts.
      apply parsed_iff in H. tauto.
  - intros x. apply parse_raise.
Qed.

Lemma grouping : forall ts,
  (forall e, parse_tokens ts = Parsed e -> well_grouped e) /\
  (forall e e', derives e ts -> well_grouped e -> derives e' ts -> well_grouped e' -> e = e') /\
  (forall e, derives e ts -> well_grouped e -> parse_tokens ts = Parsed e).
Proof.
  intros ts. split; [|split].
  - intros e H. apply parsed_iff in H. tauto.
  - intros. eapply tree_unique; eauto.
  - intros e H1 H2. now apply parsed_iff.
Qed.

(** ** Printing and parsing again *)
Definition opener (p : option ascii) : Prop := match p with None => True | Some a => In a $"( !" end.

Lemma opener_follow : forall p n w, opener p -> token_form n w -> n <> T_BINARY_OPERATOR -> n <> T_ASSIGNMENT -> may_follow p w.
Proof.
  intros [a|] n w O F N1 N2; [|exact I]. destruct w as [|c w]; [exact I|]. cbn [may_follow]. apply form_start in F.
  assert (X : c <> "="%char) by (intros ->; destruct n; try discriminate F; congruence). cbn [opener list_ascii_of_string In] in O.
  destruct O as [<-|[<-|[<-|[]]]]; [reflexivity|reflexivity|]. unfold may_meet. apply Ascii.eqb_neq in X. now rewrite X, !andb_false_r.
Qed.
Lemma closer_follow : forall p c s, In c $"), (+-*/" -> may_follow p (c :: s).
Proof.
  intros [a|] c s H; [|exact I]. cbn [may_follow]. unfold may_meet. cbn [list_ascii_of_string In] in H.
  repeat (destruct H as [<-|H]; [now rewrite ?andb_false_r|]). destruct H.
Qed.
Lemma lo_tok : forall p t n w s ts, named n t -> good_token t -> tk_text t = w -> (forall v, token_form n v -> v = w -> may_follow p w) -> laid_out (last_of p w) s ts ->
  laid_out p (w ++ s) (t :: ts).
Proof. intros p t n w s ts N G <- M L. apply lo_token; [exact G| |exact L]. apply (M (tk_text t)); [|reflexivity]. unfold good_token in G. now rewrite N in G. Qed.
Lemma good_text : forall t n w, good_token t -> named n t -> (token_form n (tk_text t) -> tk_text t = w) -> tk_text t = w.
Proof. intros t n w G N H. apply H. unfold good_token in G. now rewrite N in G. Qed.

Ltac opening := let x := fresh "x" in let F := fresh "F" in let E := fresh "E" in intros x F E; rewrite <- E; eapply opener_follow; [eassumption|exact F|discriminate|discriminate].
Ltac closing := intros ? ? ?; apply closer_follow; cbn [list_ascii_of_string In]; tauto.
Ltac fixed := eapply good_text; [eassumption|eassumption|exact (fun X => X)].
Ltac goods := repeat match goal with
  | H : Forall good_token (_ :: _) |- _ => apply Forall_cons_iff in H; let G := fresh "G" in destruct H as [G H]
  | H : Forall good_token (_ ++ _) |- _ => apply Forall_app in H; let G := fresh "G" in destruct H as [G H]
  end.

Lemma dice_keeps_text : forall t d, mk_dice t = Ok d -> dice_form d = t.
Proof.
  intros t d H. unfold mk_dice in H. destruct (rbind (index _ 1) get_single_dice_outcome_map); [|discriminate]. cbn [rbind] in H.
  destruct (number_of_dice _); [|discriminate]. inversion H. reflexivity.
Qed.
Lemma dropkeep_keeps_text : forall t d, mk_dropkeep t = Ok d -> dk_form d = t.
Proof.
  intros t d H. unfold mk_dropkeep in H. repeat match type of H with rbind ?x _ = _ => destruct x; [|discriminate]; cbn [rbind] in H end. inversion H. reflexivity.
Qed.

Lemma infix_layout : forall p a ta o b tb n w, laid_out p a ta -> (forall q, opener q -> laid_out q b tb) -> named n o -> good_token o -> tk_text o = w ->
  laid_out p (a ++ $" " ++ w ++ $" " ++ b) (ta ++ o :: tb).
Proof.
  intros p a ta o b tb n w La Lb N G E. apply laid_out_app; [exact La|]. apply lo_space; [reflexivity|]. apply (lo_tok _ o n w); auto.
  - intros v F Ev. subst w. destruct (tk_text o) as [|c s] eqn:T; [exact I|]. unfold may_follow, may_meet. now rewrite ?andb_false_r.
  - apply lo_space; [reflexivity|]. apply Lb. cbn [opener list_ascii_of_string In]. tauto.
Qed.

Lemma printed_layout : forall e ts, derives e ts -> Forall good_token ts -> forall p, opener p -> laid_out p (expr_str e) ts.
Proof.
  intros e ts D. induction D; intros Gs p O; goods; cbn [expr_str].
  - apply (lo_tok p o T_OPEN_PARENTHESIS); auto; [fixed|opening|]. apply laid_out_app; [apply IHD; auto; cbn; tauto|].
    rewrite <- (app_nil_r $")"). apply (lo_tok _ c T_CLOSE_PARENTHESIS); auto; [fixed|closing|apply lo_end].
  - apply (lo_tok p n T_NOT); auto; [fixed|opening|]. apply IHD; auto; cbn; tauto.
  - rewrite (dropkeep_keeps_text _ _ H0), <- (app_nil_r (tk_text t)). apply (lo_tok p t T_DROP_KEEP_DICE); auto; [opening|apply lo_end].
  - rewrite (dice_keeps_text _ _ H0), <- (app_nil_r (tk_text t)). apply (lo_tok p t T_DICE); auto; [opening|apply lo_end].
  - rewrite <- (app_nil_r (tk_text t)). apply (lo_tok p t T_CONSTANT_INTEGER); auto; [opening|apply lo_end].
  - rewrite <- (app_nil_r (tk_text t)). apply (lo_tok p t T_CONSTANT_BINARY); auto; [opening|apply lo_end].
  - apply (infix_layout p _ ta o _ tb T_ADD $"+"); auto. fixed.
  - apply (infix_layout p _ ta o _ tb T_SUBTRACT $"-"); auto. fixed.
  - apply (infix_layout p _ ta o _ tb T_MULTIPLY $"*"); auto. fixed.
  - apply (infix_layout p _ ta o _ tb T_INTEGER_DIVISION $"//"); auto. fixed.
  - apply (infix_layout p _ ta o _ tb T_BINARY_OPERATOR (tk_text o)); auto.
  - apply (lo_tok p m T_MINMAX); auto; [opening|]. apply (lo_tok _ o T_OPEN_PARENTHESIS); auto; [fixed| |].
    { closing. }
    apply laid_out_app; [apply IHD1; auto; cbn; tauto|]. apply (lo_tok _ k T_COMMA $","); auto; [fixed|closing|]. apply lo_space; [reflexivity|].
    apply laid_out_app; [apply IHD2; auto; cbn; tauto|]. rewrite <- (app_nil_r $")"). apply (lo_tok _ c T_CLOSE_PARENTHESIS); auto; [fixed|closing|apply lo_end].
  - apply (lo_tok p m T_ABS $"ABS" ($"(" ++ expr_str e ++ $")")); auto; [fixed|opening|]. apply (lo_tok _ o T_OPEN_PARENTHESIS); auto; [fixed|intros v Fv Ev; reflexivity|].
    apply laid_out_app; [apply IHD; auto; cbn; tauto|]. rewrite <- (app_nil_r $")"). apply (lo_tok _ c T_CLOSE_PARENTHESIS); auto; [fixed|closing|apply lo_end].
  - apply (lo_tok p v T_VAR $"VAR" ($" " ++ tk_text n ++ $" = " ++ expr_str e)); auto; [fixed|opening|]. apply lo_space; [reflexivity|].
    apply (lo_tok _ n T_NAME); auto.
    { intros x Fx Ex. apply (opener_follow _ T_NAME); [cbn; tauto|now rewrite <- Ex|discriminate|discriminate]. }
    apply lo_space; [reflexivity|]. apply (lo_tok _ q T_ASSIGNMENT $"=" ($" " ++ expr_str e)); auto; [fixed|intros x Fx Ex; reflexivity|]. apply lo_space; [reflexivity|].
    apply IHD; auto; cbn; tauto.
  - rewrite <- (app_nil_r (tk_text t)). apply (lo_tok p t T_NAME); auto; [opening|apply lo_end].
Qed.

Lemma printing_tokens : forall t ts e, lex t = LexOk ts -> parse t = Ok e -> lex (expr_str e) = LexOk ts.
Proof.
  intros t ts e L P. apply parse_ok in P. destruct P as [ts' [L' [D _]]]. assert (ts' = ts) by congruence. subst ts'. apply laid_out_tokens.
  apply printed_layout; auto; [|exact I]. now apply (lexed_good t).
Qed.
Lemma round_trip : forall t e, parse t = Ok e -> parse (expr_str e) = Ok e.
Proof.
  intros t e P. pose proof P as P'. apply parse_ok in P. destruct P as [ts [L [D W]]]. apply parse_ok. exists ts. split; [|auto]. now apply (printing_tokens t).
Qed.
