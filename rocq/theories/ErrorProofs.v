(** * ErrorProofs: the token at which the parser gives up, and its position (C50) *)
From Verif Require Import Py PyFacts Regex RegexFacts Lexer DiceModel Expr Parser SpecNotation SpecGrammar SpecLexer ParserFacts LexFacts LexProofs MunchProofs WfFacts SyntaxProofs SpecErrors.

(** ** The beginning of a program *)
Definition goes_on (us : list token) : Prop := exists vs e, Forall good_token vs /\ derives e (us ++ vs).

Lemma goes_on_less : forall us vs, Forall good_token vs -> goes_on (us ++ vs) -> goes_on us.
Proof. intros us vs G [ws [e [Gw D]]]. exists (vs ++ ws), e. split; [now apply Forall_app|]. now rewrite app_assoc. Qed.

Definition the (n : tokname) (w : text) : token := {| tk_name := n; tk_text := w |}.
Definition one : token := the T_CONSTANT_INTEGER $"1".
Lemma one_good : good_token one.
Proof. exists {| n_minus := false; n_digits := $"1" |}. split; [split; [discriminate|reflexivity]|reflexivity]. Qed.
Lemma one_derives : derives (EInt $"1") [one].
Proof. apply (dv_int one). reflexivity. Qed.

Ltac known := repeat (apply Forall_cons; [first [exact one_good | reflexivity]|]); apply Forall_nil.

Lemma expression_goes_on : forall n st ts k w e, (length st <= n)%nat -> valid st ts -> top_state st = SCtx k -> derives e w -> goes_on (ts ++ w).
Proof.
  induction n as [|n IH]; intros st ts k w e L V T D.
  - destruct st; [|cbn in L; lia]. inversion V; subst. exists [], e. split; [constructor|]. now rewrite app_nil_r.
  - destruct k as [| | |i| | | |].
    + (* start *) destruct st as [|[s x] st]; [inversion V; subst; exists [], e; split; [constructor|now rewrite app_nil_r]|].
      cbn in T. subst s. inversion V as [|? ? ? ? ? ? G]; subst. inversion G.
    + pop_tok. invert. rewrite <- app_assoc. cbn [app length] in *. apply (goes_on_less _ [the T_CLOSE_PARENTHESIS $")"]); [known|]. rewrite <- app_assoc. cbn [app].
      eapply IH; [|eassumption|eassumption|apply dv_paren; [eassumption|exact D|reflexivity]]. lia.
    + pop_tok. invert. rewrite <- app_assoc. cbn [app length] in *. eapply IH; [|eassumption|eassumption|apply dv_not; eassumption]. lia.
    + pop_tok. invert. pop_exp. rewrite <- !app_assoc. cbn [app length] in *. eapply IH; [|eassumption|eassumption|eapply node_derives; eassumption]. lia.
    + pop_tok. invert. pop_tok. invert. rewrite <- !app_assoc. cbn [app length] in *.
      apply (goes_on_less _ [the T_COMMA $","; one; the T_CLOSE_PARENTHESIS $")"]); [known|]. rewrite <- !app_assoc. cbn [app].
      eapply IH; [|eassumption|eassumption|refine (dv_minmax _ _ _ _ (the T_COMMA $",") (EInt $"1") [one] (the T_CLOSE_PARENTHESIS $")") _ _ D _ one_derives _); try eassumption; reflexivity]. lia.
    + pop_tok. invert. pop_exp. pop_tok. invert. pop_tok. invert. rewrite <- !app_assoc. cbn [app length] in *.
      apply (goes_on_less _ [the T_CLOSE_PARENTHESIS $")"]); [known|]. rewrite <- !app_assoc. cbn [app]. rewrite <- !app_assoc. cbn [app].
      eapply IH; [|eassumption|eassumption|apply dv_minmax; try eassumption; reflexivity]. lia.
    + pop_tok. invert. pop_tok. invert. rewrite <- !app_assoc. cbn [app length] in *.
      apply (goes_on_less _ [the T_CLOSE_PARENTHESIS $")"]); [known|]. rewrite <- !app_assoc. cbn [app].
      eapply IH; [|eassumption|eassumption|apply dv_abs; try eassumption; reflexivity]. lia.
    + pop_tok. invert. pop_tok. invert. pop_tok. invert. rewrite <- !app_assoc. cbn [app length] in *.
      eapply IH; [|eassumption|eassumption|apply dv_assign; eassumption]. lia.
Qed.

Lemma stack_goes_on : forall st ts, valid st ts -> match top_state st with SLeaf _ | SClose _ => False | _ => True end -> goes_on ts.
Proof.
  intros st ts V N.
  assert (X : forall st ts k w e, valid st ts -> top_state st = SCtx k -> derives e w -> goes_on (ts ++ w)).
  { intros st0 ts0 k w e V0 T D. eapply (expression_goes_on (length st0)); eauto. }
  destruct (top_state st) as [k|k|n| | | | |k] eqn:T; try contradiction.
  - apply (goes_on_less _ [one]); [known|]. eapply X; eauto. apply one_derives.
  - pop_exp. eapply X; eauto.
  - pop_tok. invert. apply (goes_on_less _ [the T_OPEN_PARENTHESIS $"("; one; the T_COMMA $","; one; the T_CLOSE_PARENTHESIS $")"]); [known|].
    rewrite <- app_assoc. cbn [app]. eapply X; eauto.
    refine (dv_minmax t (the T_OPEN_PARENTHESIS $"(") _ [one] (the T_COMMA $",") _ [one] (the T_CLOSE_PARENTHESIS $")") _ _ one_derives _ one_derives _); try eassumption; reflexivity.
  - pop_tok. invert. apply (goes_on_less _ [the T_OPEN_PARENTHESIS $"("; one; the T_CLOSE_PARENTHESIS $")"]); [known|].
    rewrite <- app_assoc. cbn [app]. eapply X; eauto.
    refine (dv_abs t (the T_OPEN_PARENTHESIS $"(") _ [one] (the T_CLOSE_PARENTHESIS $")") _ _ one_derives _); try eassumption; reflexivity.
  - pop_tok. invert. apply (goes_on_less _ [the T_NAME $"x"; the T_ASSIGNMENT $"="; one]).
    { apply Forall_cons; [split; [discriminate|reflexivity]|]. known. }
    rewrite <- app_assoc. cbn [app]. eapply X; eauto.
    refine (dv_assign t (the T_NAME $"x") (the T_ASSIGNMENT $"=") _ [one] _ _ _ one_derives); try eassumption; reflexivity.
  - pop_tok. invert. pop_tok. invert. apply (goes_on_less _ [the T_ASSIGNMENT $"="; one]); [known|].
    rewrite <- !app_assoc. cbn [app]. eapply X; eauto.
    refine (dv_assign _ _ (the T_ASSIGNMENT $"=") _ [one] _ _ _ one_derives); try eassumption; reflexivity.
Qed.

(** ** Where the parser gives up *)
Lemma loop_error : forall f st ts i rest, valid st ts -> lr_loop f st i = ParseError rest ->
  exists u st', i = u ++ rest /\ valid st' (ts ++ u) /\ lr_action (top_state st') (look rest) = AError /\
    forall v, look v = look rest -> leads st (u ++ v) st' v.
Proof.
  induction f as [|f IH]; intros st ts i rest V H; [discriminate|]. cbn [lr_loop] in H. fold (look i) in H.
  destruct (lr_action (top_state st) (look i)) as [s| | |] eqn:A.
  - destruct i as [|t i]; [discriminate|]. cbn [look] in A. pose proof (action_shift _ _ _ A) as G.
    destruct (IH ((s, STok t) :: st) (ts ++ [t]) i rest) as [u [st' [-> [V' [A' Ld]]]]]; [econstructor; eauto; reflexivity|exact H|].
    exists (t :: u), st'. split; [reflexivity|]. rewrite <- app_assoc in V'. split; [exact V'|]. split; [exact A'|].
    intros v E. cbn [app]. eapply leads_trans; [apply leads_shift; exact A|]. now apply Ld.
  - pose proof A as A0. apply action_reduce in A; [|eapply valid_reducing; eauto].
    destruct (reduce_sound st ts V A) as [[e [st' [k [t1 [t2 [Rd [V' [T [D ->]]]]]]]]]|[x [t [st' [Rd [_ _]]]]]].
    + rewrite Rd, T in H. destruct (IH ((SAfter k, SExp e) :: st') (t1 ++ t2) i rest) as [u [st2 [-> [V2 [A2 Ld]]]]]; [econstructor; eauto; rewrite T; constructor|exact H|].
      exists u, st2. split; [reflexivity|]. split; [exact V2|]. split; [exact A2|]. intros v E.
      eapply leads_trans; [|apply Ld; exact E]. eapply leads_reduce; eauto. destruct u; [cbn [app] in *; now rewrite E|exact A0].
    + rewrite Rd in H. discriminate.
  - destruct st as [|[s [t|e]] st]; discriminate.
  - inversion H; subst. exists [], st. rewrite app_nil_r. repeat split; auto. intros v _. exists 0%nat. reflexivity.
Qed.

Lemma error_stops : forall ts rest, parse_tokens ts = ParseError rest ->
  exists us, ts = us ++ rest /\ goes_on us /\ forall v, look v = look rest -> parse_tokens (us ++ v) = ParseError v.
Proof.
  intros ts rest H. unfold parse_tokens in H. destruct (loop_error _ [] [] ts rest (valid_nil) H) as [us [st [-> [V [A Ld]]]]]. cbn [app] in V.
  exists us. split; [reflexivity|]. split.
  - apply (stack_goes_on st); [exact V|]. destruct (top_state st); auto; discriminate.
  - intros v E. destruct (Ld v E) as [n Hn]. unfold parse_tokens. rewrite (fuel_enough _ (n + (2 * length (us ++ v) + 2))); [|unfold size; cbn; lia|unfold size; cbn; lia].
    rewrite Hn. rewrite Nat.add_comm. cbn [Nat.add lr_loop]. fold (look v). rewrite E, A. reflexivity.
Qed.

(** ** Dice that cannot be read *)
Definition raising (x : exn) (t : token) : Prop :=
  named T_DICE t /\ mk_dice (tk_text t) = Raise x \/ named T_DROP_KEEP_DICE t /\ mk_dropkeep (tk_text t) = Raise x.

Lemma reduce_raise : forall st x st', reduce st = Some (Raise x, st') -> exists n t, st = (SLeaf n, STok t) :: st' /\
  (n = T_DICE /\ mk_dice (tk_text t) = Raise x \/ n = T_DROP_KEEP_DICE /\ mk_dropkeep (tk_text t) = Raise x).
Proof.
  intros st x st' H. unfold reduce in H.
  repeat match type of H with
         | match ?y with _ => _ end = _ => destruct y; try discriminate
         end; try discriminate H; inversion H as [[E1 E2]]; unfold rmap in E1.
  - destruct (mk_dropkeep (tk_text t)) eqn:M; cbn in E1; [discriminate|]. inversion E1; subst. eauto 8.
  - destruct (mk_dice (tk_text t)) eqn:M; cbn in E1; [discriminate|]. inversion E1; subst. eauto 8.
Qed.

Lemma loop_raise : forall f st ts i x, valid st ts -> (size st i < f)%nat -> lr_loop f st i = ParseRaise x ->
  (exists n t st', st = (SLeaf n, STok t) :: st' /\ raising x t) \/ exists u t v, i = u ++ t :: v /\ goes_on (ts ++ u) /\ raising x t.
Proof.
  induction f as [|f IH]; intros st ts i x V L H; [lia|]. cbn [lr_loop] in H. fold (look i) in H.
  destruct (lr_action (top_state st) (look i)) as [s| | |] eqn:A.
  - destruct i as [|t i].
    + cbn [look] in A. pose proof (action_none (top_state st)) as N. rewrite A in N. destruct N.
    + right. cbn [look] in A. pose proof (action_shift _ _ _ A) as G.
      destruct (IH ((s, STok t) :: st) (ts ++ [t]) i x) as [[n [d [st' [E Rs]]]]|[u [d [v [-> [Go Rs]]]]]]; [econstructor; eauto; reflexivity|unfold size in *; simpl in *; lia|exact H| |].
      * inversion E; subst. exists [], d, i. split; [reflexivity|]. split; [|exact Rs]. rewrite app_nil_r. apply (stack_goes_on st'); [exact V|]. inversion G; exact I.
      * exists (t :: u), d, v. split; [reflexivity|]. split; [|exact Rs]. now rewrite <- app_assoc in Go.
  - apply action_reduce in A; [|eapply valid_reducing; eauto].
    destruct (reduce_sound st ts V A) as [[e [st' [k [t1 [t2 [Rd [V' [T [D ->]]]]]]]]]|[x' [t [st' [Rd [_ _]]]]]].
    + rewrite Rd, T in H. right. destruct (IH ((SAfter k, SExp e) :: st') (t1 ++ t2) i x) as [[n [d [st2 [E Rs]]]]|X].
      * econstructor; eauto. rewrite T. constructor.
      * apply reduce_toks in Rd. unfold size in *; simpl in *; lia.
      * exact H.
      * inversion E.
      * exact X.
    + rewrite Rd in H. inversion H; subst x'. apply reduce_raise in Rd. destruct Rd as [n [d [-> M]]]. left. exists n, d, st'. split; [reflexivity|].
      inversion V as [|? ? ? ? ? ? G]; subst. inversion G; subst. unfold raising. match goal with N : named _ d |- _ => unfold named in * end. destruct M as [[-> M]|[-> M]]; auto.
  - pose proof (loop_sound (Datatypes.S f) st ts i V L) as P. cbn [lr_loop] in P. fold (look i) in P. rewrite A in P.
    destruct st as [|[s [t|e]] st]; try discriminate.
    + cbn [top_state] in A. exfalso. destruct i as [|[[] ?] ?]; discriminate A.
    + exfalso. inversion V as [|? ? ? ? ? ? G]; subst. cbn [top_state] in A. inversion G; subst; destruct i as [|[[] ?] ?]; discriminate A.
  - discriminate.
Qed.

Lemma begins_goes_on : forall us, Forall good_token us -> goes_on us -> begins us.
Proof.
  intros us G [vs [e [Gv D]]]. destruct (grouped_exists e _ D) as [e' [W D']]. exists (expr_str e'), vs, e'.
  assert (L : lex (expr_str e') = LexOk (us ++ vs)).
  { apply laid_out_tokens. apply printed_layout; [exact D'|now apply Forall_app|exact I]. }
  split; [exact L|]. apply parse_ok. eauto.
Qed.
Lemma begins_less : forall us vs, begins (us ++ vs) -> begins us.
Proof. intros us vs [s [ts [e [L P]]]]. exists s, (vs ++ ts), e. rewrite app_assoc. auto. Qed.
Lemma begins_derives : forall us, begins us -> exists ts e, derives e (us ++ ts).
Proof. intros us [s [ts [e [L P]]]]. apply parse_ok in P. destruct P as [ts' [L' [D _]]]. exists ts, e. congruence. Qed.
Lemma derives_dice : forall e ts, derives e ts -> forall x t, In t ts -> ~ raising x t.
Proof.
  induction 1; intros y u I; cbn [In] in I; repeat (rewrite in_app_iff in I; cbn [In] in I);
    repeat match goal with
           | I : _ \/ _ |- _ => destruct I as [I|I]
           | I : False |- _ => destruct I
           end; auto; try (eapply IHderives; eassumption); try (eapply IHderives1; eassumption); try (eapply IHderives2; eassumption); subst;
    unfold raising, named in *; intros [[N M]|[N M]]; congruence.
Qed.

(** ** Positions *)
Lemma newlines_app : forall u v, newlines (u ++ v) = newlines u + newlines v.
Proof. intros u v. unfold newlines. rewrite filter_app, app_length. lia. Qed.

Lemma positions : forall fuel b s ts lineno, (length s < fuel)%nat -> rply_lex fuel (b, s) = Lexed ts ->
  forall us t rest, ts = us ++ t :: rest -> exists a v, s = a ++ tk_text t ++ v /\ munched (hd_error b) s us (tk_text t ++ v) /\
    nth_error (rply_positions fuel lineno (b, s)) (length us) =
      Some {| sp_idx := Z.of_nat (length b + length a); sp_lineno := lineno + newlines a; sp_colno := column (rev a ++ b, tk_text t ++ v) |}.
Proof.
  induction fuel as [|fuel IH]; intros b s ts lineno L H us t rest E; [lia|]. cbn [rply_lex rply_positions snd] in *. destruct s as [|c s].
  { inversion H; subst. destruct us; discriminate. }
  destruct (rmatch ignore_rule (b, c :: s)) as [|q l] eqn:I.
  - destruct (first_rule lexer_rules (b, c :: s)) as [[n q]|] eqn:F; [|discriminate].
    apply munch_step in F. destruct F as [w [v [Es [-> [T M]]]]]. pose proof (form_nonempty n w (proj1 T)) as N.
    rewrite (between_reads (b, c :: s) w) in * by (split; [cbn [fst snd]; exact Es|reflexivity]). rewrite Es in *.
    assert (Lv : (length v < fuel)%nat) by (rewrite app_length in L; destruct w; [congruence|]; cbn [length] in L; lia).
    destruct (rply_lex fuel (rev w ++ b, v)) as [ts'|q|] eqn:Rl; cbn [lex_cons] in H; try discriminate. injection H as <-.
    destruct us as [|u us]; cbn [app] in E; injection E as Eu E.
    + subst t. cbn [tk_text]. exists [], v. split; [reflexivity|]. split; [apply mu_stop|]. cbn [length nth_error app rev fst].
      rewrite Nat.add_0_r. change (newlines []) with 0. rewrite Z.add_0_r. reflexivity.
    + destruct (IH (rev w ++ b) v ts' (lineno + newlines w) Lv Rl us t rest E) as [a [v' [-> [Mu Np]]]]. subst u.
      exists (w ++ a), v'. split; [now rewrite <- app_assoc|]. split.
      * apply (mu_token (hd_error b) {| tk_name := n; tk_text := w |}); auto. now rewrite hd_rev in Mu.
      * cbn [length nth_error]. rewrite Np. f_equal. rewrite !app_length, rev_length, newlines_app, rev_app_distr, <- app_assoc. f_equal; lia.
  - apply ignore_space in I. destruct I as [w [N [Sp R]]]. rewrite (between_reads (b, c :: s) w) by exact R. destruct R as [R1 R2]. destruct q as [b' v]. cbn [fst snd] in R1, R2. subst b'. rewrite R1 in *.
    assert (Lv : (length v < fuel)%nat) by (rewrite app_length in L; destruct w; [congruence|]; cbn [length] in L; lia).
    destruct (IH (rev w ++ b) v ts (lineno + newlines w) Lv H us t rest E) as [a [v' [-> [Mu Np]]]].
    exists (w ++ a), v'. split; [now rewrite <- app_assoc|]. split.
    + apply munched_spaces; [exact Sp|]. now rewrite hd_rev in Mu.
    + rewrite Np. f_equal. rewrite !app_length, rev_length, newlines_app, rev_app_distr, <- app_assoc. f_equal; lia.
Qed.

Lemma newlines_count : forall s, newlines s = Z.of_nat (count_occ Ascii.ascii_dec s newline).
Proof.
  unfold newlines. induction s as [|c s IH]; [reflexivity|]. cbn [filter count_occ]. destruct (Ascii.ascii_dec c newline) as [->|N].
  - rewrite Ascii.eqb_refl. cbn [length]. lia.
  - destruct (Ascii.eqb newline c) eqn:E; [apply Ascii.eqb_eq in E; congruence|]. exact IH.
Qed.
Lemma rfind_place : forall b, match rfind_newline b with
  | Z.neg _ => rfind_newline b = -1 /\ ~ In newline b
  | z => exists here above, b = here ++ newline :: above /\ ~ In newline here /\ z = Z.of_nat (length above)
  end.
Proof.
  induction b as [|c b IH]; [split; [reflexivity|auto]|]. cbn [rfind_newline]. destruct (Ascii.eqb newline c) eqn:E.
  - apply Ascii.eqb_eq in E. subst c. destruct (Z.of_nat (length b)) eqn:Z; try lia; exists [], b; rewrite Z; repeat split; auto; intros [].
  - assert (N : c <> newline) by (intros ->; now rewrite Ascii.eqb_refl in E).
    destruct (rfind_newline b) eqn:Z; [destruct IH as [h [a [-> [Nh Ea]]]]; exists (c :: h), a; repeat split; auto; intros [X|X]; auto|
      destruct IH as [h [a [-> [Nh Ea]]]]; exists (c :: h), a; repeat split; auto; intros [X|X]; auto|].
    destruct IH as [X1 X2]. split; [exact X1|]. intros [X|X]; auto.
Qed.
Lemma place : forall a v, exists line col, stands a line col /\ 1 + newlines a = Z.of_nat line /\ column (rev a ++ [], v) = Z.of_nat col.
Proof.
  intros a v. rewrite app_nil_r. unfold column. cbn [fst]. rewrite rev_length. pose proof (rfind_place (rev a)) as P.
  assert (Q : (rfind_newline (rev a) = -1 /\ ~ In newline (rev a)) \/
    exists h b, rev a = h ++ newline :: b /\ ~ In newline h /\ rfind_newline (rev a) = Z.of_nat (length b)) by (destruct (rfind_newline (rev a)); [right|right|left]; exact P).
  clear P. destruct Q as [[-> N]|[h [b [E [N ->]]]]].
  - exists 1%nat, (Datatypes.S (length a)). assert (Na : ~ In newline a) by (intros X; apply N; now apply in_rev in X).
    split; [|split].
    + exists [], a. repeat split; auto.
    + rewrite newlines_count. now rewrite (proj1 (count_occ_not_In _ _ _) Na).
    + cbn [Z.ltb Z.compare]. lia.
  - apply (f_equal (@rev ascii)) in E. rewrite rev_involutive, rev_app_distr in E. cbn [rev] in E.
    exists (Datatypes.S (Datatypes.S (count_occ Ascii.ascii_dec (rev b) newline))), (Datatypes.S (length h)). split; [|split].
    + exists (rev b ++ [newline]), (rev h). split; [exact E|]. split; [intros X; apply N; now apply in_rev|]. split; [right; eauto|].
      rewrite count_occ_app. split; [cbn [count_occ]; destruct (Ascii.ascii_dec newline newline); [|congruence]; lia|now rewrite rev_length].
    + rewrite newlines_count, E, !count_occ_app. rewrite (proj1 (count_occ_not_In _ (rev h) _)) by (intros X; apply N; now apply in_rev).
      cbn [count_occ]. destruct (Ascii.ascii_dec newline newline); [|congruence]. lia.
    + rewrite E, !app_length, !rev_length. cbn [length]. destruct (Z.of_nat (length b) <? 0) eqn:L; [apply Z.ltb_lt in L; lia|]. lia.
Qed.

(** ** C50 *)
Lemma kinds_type : forall n, In (n, token_type n) kinds.
Proof. destruct n; cbn; tauto. Qed.

Lemma message_at : forall input us t rest, lex input = LexOk (us ++ t :: rest) -> exists a v, input = a ++ tk_text t ++ v /\ munched None input us (tk_text t ++ v) /\
  reports t a (unexpected (token_type (tk_name t)) (tk_text t) (nth_error (lex_positions input) (length (us ++ t :: rest) - length (t :: rest)))).
Proof.
  intros input us t rest L. unfold lex, run_lexer, pstart in L. destruct (rply_lex _ _) as [ts'|q|] eqn:E; [|destruct (lex_error_message _ _); discriminate|discriminate].
  injection L as ->. destruct (positions _ [] input _ 1 (Nat.lt_succ_diag_r _) E us t rest eq_refl) as [a [v [Es [Mu Np]]]]. exists a, v. split; [exact Es|]. split; [exact Mu|].
  destruct (place a (tk_text t ++ v)) as [line [col [St [El Ec]]]]. exists (token_type (tk_name t)), line, col. split; [apply kinds_type|]. split; [exact St|].
  rewrite app_length. replace (length us + length (t :: rest) - length (t :: rest))%nat with (length us) by lia.
  unfold lex_positions, pstart. rewrite Np, El, Ec. unfold unexpected, position_repr, number. cbn [sp_idx sp_lineno sp_colno length Nat.add].
  rewrite <- !app_assoc. reflexivity.
Qed.

Lemma same_break : forall (P : list token -> Prop) (us us' : list token) t t' r r', (forall a b, P (a ++ b) -> P a) ->
  us ++ t :: r = us' ++ t' :: r' -> P us -> ~ P (us ++ [t]) -> P us' -> ~ P (us' ++ [t']) -> us = us'.
Proof.
  intros P us us' t t' r r' M. revert P M us'. induction us as [|u us IH]; intros P M [|u' us'] E P1 N1 P2 N2; auto; cbn [app] in E; injection E as -> E.
  - exfalso. apply N1. apply (M [u'] us'). exact P2.
  - exfalso. apply N2. apply (M [t'] us). exact P1.
  - f_equal. apply (IH (fun x => P (u' :: x))); auto. intros a b X. apply (M (u' :: a) b X).
Qed.

Lemma raise_place : forall ts x, parse_tokens ts = ParseRaise x -> exists u t v, ts = u ++ t :: v /\ goes_on u /\ raising x t.
Proof.
  intros ts x P. destruct (loop_raise (2 * length ts + 2) [] [] ts x valid_nil) as [[n [d [st' [X _]]]]|X]; [unfold size; cbn; lia|exact P|discriminate|exact X].
Qed.

Lemma raising_value : forall x t, good_token t -> raising x t -> bad_die t.
Proof.
  intros x t G [[N M]|[N M]]; unfold good_token in G; rewrite N in G; [left|right]; (split; [exact N|]).
  - destruct (dice_token _ G) as [[d [E _]]|E]; congruence.
  - destruct (dropkeep_token _ G) as [[d [E _]]|E]; congruence.
Qed.

Lemma stop_token : forall us t rest, parse_tokens (us ++ t :: rest) = ParseError (t :: rest) -> begins (us ++ [t]) -> False.
Proof.
  intros us t rest H B. destruct (error_stops _ _ H) as [us' [E [_ Sp]]]. apply app_inv_tail in E. subst us'.
  destruct (begins_derives _ B) as [ts [e D]]. rewrite <- app_assoc in D. cbn [app] in D. destruct (proj1 (derivable_parses _) (ex_intro _ e D)) as [e' P].
  rewrite (Sp (t :: ts) eq_refl) in P. discriminate.
Qed.

Lemma error_reported : forall input m, parse_error input = Some m -> parse input = Raise ValueError /\
  exists us rest, lex input = LexOk (us ++ rest) /\ begins us /\
    match rest with
    | [] => reports_end m
    | t :: _ => ~ begins (us ++ [t]) /\ exists a v, input = a ++ tk_text t ++ v /\ munched None input us (tk_text t ++ v) /\ reports t a m
    end.
Proof.
  intros input m H. unfold parse_error in H. unfold parse. destruct (lex input) as [ts|x|x] eqn:L; try discriminate.
  destruct (parse_tokens ts) as [e|rest|x] eqn:P; try discriminate. split; [reflexivity|].
  destruct (error_stops _ _ P) as [us [-> [Go _]]]. exists us, rest. split; [reflexivity|]. split.
  - apply begins_goes_on; [|exact Go]. apply lexed_good in L. now apply Forall_app in L.
  - destruct rest as [|t rest]; [now inversion H|]. split.
    + intros B. now apply (stop_token us t rest).
    + destruct (message_at input us t rest L) as [a [v [E [Mu Rp]]]]. exists a, v. inversion H; subst m. auto.
Qed.

Lemma error_at : forall input us t rest, lex input = LexOk (us ++ t :: rest) -> begins us -> ~ begins (us ++ [t]) -> ~ bad_die t ->
  exists a v m, parse_error input = Some m /\ input = a ++ tk_text t ++ v /\ munched None input us (tk_text t ++ v) /\ reports t a m.
Proof.
  intros input us t rest L B N Nd. pose proof (lexed_good _ _ L) as G. destruct (message_at input us t rest L) as [a [v [E [Mu Rp]]]].
  unfold parse_error. rewrite L. destruct (parse_tokens (us ++ t :: rest)) as [e|rest'|x] eqn:P.
  - exfalso. apply N. exists input, rest, e. rewrite <- app_assoc. split; [exact L|]. unfold parse. now rewrite L, P.
  - destruct (error_stops _ _ P) as [us' [E' [Go _]]]. assert (B' : begins us').
    { apply begins_goes_on; [|exact Go]. rewrite E' in G. now apply Forall_app in G. }
    destruct rest' as [|t' rest'].
    + exfalso. apply N. rewrite app_nil_r in E'. apply (begins_less _ rest). rewrite <- app_assoc. cbn [app]. now rewrite E'.
    + assert (us = us').
      { apply (same_break begins us us' t t' rest rest'); auto; [apply begins_less|]. intros X. rewrite E' in P. now apply (stop_token us' t' rest'). }
      subst us'. apply app_inv_head in E'. injection E' as <- <-. exists a, v. eexists. split; [reflexivity|]. auto.
  - exfalso. destruct (raise_place _ _ P) as [u [d [w [E' [Go Rs]]]]].
    assert (Gd : good_token d).
    { rewrite E' in G. apply Forall_app in G. destruct G as [_ G]. now inversion G. }
    assert (Bu : begins u).
    { apply begins_goes_on; [|exact Go]. rewrite E' in G. now apply Forall_app in G. }
    assert (us = u).
    { apply (same_break begins us u t d rest w); auto; [apply begins_less|]. intros X. destruct (begins_derives _ X) as [ts [e D]].
      apply (derives_dice _ _ D x d); auto. apply in_or_app. left. apply in_or_app. right. now left. }
    subst u. apply app_inv_head in E'. injection E' as <- <-. apply Nd. now apply (raising_value x).
Qed.

Lemma error_at_end : forall input us, lex input = LexOk us -> begins us -> (forall e, parse input <> Ok e) ->
  exists m, parse_error input = Some m /\ reports_end m.
Proof.
  intros input us L B N. unfold parse_error. rewrite L. destruct (parse_tokens us) as [e|rest|x] eqn:P.
  - exfalso. apply (N e). unfold parse. now rewrite L, P.
  - destruct (error_stops _ _ P) as [us' [E [_ _]]]. destruct rest as [|t rest]; [eexists; split; reflexivity|]. exfalso. rewrite E in P. apply (stop_token us' t rest P).
    apply (begins_less _ rest). rewrite <- app_assoc. cbn [app]. now rewrite <- E.
  - exfalso. destruct (raise_place _ _ P) as [u [d [w [E' [Go Rs]]]]].
    destruct (begins_derives _ B) as [ts [e D]]. apply (derives_dice _ _ D x d); auto. apply in_or_app. left. rewrite E'. apply in_or_app. right. now left.
Qed.
