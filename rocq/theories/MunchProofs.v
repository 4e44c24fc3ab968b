(** * MunchProofs: the lexer takes the longest token *)
From Verif Require Import Py PyFacts Regex RegexFacts Lexer SpecNotation SpecLexer LexFacts LexProofs.

Notation here := hd_error.

(** ** What a rule matches is a token of its kind at that place *)
Lemma bound_left : forall b c s, at_bound (b, c :: s) = true -> is_word c = true -> match here b with Some a => is_word a = false | None => True end.
Proof.
  intros b c s H W. unfold at_bound in H. cbn [fst snd] in H. rewrite W in H. destruct b as [|a b]; [exact I|]. cbn [hd_error]. destruct (is_word a); [discriminate|reflexivity].
Qed.
Lemma bound_right : forall a b s, at_bound (a :: b, s) = true -> is_word a = true -> match s with c :: _ => is_word c = false | [] => True end.
Proof.
  intros a b s H W. unfold at_bound in H. cbn [fst snd] in H. rewrite W in H. destruct s as [|c s]; [exact I|]. destruct (is_word c); [discriminate|reflexivity].
Qed.
Lemma bound_iff : forall b c w u a v, c :: w = u ++ [a] -> is_word c = true -> is_word a = true ->
  (at_bound (b, (c :: w) ++ v) = true /\ at_bound (rev (c :: w) ++ b, v) = true <-> word_apart (here b) v).
Proof.
  intros b c w u a v E Wc Wa. unfold word_apart. split.
  - intros [H1 H2]. split; [eapply bound_left; eauto|]. rewrite E, rev_app_distr in H2. cbn [rev app] in H2. eapply bound_right; eauto.
  - intros [H1 H2]. replace (rev (c :: w) ++ b) with (a :: rev u ++ b) by (rewrite E, rev_app_distr; reflexivity).
    unfold at_bound. cbn [fst snd app]. rewrite Wc, Wa. split.
    + destruct b as [|x b]; [reflexivity|]. cbn [hd_error] in H1. now rewrite H1.
    + destruct v as [|x v]; [reflexivity|]. now rewrite H2.
Qed.

Lemma in_bound : forall p q, In q (rmatch RBound p) <-> q = p /\ at_bound p = true.
Proof.
  intros p q. cbn [rmatch]. destruct (at_bound p); split.
  - intros [<-|[]]. auto.
  - intros [-> _]. now left.
  - intros [].
  - intros [_ H]. discriminate.
Qed.
Lemma in_lit : forall s b t q, In q (rmatch (rlit s) (b, t)) <-> exists v, t = s ++ v /\ q = (rev s ++ b, v).
Proof.
  induction s as [|c s IH]; intros b t q.
  - cbn. split; [intros [<-|[]]; eauto|intros [v [-> ->]]; auto].
  - cbn [rlit]. rewrite in_seq. split.
    + intros [m [H1 H2]]. apply in_char in H1. destruct H1 as [x [t' [E [X ->]]]]. cbn [fst snd] in *. subst t. apply Ascii.eqb_eq in X. subst x. apply IH in H2.
      destruct H2 as [v [-> ->]]. exists v. split; [reflexivity|]. cbn [rev]. now rewrite <- app_assoc.
    + intros [v [-> ->]]. exists (c :: b, s ++ v). split.
      * apply in_char. exists c, (s ++ v). repeat split. apply Ascii.eqb_refl.
      * apply IH. exists v. split; [reflexivity|]. cbn [rev]. now rewrite <- app_assoc.
Qed.
Lemma in_word : forall c w u a b t q, c :: w = u ++ [a] -> is_word c = true -> is_word a = true ->
  (In q (rmatch (rword (c :: w)) (b, t)) <-> exists v, t = (c :: w) ++ v /\ q = (rev (c :: w) ++ b, v) /\ word_apart (here b) v).
Proof.
  intros c w u a b t q E Wc Wa. unfold rword. cbn [rseq]. rewrite in_seq. split.
  - intros [m [H1 H2]]. apply in_bound in H1. destruct H1 as [-> B1]. apply in_seq in H2. destruct H2 as [m [H2 H3]]. apply in_lit in H2. destruct H2 as [v [-> ->]].
    apply in_bound in H3. destruct H3 as [-> B2]. exists v. repeat split; auto; now apply (bound_iff b c w u a v E Wc Wa).
  - intros [v [-> [-> A]]]. apply (bound_iff b c w u a v E Wc Wa) in A. destruct A as [B1 B2]. exists (b, (c :: w) ++ v). split; [now apply in_bound|]. apply in_seq.
    exists (rev (c :: w) ++ b, v). split; [apply in_lit; eauto|]. now apply in_bound.
Qed.

Lemma rule_at : forall n r b s q, In (n, r) lexer_rules -> In q (rmatch r (b, s)) ->
  exists w v, s = w ++ v /\ q = (rev w ++ b, v) /\ token_at n (here b) w v.
Proof.
  intros n r b s q I H. destruct (rmatch_lang r (b, s) q H) as [w [L [R1 R2]]]. destruct q as [b' v]. cbn [fst snd] in R1, R2. subst s b'. exists w, v.
  split; [reflexivity|]. split; [reflexivity|]. pose proof (rule_form n r w I L) as F. split; [exact F|]. clear L.
  unfold lexer_rules in I. cbn [In] in I.
  repeat (destruct I as [I|I]; [injection I as <- <-|]); [..|destruct I]; try exact Logic.I; cbn [token_form] in F.
  - subst w. apply in_seq in H. destruct H as [m [H1 H2]]. apply in_char in H1. destruct H1 as [c [t [E [_ ->]]]]. cbn [snd fst app list_ascii_of_string] in *. inversion E; subst c t.
    cbn [rmatch snd fst rch] in H2. intros X. destruct v as [|x v]; [discriminate|]. cbn [hd_error] in X. injection X as ->. destruct H2.
  - intros X. cbn [ralt] in H.
    assert (Y : forall c w' u a, w = c :: w' -> c :: w' = u ++ [a] -> is_word c = true -> is_word a = true -> In (rev w ++ b, v) (rmatch (rword (c :: w')) (b, w ++ v)) -> word_apart (here b) v).
    { intros c w' u a -> E Wc Wa K. apply (in_word c w' u a) in K; auto. destruct K as [v' [_ [K1 K2]]]. injection K1 as ->. exact K2. }
    assert (Z : forall s, In s [$"=="; $"!="; $"<="; $"<"; $">="; $">"] -> In (rev w ++ b, v) (rmatch (rlit s) (b, w ++ v)) -> False).
    { intros s Is K. apply in_lit in K. destruct K as [v' [E _]]. cbn [In] in Is. destruct X as [-> | ->]; repeat (destruct Is as [<-|Is]; [discriminate E|]); destruct Is. }
    cbn [In] in Z. repeat (apply in_alt in H; destruct H as [H|H]).
    1-6: exfalso.
    1: apply (Z $"=="); [tauto|exact H].
    1: apply (Z $"!="); [tauto|exact H].
    1: apply (Z $"<="); [tauto|exact H].
    1: apply (Z $"<"); [tauto|exact H].
    1: apply (Z $">="); [tauto|exact H].
    1: apply (Z $">"); [tauto|exact H].
    + destruct X as [-> | ->]; [now apply (Y "A"%char $"ND" $"AN" "D"%char)|]. exfalso. apply (in_word "A"%char $"ND" $"AN" "D"%char) in H; [|reflexivity..]. destruct H as [v' [E _]]. discriminate E.
    + destruct X as [-> | ->]; [|now apply (Y "O"%char $"R" $"O" "R"%char)]. exfalso. apply (in_word "O"%char $"R" $"O" "R"%char) in H; [|reflexivity..]. destruct H as [v' [E _]]. discriminate E.
  - cbn [ralt] in H. apply in_alt in H. destruct H as [H|H].
    + apply (in_word "T"%char $"rue" $"Tru" "e"%char) in H; [|reflexivity..]. destruct H as [v' [_ [E A]]]. injection E as _ ->. exact A.
    + apply (in_word "F"%char $"alse" $"Fals" "e"%char) in H; [|reflexivity..]. destruct H as [v' [_ [E A]]]. injection E as _ ->. exact A.
  - cbn [ralt] in H. apply in_alt in H. destruct H as [H|H].
    + apply (in_word "M"%char $"AX" $"MA" "X"%char) in H; [|reflexivity..]. destruct H as [v' [_ [E A]]]. injection E as _ ->. exact A.
    + apply (in_word "M"%char $"IN" $"MI" "N"%char) in H; [|reflexivity..]. destruct H as [v' [_ [E A]]]. injection E as _ ->. exact A.
  - apply (in_word "A"%char $"BS" $"AB" "S"%char) in H; [|reflexivity..]. destruct H as [v' [_ [E A]]]. injection E as _ ->. exact A.
  - subst w. cbn [rseq] in H. apply in_seq in H. destruct H as [m [H1 H2]]. apply in_char in H1. destruct H1 as [c [t [E [_ ->]]]]. cbn [snd fst app list_ascii_of_string] in *. inversion E; subst c t.
    apply in_seq in H2. destruct H2 as [m [H2 H3]]. assert (m = ("="%char :: b, v)) by (cbn [rmatch snd fst rch] in H2; destruct v as [|x v]; [now destruct H2|]; destruct (Ascii.eqb "=" x); [destruct H2|now destruct H2]).
    subst m. split.
    + intros X. destruct b as [|x b]; [discriminate|]. injection X as ->. exact H3.
    + intros X. cbn [rmatch snd fst rch] in H2. destruct v as [|x v]; [discriminate|]. cbn [hd_error] in X. injection X as ->. destruct H2.
  - apply (in_word "V"%char $"AR" $"VA" "R"%char) in H; [|reflexivity..]. destruct H as [v' [_ [E A]]]. injection E as _ ->. exact A.
  - destruct F as [N D]. cbn [rseq] in H. apply in_seq in H. destruct H as [m [H1 H2]]. apply in_bound in H1. destruct H1 as [-> B1]. apply in_seq in H2. destruct H2 as [m [H2 H3]].
    apply in_bound in H3. destruct H3 as [<- B2]. destruct w as [|c w]; [congruence|]. destruct (exists_last N) as [u [a E]].
    assert (Wc : is_word c = true) by (cbn [forallb] in D; apply andb_true_iff in D; now apply lower_word).
    assert (Wa : is_word a = true) by (rewrite E, forallb_app in D; apply andb_true_iff in D; destruct D as [_ D]; cbn [forallb] in D; rewrite andb_true_r in D; now apply lower_word).
    now apply (bound_iff b c w u a v E Wc Wa).
Qed.

(** ** The first match of a rule is its longest one *)
Lemma run_split : forall (f : ascii -> bool) s, exists u rest, s = u ++ rest /\ forallb f u = true /\ stops f rest.
Proof.
  intros f. induction s as [|c s [u [rest [-> [U S]]]]]; [exists [], []; repeat split|]. destruct (f c) eqn:C.
  - exists (c :: u), rest. cbn [app forallb]. rewrite C. auto.
  - exists [], (c :: u ++ rest). repeat split. exact C.
Qed.
Lemma digits_more : forall n x, is_digits n -> forallb is_digit x = true -> is_digits (n ++ x).
Proof. intros n x [N D] X. split; [now destruct n|]. now rewrite forallb_app, D, X. Qed.

Definition longest_match (r : regex) (b w v : text) : Prop :=
  exists w' v', w ++ v = w' ++ v' /\ (length w <= length w')%nat /\ first_match r (b, w ++ v) (rev w' ++ b, v').

Lemma longest_here : forall r b w v, first_match r (b, w ++ v) (rev w ++ b, v) -> longest_match r b w v.
Proof. intros r b w v H. exists w, v. auto. Qed.

Lemma sides_longest : forall s b v, sides_form s -> exists s' v', s ++ v = s' ++ v' /\ (length s <= length s')%nat /\ sides_form s' /\
  first_match (ralt [rdigits; rch "%"; rch "F"; re_custom]) (b, s ++ v) (rev s' ++ b, v').
Proof.
  intros s b v H. cbn [ralt]. destruct H as [s D| | |es tr s C].
  - destruct (run_split is_digit v) as [x [y [-> [X Y]]]]. exists (s ++ x), y. rewrite app_assoc. split; [reflexivity|]. split; [rewrite app_length; lia|].
    split; [apply sides_number; now apply digits_more|]. apply fm_altl. apply fm_digits; [now apply digits_more|exact Y].
  - exists $"%", v. repeat split; [lia|exact sides_percent|]. apply fm_altr; [reflexivity|]. apply fm_altl. apply (fm_ch b "%" v).
  - exists $"F", v. repeat split; [lia|exact sides_fate|]. apply fm_altr; [reflexivity|]. apply fm_altr; [reflexivity|]. apply fm_altl. apply (fm_ch b "F" v).
  - exists s, v. repeat split; [lia|eapply sides_custom; eauto|]. pose proof (fm_custom es tr s b v C) as F. apply custom_form in C. destruct C as [u [-> _]].
    do 3 (apply fm_altr; [reflexivity|]). exact F.
Qed.
Lemma dice_longest : forall w b v, dice_form_text w -> longest_match re_dice b w v.
Proof.
  intros w b v [n [s [-> [Hn Hs]]]]. destruct (sides_longest s ("d"%char :: rev n ++ b) v Hs) as [s' [v' [E [L [Hs' F]]]]]. exists (n ++ $"d" ++ s'), v'.
  rewrite <- !app_assoc, E. split; [reflexivity|]. split; [rewrite !app_length; lia|]. unfold re_dice. cbn [rseq]. eapply fm_seq.
  - apply fm_star_char; [exact Hn|]. reflexivity.
  - eapply fm_seq; [apply (fm_ch _ "d" (s' ++ v'))|]. rewrite E in F. rewrite !rev_app_distr, <- !app_assoc. exact F.
Qed.
Lemma drop_keep_longest : forall d k n b v, dice_form_text d -> (k = "k"%char \/ k = "d"%char) -> is_digits n -> longest_match re_drop_keep_dice b (d ++ [k] ++ n) v.
Proof.
  intros d k n b v D K N. destruct (run_split is_digit v) as [x [y [-> [X Y]]]]. exists (d ++ [k] ++ n ++ x), y. rewrite <- !app_assoc. split; [reflexivity|].
  split; [rewrite !app_length; lia|]. unfold re_drop_keep_dice. rewrite !rev_app_distr, <- !app_assoc. eapply fm_seq.
  - apply fm_dice; [exact D|]. cbn [app stops]. destruct K; subst; reflexivity.
  - eapply fm_seq; [apply (fm_char _ _ k (n ++ x ++ y)); destruct K; subst; reflexivity|]. pose proof (fm_digits (n ++ x) (k :: rev d ++ b) y (digits_more n x N X) Y) as F.
    rewrite <- app_assoc, rev_app_distr, <- app_assoc in F. exact F.
Qed.
Lemma integer_longest : forall m b v, numeral_ok m -> longest_match (RSeq (ropt (rch "-")) rdigits) b (numeral_text m) v.
Proof.
  intros [sg d] b v [N D]. cbn [n_digits] in *. unfold numeral_text. cbn [n_minus n_digits]. destruct (run_split is_digit v) as [x [y [-> [X Y]]]].
  pose proof (digits_more d x (conj N D) X) as Dx. exists ((if sg then $"-" else []) ++ d ++ x), y. rewrite <- !app_assoc. split; [reflexivity|].
  split; [rewrite !app_length; lia|]. destruct sg.
  - cbn [app list_ascii_of_string rev]. rewrite <- app_assoc. eapply fm_seq; [apply fm_altl; apply fm_ch|]. pose proof (fm_digits (d ++ x) ("-"%char :: b) y Dx Y) as F.
    now rewrite <- app_assoc in F.
  - cbn [app]. pose proof (fm_digits (d ++ x) b y Dx Y) as F. rewrite <- app_assoc in F. eapply fm_seq; [|exact F]. apply fm_altr; [|apply fm_eps].
    apply no_match. intros w s L E. apply lang_ch in L. subst w. destruct d as [|c d]; [congruence|]. cbn in E. inversion E; subst. discriminate D.
Qed.

Lemma fm_word_apart : forall c w u a b v, c :: w = u ++ [a] -> is_word c = true -> is_word a = true -> word_apart (here b) v ->
  first_match (rword (c :: w)) (b, (c :: w) ++ v) (rev (c :: w) ++ b, v).
Proof.
  intros c w u a b v E Wc Wa A. apply (bound_iff b c w u a v E Wc Wa) in A. destruct A as [B1 B2]. unfold rword. cbn [rseq]. eapply fm_seq; [now apply fm_bound|].
  eapply fm_seq; [apply fm_lit|]. now apply fm_bound.
Qed.

Lemma operator_longest : forall w b v, token_at T_BINARY_OPERATOR (here b) w v ->
  longest_match (ralt [rlit $"=="; rlit $"!="; rlit $"<="; rlit $"<"; rlit $">="; rlit $">"; rword $"AND"; rword $"OR"]) b w v.
Proof.
  intros w b v [I A]. cbn [token_form In] in I.
  assert (Eq : forall c, match v with x :: _ => Ascii.eqb "=" x = false | [] => True end -> is_prefix [c; "="%char] (c :: v) = false).
  { intros c X. cbn [is_prefix]. destruct v as [|x v]; [apply andb_false_r|]. rewrite X. apply andb_false_r. }
  assert (V : (exists v', v = "="%char :: v') \/ match v with x :: _ => Ascii.eqb "=" x = false | [] => True end).
  { destruct v as [|x v]; [right; exact Logic.I|]. destruct (Ascii.eqb "=" x) eqn:X; [|now right]. apply Ascii.eqb_eq in X. subst x. left. now exists v. }
  repeat match type of I with _ \/ _ => destruct I as [I|I] end; [..|destruct I]; subst w.
  - apply longest_here. apply fm_altl. apply (fm_lit $"==" b v).
  - apply longest_here. apply fm_altr; [now apply lit_no_match|]. apply fm_altl. apply (fm_lit $"!=" b v).
  - apply longest_here. do 2 (apply fm_altr; [now apply lit_no_match|]). apply fm_altl. apply (fm_lit $"<=" b v).
  - destruct V as [[v' ->]|V].
    + exists $"<=", v'. split; [reflexivity|]. split; [cbn; lia|]. do 2 (apply fm_altr; [now apply lit_no_match|]). apply fm_altl. apply (fm_lit $"<=" b v').
    + apply longest_here. do 2 (apply fm_altr; [now apply lit_no_match|]). apply fm_altr; [apply lit_no_match; exact (Eq "<"%char V)|]. apply fm_altl. apply (fm_lit $"<" b v).
  - apply longest_here. do 4 (apply fm_altr; [now apply lit_no_match|]). apply fm_altl. apply (fm_lit $">=" b v).
  - destruct V as [[v' ->]|V].
    + exists $">=", v'. split; [reflexivity|]. split; [cbn; lia|]. do 4 (apply fm_altr; [now apply lit_no_match|]). apply fm_altl. apply (fm_lit $">=" b v').
    + apply longest_here. do 4 (apply fm_altr; [now apply lit_no_match|]). apply fm_altr; [apply lit_no_match; exact (Eq ">"%char V)|]. apply fm_altl. apply (fm_lit $">" b v).
  - apply longest_here. do 6 (apply fm_altr; [now apply lit_no_match|]). apply fm_altl. apply (fm_word_apart "A"%char $"ND" $"AN" "D"%char b v); auto.
  - apply longest_here. do 6 (apply fm_altr; [now apply lit_no_match|]). apply fm_altr; [now apply word_no_match|]. cbn [ralt]. apply (fm_word_apart "O"%char $"R" $"O" "R"%char b v); auto.
Qed.

Lemma no_equals : forall b v, not_before "=" v -> rmatch (rch "=") (b, v) = [].
Proof.
  intros b v H. cbn [rmatch rch snd]. destruct v as [|x v]; [reflexivity|]. destruct (Ascii.eqb "=" x) eqn:X; [|reflexivity]. apply Ascii.eqb_eq in X. subst x. now destruct H.
Qed.

Lemma own_longest : forall n r b w v, In (n, r) lexer_rules -> token_at n (here b) w v -> longest_match r b w v.
Proof.
  intros n r b w v I T. unfold lexer_rules in I. cbn [In] in I.
  repeat (destruct I as [I|I]; [injection I as <- <-|]); [..|destruct I]; try (now apply operator_longest); destruct T as [F A]; cbn [token_form] in F;
    try (subst w; apply longest_here; apply fm_ch).
  - subst w. apply longest_here. eapply fm_seq; [apply fm_ch|]. apply fm_ahead. now apply no_equals.
  - destruct F as [d [k [m [-> [D [K N]]]]]]. now apply drop_keep_longest.
  - now apply dice_longest.
  - destruct F as [m [M ->]]. now apply integer_longest.
  - apply longest_here. destruct F as [-> | ->].
    + apply fm_altl. now apply (fm_word_apart "T"%char $"rue" $"Tru" "e"%char b v).
    + apply fm_altr; [now apply word_no_match|]. cbn [ralt]. now apply (fm_word_apart "F"%char $"alse" $"Fals" "e"%char b v).
  - subst w. apply longest_here. apply (fm_lit $"//" b v).
  - apply longest_here. destruct F as [-> | ->].
    + apply fm_altl. now apply (fm_word_apart "M"%char $"AX" $"MA" "X"%char b v).
    + apply fm_altr; [now apply word_no_match|]. cbn [ralt]. now apply (fm_word_apart "M"%char $"IN" $"MI" "N"%char b v).
  - subst w. apply longest_here. now apply (fm_word_apart "A"%char $"BS" $"AB" "S"%char b v).
  - subst w. apply longest_here. destruct A as [A1 A2]. cbn [rseq]. eapply fm_seq; [apply fm_ch|]. eapply fm_seq; [apply fm_ahead; now apply no_equals|].
    exists []. cbn [rmatch fst]. cbn [list_ascii_of_string rev app is_prefix]. destruct b as [|x b]; [reflexivity|]. cbn [hd_error] in A1.
    destruct (Ascii.eqb "=" x) eqn:X; [apply Ascii.eqb_eq in X; subst x; now destruct A1|]. now rewrite andb_false_r.
  - subst w. apply longest_here. now apply (fm_word_apart "V"%char $"AR" $"VA" "R"%char b v).
  - apply longest_here. destruct F as [N D]. destruct (exists_last N) as [u [a E]]. destruct w as [|c w]; [congruence|].
    assert (Wc : is_word c = true) by (cbn [forallb] in D; apply andb_true_iff in D; now apply lower_word).
    assert (Wa : is_word a = true) by (rewrite E, forallb_app in D; apply andb_true_iff in D; destruct D as [_ D]; cbn [forallb] in D; rewrite andb_true_r in D; now apply lower_word).
    assert (S : stops name_char v).
    { destruct A as [_ A]. destruct v as [|x v]; [exact Logic.I|]. cbn [stops]. destruct (name_char x) eqn:X; [|reflexivity]. apply lower_word in X. congruence. }
    apply (bound_iff b c w u a v E Wc Wa) in A. destruct A as [B1 B2]. cbn [rseq]. eapply fm_seq; [now apply fm_bound|]. eapply fm_seq; [now apply (fm_plus_char name_char)|]. now apply fm_bound.
Qed.

(** ** A rule that is tried later has no longer match, and no two kinds have a text in common *)
Definition rank (n : tokname) : nat :=
  match n with
  | T_OPEN_PARENTHESIS => 0 | T_CLOSE_PARENTHESIS => 1 | T_COMMA => 2 | T_NOT => 3 | T_DROP_KEEP_DICE => 4 | T_DICE => 5
  | T_BINARY_OPERATOR => 6 | T_CONSTANT_INTEGER => 7 | T_CONSTANT_BINARY => 8 | T_ADD => 9 | T_SUBTRACT => 10 | T_MULTIPLY => 11
  | T_INTEGER_DIVISION => 12 | T_MINMAX => 13 | T_ABS => 14 | T_ASSIGNMENT => 15 | T_VAR => 16 | T_NAME => 17
  end.
Lemma rule_of : forall n, exists r, nth_error lexer_rules (rank n) = Some (n, r).
Proof. intros []; eexists; reflexivity. Qed.

(** The pairs of kinds that can begin with the same character *)
Definition meet (n n' : tokname) : bool :=
  match n, n' with
  | T_NOT, T_BINARY_OPERATOR | T_DROP_KEEP_DICE, (T_DICE | T_CONSTANT_INTEGER | T_NAME) | T_DICE, (T_CONSTANT_INTEGER | T_NAME)
  | T_BINARY_OPERATOR, (T_ABS | T_ASSIGNMENT) | T_CONSTANT_INTEGER, T_SUBTRACT => true
  | _, _ => false
  end.
Definition all_kinds : list tokname := map fst lexer_rules.
Definition all_chars : list ascii := map ascii_of_nat (seq 0 256).
Lemma in_all_kinds : forall n, In n all_kinds.
Proof. intros n. destruct n; cbn; tauto. Qed.
Lemma in_all_chars : forall c, In c all_chars.
Proof.
  intros c. unfold all_chars. apply in_map_iff. exists (nat_of_ascii c). split; [apply ascii_nat_embedding|].
  apply List.in_seq. split; [apply Nat.le_0_l|]. apply nat_ascii_bounded.
Qed.
Definition starting (c : ascii) : list tokname := filter (fun n => can_start n c) all_kinds.
Definition meet_check : bool :=
  forallb (fun c => forallb (fun n => forallb (fun n' => implb (rank n <? rank n')%nat (meet n n')) (starting c)) (starting c)) all_chars.
Lemma starts_meet : forall n n' c, can_start n c = true -> can_start n' c = true -> (rank n < rank n')%nat -> meet n n' = true.
Proof.
  intros n n' c H H' L. assert (E : meet_check = true) by (vm_compute; reflexivity). unfold meet_check in E.
  rewrite forallb_forall in E. specialize (E c (in_all_chars c)). rewrite forallb_forall in E.
  specialize (E n (proj2 (filter_In _ _ _) (conj (in_all_kinds n) H))). rewrite forallb_forall in E.
  specialize (E n' (proj2 (filter_In _ _ _) (conj (in_all_kinds n') H'))). apply Nat.ltb_lt in L. now rewrite L in E.
Qed.

Lemma digits_before : forall n x w v, forallb is_digit n = true -> stops is_digit x -> forallb is_digit w = true -> n ++ x = w ++ v -> (length w <= length n)%nat.
Proof.
  induction n as [|c n IH]; intros x w v N S W E.
  - destruct w as [|y w]; [cbn; lia|]. cbn [app] in E. subst x. cbn [stops forallb] in *. rewrite S in W. discriminate.
  - destruct w as [|y w]; [cbn; lia|]. cbn [app] in E. inversion E; subst. cbn [forallb] in *. apply andb_true_iff in N, W. cbn [length]. apply le_n_S.
    apply (IH x w v); tauto.
Qed.
(** A die within a text *)
Lemma dice_before : forall d x w v, dice_form_text d -> dice_form_text w -> stops is_digit x -> d ++ x = w ++ v -> (length w <= length d)%nat.
Proof.
  intros d x w v [n [s [-> [Hn Hs]]]] [n' [s' [-> [Hn' Hs']]]] S E. rewrite <- !app_assoc in E. apply dice_parts in E; auto. destruct E as [-> E].
  rewrite !app_length. cut (length s' <= length s)%nat; [lia|]. clear n' Hn Hn'. destruct Hs as [s [N D]| | |es tr s C]; destruct Hs' as [t [N' D']| | |es' tr' t C']; try (cbn; lia).
  - now apply (digits_before s x t v).
  - destruct s; [congruence|]. cbn. lia.
  - destruct s; [congruence|]. cbn. lia.
  - apply custom_form in C'. destruct C' as [y [-> _]]. destruct s as [|c s]; [congruence|]. inversion E; subst. discriminate.
  - destruct t as [|c t]; [congruence|]. inversion E; subst. discriminate.
  - apply custom_form in C'. destruct C' as [y [-> _]]. discriminate.
  - destruct t as [|c t]; [congruence|]. inversion E; subst. discriminate.
  - apply custom_form in C'. destruct C' as [y [-> _]]. discriminate.
  - apply custom_form in C. destruct C as [y [-> _]]. destruct t as [|c t]; [congruence|]. inversion E; subst. discriminate.
  - apply custom_form in C. destruct C as [y [-> _]]. discriminate.
  - apply custom_form in C. destruct C as [y [-> _]]. discriminate.
  - apply custom_form in C. apply custom_form in C'. destruct C as [y [-> Y]], C' as [z [-> Z]]. cbn [app list_ascii_of_string] in E. inversion E as [E'].
    rewrite <- !app_assoc in E'. apply brackets_end in E'; auto. destruct E' as [-> _]. lia.
Qed.
Lemma numeral_before : forall d x m v, dice_form_text d -> numeral_ok m -> d ++ x = numeral_text m ++ v -> (length (numeral_text m) < length d)%nat.
Proof.
  intros d x [sg k] v [n [s [-> [Hn Hs]]]] [N D] E. unfold numeral_text in *. cbn [n_minus n_digits] in *. rewrite <- !app_assoc in E. destruct sg.
  - destruct n as [|c n]; cbn [app list_ascii_of_string] in E; inversion E; subst. discriminate Hn.
  - cbn [app] in *. apply (digits_before n ($"d" ++ s ++ x) k v Hn eq_refl D) in E. rewrite !app_length. cbn [length list_ascii_of_string]. lia.
Qed.
Lemma name_before : forall d x w v, dice_form_text d -> forallb name_char w = true -> d ++ x = w ++ v -> (length w < length d)%nat.
Proof.
  intros d x w v [n [s [-> [Hn Hs]]]] W E. rewrite <- !app_assoc in E. rewrite !app_length. cbn [length list_ascii_of_string].
  assert (Nd : forall c, is_digit c = true -> name_char c = false) by (intros c; destruct c as [[] [] [] [] [] [] [] []]; vm_compute; congruence).
  destruct n as [|c n].
  - cbn [app list_ascii_of_string] in E. destruct w as [|y w]; [cbn; lia|]. cbn [app] in E. injection E as <- E. cbn [length]. destruct w as [|z w].
    + destruct (sides_first s [] Hs) as [c [s' [Es _]]]. rewrite app_nil_r in Es. subst s. cbn. lia.
    + exfalso. destruct (sides_first s x Hs) as [c [s' [Es Hc]]]. rewrite Es in E. cbn [app] in E. injection E as <- _. cbn [forallb] in W. apply andb_true_iff in W. destruct W as [_ W].
      apply andb_true_iff in W. destruct W as [W _]. destruct Hc as [H|[->|[->| ->]]]; [apply Nd in H; congruence|discriminate..].
  - destruct w as [|y w]; [cbn; lia|]. exfalso. cbn [app] in E. injection E as <- _. cbn [forallb] in *. apply andb_true_iff in Hn, W. destruct Hn as [H _], W as [W _].
    apply Nd in H. congruence.
Qed.
Lemma drop_keep_die : forall w, token_form T_DROP_KEEP_DICE w -> exists d x, w = d ++ x /\ dice_form_text d /\ stops is_digit x /\ x <> [].
Proof.
  intros w [d [k [n [-> [D [K _]]]]]]. exists d, ([k] ++ n). split; [reflexivity|]. split; [exact D|]. split; [cbn; destruct K; subst; reflexivity|discriminate].
Qed.

(** The lengths of two tokens at the same place, the second of a kind that is tried later *)
Lemma later_shorter : forall n n' p w v w' v', token_at n p w v -> token_at n' p w' v' -> w ++ v = w' ++ v' -> (rank n < rank n')%nat ->
  (length w' < length w)%nat.
Proof.
  intros n n' p w v w' v' [F A] [F' A'] E L.
  assert (M : meet n n' = true).
  { pose proof (form_nonempty n w F) as N. pose proof (form_nonempty n' w' F') as N'. destruct w as [|c w]; [congruence|]. destruct w' as [|c' w']; [congruence|].
    cbn [app] in E. injection E as <- _. apply (starts_meet n n' c); auto; eapply form_start; eauto. }
  destruct n; destruct n'; try discriminate M; clear L M.
  - exfalso. cbn [token_form] in F. subst w. cbn [token_form In] in F'. apply A. 
    repeat match type of F' with _ \/ _ => destruct F' as [F'|F'] end; [..|destruct F']; subst w'; cbn [app list_ascii_of_string] in E; try discriminate E.
    injection E as ->. reflexivity.
  - apply drop_keep_die in F. destruct F as [d [x [-> [D [S X]]]]]. rewrite <- app_assoc in E. cbn [token_form] in F'.
    apply (dice_before d (x ++ v) w' v' D F') in E; [|destruct x; [congruence|exact S]]. rewrite app_length. destruct x; [congruence|]. cbn [length]. lia.
  - apply drop_keep_die in F. destruct F as [d [x [-> [D [S X]]]]]. rewrite <- app_assoc in E. destruct F' as [m [Hm ->]]. apply (numeral_before d (x ++ v) m v' D Hm) in E.
    rewrite app_length. lia.
  - apply drop_keep_die in F. destruct F as [d [x [-> [D [S X]]]]]. rewrite <- app_assoc in E. destruct F' as [_ Hw]. apply (name_before d (x ++ v) w' v' D Hw) in E.
    rewrite app_length. lia.
  - destruct F' as [m [Hm ->]]. now apply (numeral_before w v m v').
  - destruct F' as [_ Hw]. now apply (name_before w v w' v').
  - exfalso. cbn [token_form In] in F, F'. subst w'. repeat match type of F with _ \/ _ => destruct F as [F|F] end; [..|destruct F]; subst w; cbn [app list_ascii_of_string] in E; discriminate E.
  - cbn [token_form In] in F, F'. subst w'. repeat match type of F with _ \/ _ => destruct F as [F|F] end; [..|destruct F]; subst w; cbn [app list_ascii_of_string] in E; try discriminate E.
    cbn. lia.
  - destruct F as [[sg d] [[N D] ->]]. cbn [token_form] in F'. subst w'. unfold numeral_text in *. cbn [n_minus n_digits] in *. destruct sg.
    + destruct d; [congruence|]. cbn. lia.
    + destruct d as [|c d]; [congruence|]. cbn [app list_ascii_of_string] in E. injection E as -> _. discriminate D.
Qed.

(** ** The lexer's choice *)
Lemma first_rule_split : forall rules p n q, first_rule rules p = Some (n, q) -> exists i r l, nth_error rules i = Some (n, r) /\ rmatch r p = q :: l /\
  forall j n' r', (j < i)%nat -> nth_error rules j = Some (n', r') -> rmatch r' p = [].
Proof.
  induction rules as [|[m x] rules IH]; intros p n q H; [discriminate|]. cbn [first_rule] in H. destruct (rmatch x p) as [|y l] eqn:E.
  - apply IH in H. destruct H as [i [r [l [H1 [H2 H3]]]]]. exists (Datatypes.S i), r, l. split; [exact H1|]. split; [exact H2|]. intros [|j] n' r' L N; [now injection N as <- <-|].
    apply (H3 j n'); [lia|exact N].
  - injection H as -> ->. exists 0%nat, x, l. split; [reflexivity|]. split; [exact E|]. intros j n' r' L. lia.
Qed.
Lemma rules_rank : forall i n r, nth_error lexer_rules i = Some (n, r) -> rank n = i.
Proof.
  intros i n r H. do 18 (destruct i as [|i]; [injection H as <- _; reflexivity|]). destruct i; discriminate H.
Qed.
Lemma first_match_nonempty : forall r b w v, longest_match r b w v -> rmatch r (b, w ++ v) <> [].
Proof. intros r b w v [w' [v' [_ [_ [l E]]]]]. rewrite E. discriminate. Qed.
Lemma same_prefix : forall (w v w' v' : text), w ++ v = w' ++ v' -> length w = length w' -> w = w' /\ v = v'.
Proof.
  induction w as [|c w IH]; intros v [|c' w'] v' E L; try discriminate L; [auto|]. cbn [app] in E. injection E as <- E. injection L as L. destruct (IH v w' v' E L) as [-> ->]. auto.
Qed.

Lemma munch_step : forall b s n q, first_rule lexer_rules (b, s) = Some (n, q) -> exists w v, s = w ++ v /\ q = (rev w ++ b, v) /\ token_at n (here b) w v /\
  forall n' w' v', s = w' ++ v' -> token_at n' (here b) w' v' -> (length w' <= length w)%nat.
Proof.
  intros b s n q H. apply first_rule_split in H. destruct H as [i [r [l [Hi [E Lo]]]]]. pose proof (nth_error_In _ _ Hi) as Ii.
  destruct (rule_at n r b s q Ii) as [w [v [-> [-> T]]]]; [rewrite E; now left|]. exists w, v. repeat split; try reflexivity; try apply T.
  intros n' w' v' Es T'. destruct (rule_of n') as [r' Hj]. pose proof (nth_error_In _ _ Hj) as Ij. pose proof (own_longest n' r' b w' v' Ij T') as O. pose proof (rules_rank i n r Hi) as Ri.
  destruct (Nat.lt_total (rank n') (rank n)) as [L|[L|L]].
  - exfalso. apply (first_match_nonempty _ _ _ _ O). rewrite <- Es. apply (Lo (rank n') n' r'); [lia|exact Hj].
  - rewrite L, Ri, Hi in Hj. injection Hj as <- <-. destruct O as [w2 [v2 [E2 [L2 [l2 F2]]]]]. rewrite <- Es, E in F2. injection F2 as F2 _ _.
    apply (f_equal (@length ascii)) in F2. rewrite !app_length, !rev_length in F2. lia.
  - pose proof (later_shorter n n' _ w v w' v' T T' Es L). lia.
Qed.
Lemma munch_none : forall b s, first_rule lexer_rules (b, s) = None <-> forall n w v, s = w ++ v -> ~ token_at n (here b) w v.
Proof.
  intros b s. split.
  - intros H n w v -> T. destruct (rule_of n) as [r Hr]. apply nth_error_In in Hr. apply (first_match_nonempty r b w v (own_longest n r b w v Hr T)).
    now apply (proj1 (first_rule_none lexer_rules (b, w ++ v)) H n r).
  - intros H. destruct (first_rule lexer_rules (b, s)) as [[n q]|] eqn:E; [|reflexivity]. exfalso. apply munch_step in E. destruct E as [w [v [E [_ [T _]]]]]. now apply (H n w v).
Qed.
Lemma munch_found : forall b n w v, token_at n (here b) w v ->
  (forall n' w' v', w ++ v = w' ++ v' -> token_at n' (here b) w' v' -> (length w' <= length w)%nat) -> first_rule lexer_rules (b, w ++ v) = Some (n, (rev w ++ b, v)).
Proof.
  intros b n w v T H. destruct (first_rule lexer_rules (b, w ++ v)) as [[m q]|] eqn:E.
  - apply munch_step in E. destruct E as [w1 [v1 [E [-> [T1 H1]]]]]. pose proof (H m w1 v1 E T1) as L1. pose proof (H1 n w v eq_refl T) as L2.
    destruct (same_prefix w v w1 v1 E) as [<- <-]; [lia|]. destruct (Nat.lt_total (rank n) (rank m)) as [L|[L|L]].
    + pose proof (later_shorter n m _ w v w v T T1 eq_refl L). lia.
    + destruct (rule_of n) as [r Hr]. destruct (rule_of m) as [r' Hr']. rewrite L, Hr' in Hr. now injection Hr as -> _.
    + pose proof (later_shorter m n _ w v w v T1 T eq_refl L). lia.
  - exfalso. now apply (proj1 (munch_none b (w ++ v)) E n w v).
Qed.

(** ** Whole texts *)
Lemma token_no_space : forall n p c w v, token_at n p (c :: w) v -> is_space c = false.
Proof. intros n p c w v [F _]. apply form_start in F. now apply start_class in F. Qed.

Lemma munched_spaces : forall u p s ts rest, forallb is_space u = true -> munched (last_of p u) s ts rest -> munched p (u ++ s) ts rest.
Proof.
  induction u as [|c u IH]; intros p s ts rest U H; [exact H|]. cbn [forallb] in U. apply andb_true_iff in U. cbn [app]. apply mu_space; [tauto|]. now apply IH.
Qed.
Lemma lex_munches : forall fuel b s, (length s < fuel)%nat ->
  match rply_lex fuel (b, s) with
  | Lexed ts => munched (here b) s ts []
  | LexFail q => stuck q /\ exists u ts, reads_to (b, s) u q /\ munched (here b) s ts (snd q)
  | LexStuck => False
  end.
Proof.
  induction fuel as [|fuel IH]; intros b s L; [lia|]. cbn [rply_lex snd]. destruct s as [|c s]; [apply mu_stop|].
  destruct (rmatch ignore_rule (b, c :: s)) as [|q l] eqn:I.
  - destruct (first_rule lexer_rules (b, c :: s)) as [[n q]|] eqn:F.
    + apply munch_step in F. destruct F as [w [v [E [-> [T M]]]]]. pose proof (form_nonempty n w (proj1 T)) as N.
      rewrite (between_reads (b, c :: s) w) by (split; [cbn [fst snd]; exact E|reflexivity]). rewrite E in *.
      assert (Lv : (length v < fuel)%nat) by (rewrite app_length in L; destruct w; [congruence|]; cbn [length] in L; lia).
      specialize (IH (rev w ++ b) v Lv). destruct (rply_lex fuel (rev w ++ b, v)) as [ts|q|]; cbn [lex_cons].
      * rewrite hd_rev in IH. apply (mu_token (here b) {| tk_name := n; tk_text := w |}); auto.
      * destruct IH as [St [u [ts [R Mu]]]]. split; [exact St|]. rewrite hd_rev in Mu. exists (w ++ u), ({| tk_name := n; tk_text := w |} :: ts). split.
        -- apply (reads_app _ w (rev w ++ b, v) u q); [now split|exact R].
        -- apply (mu_token (here b) {| tk_name := n; tk_text := w |}); auto.
      * exact IH.
    + split.
      * exists c, s. repeat split; [|exact F]. eapply ignore_none; [|exact I]. reflexivity.
      * exists [], []. split; [apply reads_nil|apply mu_stop].
  - apply ignore_space in I. destruct I as [w [N [Sp [R1 R2]]]]. destruct q as [b' v]. cbn [fst snd] in R1, R2. subst b'. rewrite R1 in *.
    assert (Lv : (length v < fuel)%nat) by (rewrite app_length in L; destruct w; [congruence|]; cbn [length] in L; lia).
    specialize (IH (rev w ++ b) v Lv). destruct (rply_lex fuel (rev w ++ b, v)) as [ts|q|]; rewrite ?hd_rev in IH.
    + now apply munched_spaces.
    + destruct IH as [St [u [ts [R Mu]]]]. split; [exact St|]. exists (w ++ u), ts. split; [apply (reads_app _ w (rev w ++ b, v) u q); [now split|exact R]|]. now apply munched_spaces.
    + exact IH.
Qed.

Lemma munched_space : forall p c s ts, munched p (c :: s) ts [] -> is_space c = true -> munched (Some c) s ts [].
Proof.
  intros p c s ts M H. remember (c :: s) as x eqn:E. remember [] as r eqn:Er. destruct M as [p s'|p c' s' ts rest L1 L2|p t v ts rest T Lo M]; subst; [discriminate|now inversion E; subst|].
  pose proof (form_nonempty _ _ (proj1 T)) as N. destruct (tk_text t) as [|y w] eqn:Y; [congruence|]. cbn [app] in E. injection E as -> _. apply token_no_space in T. congruence.
Qed.
Lemma munched_after : forall u p s ts, munched p (u ++ s) ts [] -> forallb is_space u = true -> munched (last_of p u) s ts [].
Proof.
  induction u as [|c u IH]; intros p s ts L H; [exact L|]. cbn [forallb] in H. apply andb_true_iff in H. destruct H as [Hc H]. cbn [last_of]. apply IH; [|exact H].
  now apply (munched_space p c).
Qed.
Lemma munched_lexes : forall fuel b s ts, munched (here b) s ts [] -> (length s < fuel)%nat -> rply_lex fuel (b, s) = Lexed ts.
Proof.
  induction fuel as [|fuel IH]; intros b s ts L H; [lia|]. cbn [rply_lex snd]. destruct s as [|c s].
  - inversion L; subst; [reflexivity|]. exfalso. pose proof (form_nonempty _ _ (proj1 H1)) as N. destruct (tk_text t); [congruence|discriminate].
  - destruct (is_space c) eqn:C.
    + destruct (spaces_split s) as [u [rest [-> [U S]]]]. destruct (fm_plus_char is_space (c :: u) b rest) as [l E]; [discriminate|cbn [forallb]; now rewrite C|exact S|].
      change (rmatch ignore_rule (b, c :: u ++ rest) = (rev (c :: u) ++ b, rest) :: l) in E. rewrite E. apply IH.
      * rewrite hd_rev. apply munched_after; [exact L|]. cbn [forallb]. now rewrite C.
      * cbn [length] in H. rewrite app_length in H. lia.
    + assert (E : rmatch ignore_rule (b, c :: s) = []).
      { apply no_match. intros w s' Lw Ew. apply lang_plus_char in Lw. destruct Lw as [N D]. destruct w as [|x w]; [congruence|]. cbn [snd app] in Ew. inversion Ew; subst.
        cbn [forallb] in D. apply andb_true_iff in D. destruct D. congruence. }
      rewrite E. remember (c :: s) as x eqn:Ex. remember (here b) as p eqn:Ep. remember [] as r eqn:Er.
      destruct L as [p s'|p c' s' ts rest L1 L2|p t v ts rest T Lo M]; [congruence|inversion Ex; subst; congruence|]. subst p rest.
      rewrite (munch_found b (tk_name t) (tk_text t) v T Lo). pose proof (form_nonempty _ _ (proj1 T)) as N. rewrite (IH (rev (tk_text t) ++ b) v ts).
      * cbn [lex_cons]. rewrite (between_reads _ (tk_text t)); [|split; reflexivity]. now destruct t.
      * now rewrite hd_rev.
      * rewrite app_length in H. destruct (tk_text t); [congruence|]. cbn [length] in H. lia.
Qed.

Lemma maximal_munch : forall s ts, lex s = LexOk ts <-> munched None s ts [].
Proof.
  intros s ts. unfold lex, run_lexer, pstart. split.
  - intros H. pose proof (lex_munches (Datatypes.S (length s)) [] s (Nat.lt_succ_diag_r _)) as M. destruct (rply_lex _ _) as [ts'|q|].
    + now injection H as <-.
    + destruct (lex_error_message _ _); discriminate.
    + destruct M.
  - intros M. now rewrite (munched_lexes (Datatypes.S (length s)) [] s ts M (Nat.lt_succ_diag_r _)).
Qed.

Lemma error_place : forall input message, lex input = LexValueError message -> exists u c s ts, input = u ++ c :: s /\ munched None input ts (c :: s) /\ is_space c = false /\
  (forall n w v, c :: s = w ++ v -> ~ token_at n (last_of None u) w v) /\ points_at input (length u) message.
Proof.
  intros input message H. unfold lex, run_lexer, pstart in H. pose proof (lex_munches (Datatypes.S (length input)) [] input (Nat.lt_succ_diag_r _)) as M.
  destruct (rply_lex _ _) as [ts'|[b' r]|]; [discriminate| |destruct M]. destruct M as [[c [s [E [Sp F]]]] [u [ts [[R1 R2] Mu]]]]. cbn [fst snd] in *. subst r b'. rewrite app_nil_r in *.
  exists u, c, s, ts. split; [exact R1|]. split; [exact Mu|]. split; [exact Sp|]. split.
  - intros n w v Ew. apply (proj1 (munch_none (rev u) (c :: s))) with (n := n) (w := w) (v := v) in F; [|exact Ew]. rewrite <- (app_nil_r (rev u)), hd_rev in F. exact F.
  - assert (X : nth_error input (length u) = Some c) by (rewrite R1, nth_error_app2, Nat.sub_diag by lia; reflexivity).
    assert (C : c <> newline) by (intros ->; vm_compute in Sp; discriminate).
    rewrite rev_length in H. destruct (message_points input (length u) c X C) as [m [Em P]]. rewrite Em in H. now injection H as <-.
Qed.
