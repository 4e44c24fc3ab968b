(** * LexProofs: texts whose tokens the lexer finds *)
From Verif Require Import Py PyFacts Regex RegexFacts Lexer SpecNotation SpecLexer LexFacts.

(** ** Patterns without look-around match everything in their language *)
Fixpoint pure (r : regex) : bool :=
  match r with
  | RChar _ | REps => true
  | RSeq a b | RAlt a b => pure a && pure b
  | RStar a => pure a
  | _ => false
  end.

Lemma lang_match : forall r w, lang r w -> pure r = true -> forall b rest, In (rev w ++ b, rest) (rmatch r (b, w ++ rest)).
Proof.
  induction r; intros w L P b rest; cbn [pure] in P; try discriminate.
  - apply lang_char in L. destruct L as [c [-> F]]. apply in_char. exists c, rest. auto.
  - apply lang_eps in L. subst. now left.
  - apply andb_true_iff in P. apply lang_seq in L. destruct L as [u [v [-> [L1 L2]]]]. apply in_seq. exists (rev u ++ b, v ++ rest). split.
    + rewrite <- app_assoc. now apply IHr1.
    + rewrite rev_app_distr, <- app_assoc. now apply IHr2.
  - apply andb_true_iff in P. apply in_alt. apply lang_alt in L. destruct L as [L|L]; [left; now apply IHr1|right; now apply IHr2].
  - cbn [rmatch snd]. assert (X : forall n w b rest, lang (RStar r) w -> (length (w ++ rest) <= n)%nat -> In (rev w ++ b, rest) (rstar (rmatch r) n (b, w ++ rest))).
    { clear L w b rest. intros n w b rest L. revert n b. remember (RStar r) as s eqn:E. induction L; inversion E; subst; clear E; intros n b' Hn.
      - destruct n; cbn [rstar]; [now left|]. apply in_or_app. right. now left.
      - destruct u as [|c u]; [apply (IHL2 eq_refl); exact Hn|]. destruct n as [|n]; [cbn in Hn; lia|]. cbn [rstar]. apply in_or_app. left. apply in_flat_map.
        exists (rev (c :: u) ++ b', v ++ rest). split; [rewrite <- app_assoc; now apply IHr|]. cbn [snd]. rewrite (proj2 (Nat.ltb_lt _ _)).
        + rewrite rev_app_distr, <- app_assoc. apply (IHL2 eq_refl). cbn [app length] in Hn. rewrite <- app_assoc, app_length in Hn. lia.
        + rewrite <- app_assoc. cbn [app length]. rewrite (app_length u). lia. }
    apply X; auto.
Qed.

(** ** The first match *)
Definition first_match (r : regex) (p q : pos) : Prop := exists l, rmatch r p = q :: l.

Lemma fm_seq : forall a b p m q, first_match a p m -> first_match b m q -> first_match (RSeq a b) p q.
Proof. intros a b p m q [l E] [l' E']. unfold first_match. cbn [rmatch]. rewrite E. cbn [flat_map]. rewrite E'. cbn [app]. eauto. Qed.
Lemma fm_altl : forall a b p q, first_match a p q -> first_match (RAlt a b) p q.
Proof. intros a b p q [l E]. unfold first_match. cbn [rmatch]. rewrite E. cbn [app]. eauto. Qed.
Lemma fm_altr : forall a b p q, rmatch a p = [] -> first_match b p q -> first_match (RAlt a b) p q.
Proof. intros a b p q E [l E']. unfold first_match. cbn [rmatch]. rewrite E, E'. cbn [app]. eauto. Qed.
Lemma fm_char : forall f b c s, f c = true -> first_match (RChar f) (b, c :: s) (c :: b, s).
Proof. intros f b c s F. unfold first_match. cbn [rmatch snd fst]. rewrite F. eauto. Qed.
Lemma fm_ch : forall b c s, first_match (rch c) (b, c :: s) (c :: b, s).
Proof. intros. apply fm_char. apply Ascii.eqb_refl. Qed.
Lemma fm_eps : forall p, first_match REps p p.
Proof. intros. exists []. reflexivity. Qed.
Lemma fm_bound : forall p, at_bound p = true -> first_match RBound p p.
Proof. intros p H. unfold first_match. cbn [rmatch]. rewrite H. eauto. Qed.
Lemma fm_ahead : forall r p, rmatch r p = [] -> first_match (RNotAhead r) p p.
Proof. intros r p H. unfold first_match. cbn [rmatch]. rewrite H. eauto. Qed.
Lemma fm_unique : forall r p q, In q (rmatch r p) -> (forall q', In q' (rmatch r p) -> q' = q) -> first_match r p q.
Proof. intros r p q I H. unfold first_match. destruct (rmatch r p) as [|q' l]; [destruct I|]. exists l. now rewrite (H q' (or_introl eq_refl)). Qed.
Lemma fm_lit : forall s b rest, first_match (rlit s) (b, s ++ rest) (rev s ++ b, rest).
Proof.
  induction s as [|c s IH]; intros b rest; [apply fm_eps|]. cbn [rlit app rev]. rewrite <- app_assoc. eapply fm_seq; [apply fm_ch|]. apply IH.
Qed.

Definition stops (f : ascii -> bool) (rest : text) : Prop := match rest with [] => True | c :: _ => f c = false end.

Lemma fm_star_char : forall f u b rest, forallb f u = true -> stops f rest -> first_match (RStar (RChar f)) (b, u ++ rest) (rev u ++ b, rest).
Proof.
  intros f u b rest. unfold first_match. cbn [rmatch snd].
  assert (X : forall n u b, (length (u ++ rest) <= n)%nat -> forallb f u = true -> stops f rest -> exists l, rstar (rmatch (RChar f)) n (b, u ++ rest) = (rev u ++ b, rest) :: l).
  { induction n as [|n IH]; intros v b' L H S.
    - destruct v; cbn [app length] in L; [|lia]. exists []. reflexivity.
    - destruct v as [|c v].
      + cbn [app rev rstar rmatch snd fst]. destruct rest as [|c rest]; [exists []; reflexivity|]. cbn [stops] in S. rewrite S. exists []. reflexivity.
      + cbn [forallb] in H. apply andb_true_iff in H. destruct H as [Hc Hv]. cbn [app rstar].
        replace (rmatch (RChar f) (b', c :: v ++ rest)) with [(c :: b', v ++ rest)] by (cbn [rmatch snd fst]; now rewrite Hc). cbn [flat_map snd].
        rewrite (proj2 (Nat.ltb_lt _ _)) by (cbn [length]; lia). cbn [app length] in L. destruct (IH v (c :: b') ltac:(lia) Hv S) as [l E].
        rewrite E. cbn [rev]. rewrite <- (app_assoc (rev v) [c] b'). eexists. reflexivity. }
  intros H S. now apply X.
Qed.
Lemma fm_plus_char : forall f u b rest, u <> [] -> forallb f u = true -> stops f rest -> first_match (rplus (RChar f)) (b, u ++ rest) (rev u ++ b, rest).
Proof.
  intros f [|c u] b rest N H S; [congruence|]. cbn [forallb] in H. apply andb_true_iff in H. destruct H as [Hc Hu]. cbn [rev app]. rewrite <- app_assoc.
  eapply fm_seq; [now apply fm_char|]. now apply fm_star_char.
Qed.
Lemma fm_digits : forall u b rest, is_digits u -> stops is_digit rest -> first_match rdigits (b, u ++ rest) (rev u ++ b, rest).
Proof. intros u b rest [N H] S. now apply fm_plus_char. Qed.

Lemma no_match : forall r p, (forall w s, lang r w -> snd p = w ++ s -> False) -> rmatch r p = [].
Proof.
  intros r p H. destruct (rmatch r p) as [|q l] eqn:E; [reflexivity|]. exfalso. destruct (rmatch_lang r p q) as [w [L [R _]]]; [rewrite E; now left|]. eauto.
Qed.

(** ** Custom dice end at the first closing bracket *)
Lemma brackets_end : forall u v s s', in_bracket u -> in_bracket v -> u ++ $"]" ++ s = v ++ $"]" ++ s' -> u = v /\ s = s'.
Proof.
  intros u v s s' U V E. destruct (run_unique bracket_char u ($"]" ++ s) v ($"]" ++ s') E U V) as [-> E'].
  - intros c w H. inversion H. reflexivity.
  - intros c w H. inversion H. reflexivity.
  - split; [reflexivity|]. now inversion E'.
Qed.
Lemma fm_custom : forall es tr w b rest, custom_text es tr w -> first_match re_custom (b, w ++ rest) (rev w ++ b, rest).
Proof.
  intros es tr w b rest C. apply fm_unique.
  - apply lang_match; [eapply l_custom; eauto|reflexivity].
  - intros [b' s'] I. apply rmatch_lang in I. destruct I as [w' [L [R1 R2]]]. cbn [fst snd] in *. apply lang_custom in L. destruct L as [es' [tr' C']].
    apply custom_form in C. apply custom_form in C'. destruct C as [u [-> U]], C' as [v [-> V]]. cbn [app list_ascii_of_string] in R1. inversion R1 as [R3].
    rewrite <- !app_assoc in R3. apply brackets_end in R3; auto. destruct R3 as [-> ->]. now subst.
Qed.

(** ** Dice *)
Lemma sides_first : forall s rest, sides_form s -> exists c s', s ++ rest = c :: s' /\ (is_digit c = true \/ c = "%"%char \/ c = "F"%char \/ c = "["%char).
Proof.
  intros s rest H. destruct H as [[|c s] [N D]| | |es tr s C]; [congruence| | | |].
  - cbn [forallb] in D. apply andb_true_iff in D. exists c, (s ++ rest). split; [reflexivity|]. tauto.
  - exists "%"%char, rest. auto.
  - exists "F"%char, rest. auto.
  - apply custom_form in C. destruct C as [u [-> _]]. eexists _, _. split; [reflexivity|]. auto.
Qed.

Lemma fm_sides : forall s b rest, sides_form s -> stops is_digit rest ->
  first_match (ralt [rdigits; rch "%"; rch "F"; re_custom]) (b, s ++ rest) (rev s ++ b, rest).
Proof.
  intros s b rest H S. cbn [ralt]. destruct H as [s D| | |es tr s C].
  - apply fm_altl. now apply fm_digits.
  - apply fm_altr; [reflexivity|]. apply fm_altl. apply (fm_ch b "%" rest).
  - apply fm_altr; [reflexivity|]. apply fm_altr; [reflexivity|]. apply fm_altl. apply (fm_ch b "F" rest).
  - pose proof (fm_custom es tr s b rest C) as F. apply custom_form in C. destruct C as [u [-> _]]. do 3 (apply fm_altr; [reflexivity|]). exact F.
Qed.

Lemma fm_dice : forall w b rest, dice_form_text w -> stops is_digit rest -> first_match re_dice (b, w ++ rest) (rev w ++ b, rest).
Proof.
  intros w b rest [n [s [-> [Hn Hs]]]] S. unfold re_dice. cbn [rseq]. rewrite <- !app_assoc. eapply fm_seq.
  - apply fm_star_char; [exact Hn|]. reflexivity.
  - eapply fm_seq; [apply (fm_ch _ "d" (s ++ rest))|]. rewrite !rev_app_distr, <- !app_assoc. now apply fm_sides.
Qed.

(** The number of dice and the sides in a text are unique *)
Lemma dice_parts : forall n s x n' s' x', forallb is_digit n = true -> forallb is_digit n' = true ->
  n ++ $"d" ++ s ++ x = n' ++ $"d" ++ s' ++ x' -> n = n' /\ s ++ x = s' ++ x'.
Proof.
  intros n s x n' s' x' H H' E. destruct (run_unique is_digit n ($"d" ++ s ++ x) n' ($"d" ++ s' ++ x') E H H') as [-> E'].
  - intros c w F. inversion F. reflexivity.
  - intros c w F. inversion F. reflexivity.
  - split; [reflexivity|]. now inversion E'.
Qed.

(** ** Which rules can match at a character *)
Definition can_start (n : tokname) (c : ascii) : bool :=
  match n with
  | T_OPEN_PARENTHESIS => Ascii.eqb c "("
  | T_CLOSE_PARENTHESIS => Ascii.eqb c ")"
  | T_COMMA => Ascii.eqb c ","
  | T_NOT => Ascii.eqb c "!"
  | T_DROP_KEEP_DICE | T_DICE => is_digit c || Ascii.eqb c "d"
  | T_BINARY_OPERATOR => existsb (Ascii.eqb c) $"=!<>AO"
  | T_CONSTANT_INTEGER => is_digit c || Ascii.eqb c "-"
  | T_CONSTANT_BINARY => existsb (Ascii.eqb c) $"TF"
  | T_ADD => Ascii.eqb c "+"
  | T_SUBTRACT => Ascii.eqb c "-"
  | T_MULTIPLY => Ascii.eqb c "*"
  | T_INTEGER_DIVISION => Ascii.eqb c "/"
  | T_MINMAX => Ascii.eqb c "M"
  | T_ABS => Ascii.eqb c "A"
  | T_ASSIGNMENT => Ascii.eqb c "="
  | T_VAR => Ascii.eqb c "V"
  | T_NAME => name_char c
  end.

Lemma dice_start : forall c w, dice_form_text (c :: w) -> is_digit c || Ascii.eqb c "d" = true.
Proof.
  intros c w [[|x n] [s [E [Hn Hs]]]]; cbn [app list_ascii_of_string] in E; inversion E; subst; [now rewrite orb_true_r|]. cbn [forallb] in Hn.
  apply andb_true_iff in Hn. now rewrite (proj1 Hn).
Qed.

Lemma form_start : forall n c w, token_form n (c :: w) -> can_start n c = true.
Proof.
  intros n c w H. destruct n; cbn [token_form can_start] in *; try (now inversion H); try (now destruct H as [H|H]; inversion H).
  - destruct H as [d [k [m [E [D _]]]]]. destruct d as [|x d]; [destruct D as [[|y n] [s [X _]]]; discriminate|]. inversion E; subst. eapply dice_start; eauto.
  - eapply dice_start; eauto.
  - cbn [In] in H. repeat (destruct H as [H|H]; [inversion H; reflexivity|]). destruct H.
  - destruct H as [[m d] [[N D] E]]. cbn [n_digits] in *. unfold numeral_text in E. cbn [n_minus n_digits] in E. destruct m.
    + inversion E. now rewrite orb_true_r.
    + cbn [app] in E. subst d. cbn [forallb] in D. apply andb_true_iff in D. now rewrite (proj1 D).
  - destruct H as [_ H]. cbn [forallb] in H. apply andb_true_iff in H. tauto.
Qed.

Lemma cannot_start : forall n r b c s, In (n, r) lexer_rules -> can_start n c = false -> rmatch r (b, c :: s) = [].
Proof.
  intros n r b c s I H. apply no_match. intros w s' L E. cbn [snd] in E. apply (rule_form n r w I) in L. pose proof (form_nonempty n w L) as N.
  destruct w as [|x w]; [congruence|]. inversion E; subst. apply form_start in L. congruence.
Qed.

Lemma first_rule_app : forall l n r l' p q, (forall n' r', In (n', r') l -> rmatch r' p = []) -> first_match r p q -> first_rule (l ++ (n, r) :: l') p = Some (n, q).
Proof.
  induction l as [|[m x] l IH]; intros n r l' p q H [k E]; cbn [app first_rule]; [now rewrite E|]. rewrite (H m x (or_introl eq_refl)). apply IH; [|now exists k].
  intros n' r' I. apply (H n' r'). now right.
Qed.

Lemma find_rule : forall i n r b c s q, nth_error lexer_rules i = Some (n, r) ->
  (forall n' r', In (n', r') (firstn i lexer_rules) -> can_start n' c = true -> rmatch r' (b, c :: s) = []) ->
  first_match r (b, c :: s) q -> first_rule lexer_rules (b, c :: s) = Some (n, q).
Proof.
  intros i n r b c s q E H M. destruct (nth_error_split _ _ E) as [l1 [l2 [El Li]]]. rewrite El. apply first_rule_app; [|exact M]. intros n' r' I.
  destruct (can_start n' c) eqn:C.
  - apply (H n' r'); [|exact C]. rewrite El, <- Li, firstn_app, Nat.sub_diag, firstn_all. cbn [firstn]. now rewrite app_nil_r.
  - apply (cannot_start n'); [|exact C]. rewrite El. apply in_or_app. now left.
Qed.

(** ** What is next to a token *)
Definition before_ok (b w : text) : Prop := may_follow (hd_error b) w.
Definition after_ok (a : ascii) (rest : text) : Prop :=
  match rest with [] => True | c :: _ => may_meet a c = true /\ c <> "%"%char /\ c <> "["%char end.

Lemma meet_word : forall a c, is_word a || Ascii.eqb a "%" || Ascii.eqb a "]" = true -> may_meet a c = true -> is_word c = false.
Proof.
  intros a c A M. unfold may_meet in M. apply andb_true_iff in M. destruct M as [M _]. apply andb_true_iff in M. destruct M as [M _]. rewrite A in M. now apply negb_true_iff in M.
Qed.
Lemma meet_equals : forall a c, Ascii.eqb a "=" || Ascii.eqb a "!" || Ascii.eqb a "<" || Ascii.eqb a ">" = true -> may_meet a c = true -> Ascii.eqb "=" c = false.
Proof.
  intros a c A M. unfold may_meet in M. apply andb_true_iff in M. destruct M as [M _]. apply andb_true_iff in M. destruct M as [_ M]. rewrite A in M. apply negb_true_iff in M.
  rewrite Ascii.eqb_sym. exact M.
Qed.
Lemma meet_minus : forall c, may_meet "-" c = true -> is_digit c = false.
Proof. intros c M. unfold may_meet in M. apply andb_true_iff in M. destruct M as [_ M]. now apply negb_true_iff in M. Qed.
Lemma digit_word : forall c, is_digit c = true -> is_word c = true.
Proof. intros c H. unfold is_word. now rewrite H. Qed.
Lemma lower_word : forall c, name_char c = true -> is_word c = true.
Proof.
  intros c H. unfold is_word. unfold name_char in H. apply orb_true_iff in H. destruct H as [H|H].
  - rewrite H. now rewrite orb_true_r.
  - apply Ascii.eqb_eq in H. subst. reflexivity.
Qed.
Lemma stops_word : forall (f : ascii -> bool) a rest, (forall c, f c = true -> is_word c = true) -> is_word a || Ascii.eqb a "%" || Ascii.eqb a "]" = true -> after_ok a rest -> stops f rest.
Proof.
  intros f a rest F A H. destruct rest as [|c rest]; [exact I|]. cbn [stops after_ok] in *. destruct H as [H _]. pose proof (meet_word a c A H) as W. destruct (f c) eqn:E; [|reflexivity].
  apply F in E. congruence.
Qed.

(** The last character of the token texts *)
Lemma last_digits : forall w, forallb is_digit w = true -> w <> [] -> exists u a, w = u ++ [a] /\ is_digit a = true.
Proof.
  intros w H N. destruct (exists_last N) as [u [a ->]]. exists u, a. split; [reflexivity|]. rewrite forallb_app in H. apply andb_true_iff in H. destruct H as [_ H].
  cbn in H. now rewrite andb_true_r in H.
Qed.
Lemma last_of_app : forall w u p, last_of p (w ++ u) = last_of (last_of p w) u.
Proof. induction w as [|c w IH]; intros u p; [reflexivity|]. cbn [app last_of]. apply IH. Qed.

Definition ends_like_die (a : ascii) : Prop := is_word a || Ascii.eqb a "%" || Ascii.eqb a "]" = true.
Lemma sides_last : forall s, sides_form s -> exists u a, s = u ++ [a] /\ ends_like_die a.
Proof.
  intros s H. unfold ends_like_die. destruct H as [s [N D]| | |es tr s C].
  - destruct (last_digits s D N) as [u [a [-> Ha]]]. exists u, a. split; [reflexivity|]. now rewrite (digit_word a Ha).
  - exists [], "%"%char. auto.
  - exists [], "F"%char. auto.
  - apply custom_form in C. destruct C as [u [-> _]]. exists ($"[" ++ u), "]"%char. split; [now rewrite <- app_assoc|reflexivity].
Qed.

(** ** No die at other tokens *)
Lemma digits_no_dice : forall n rest b, is_digits n -> stops is_word rest -> rmatch re_dice (b, n ++ rest) = [] /\ rmatch re_drop_keep_dice (b, n ++ rest) = [].
Proof.
  intros n rest b [N D] S.
  assert (X : forall w s, dice_form_text w -> n ++ rest = w ++ s -> False).
  { intros w s [m [sd [-> [Hm Hs]]]] E. rewrite <- !app_assoc in E. destruct (run_unique is_digit n rest m ($"d" ++ sd ++ s) E D Hm) as [-> E'].
    - intros c w H. subst rest. cbn [stops] in S. destruct (is_digit c) eqn:Dc; [|reflexivity]. apply digit_word in Dc. congruence.
    - intros c w H. inversion H. reflexivity.
    - subst rest. cbn [app list_ascii_of_string stops] in S. discriminate. }
  split; apply no_match; intros w s L E; cbn [snd] in E.
  - apply dice_lang in L. eauto.
  - apply lang_seq in L. destruct L as [u [v [-> [L _]]]]. apply dice_lang in L. rewrite <- app_assoc in E. eauto.
Qed.

Lemma name_no_dice : forall n rest b, forallb name_char n = true -> after_ok "d" rest -> rmatch re_dice (b, n ++ rest) = [] /\ rmatch re_drop_keep_dice (b, n ++ rest) = [].
Proof.
  intros n rest b D S.
  assert (Dg : forall c, name_char c = true -> is_digit c = true -> False).
  { intros c. destruct c as [[] [] [] [] [] [] [] []]; vm_compute; discriminate. }
  assert (Nc : forall c, name_char c = true -> ~ (is_digit c = true \/ c = "%"%char \/ c = "F"%char \/ c = "["%char)).
  { intros c H [X|[->|[->| ->]]]; [now apply (Dg c)|discriminate|discriminate|discriminate]. }
  assert (Rc : forall c s, rest = c :: s -> ~ (is_digit c = true \/ c = "%"%char \/ c = "F"%char \/ c = "["%char)).
  { intros c s -> H. cbn [after_ok] in S. destruct S as [M [S1 S2]]. apply meet_word in M; [|reflexivity]. destruct H as [H|[H|[->|H]]]; try congruence; [|discriminate].
    apply digit_word in H. congruence. }
  assert (X : forall w s, dice_form_text w -> n ++ rest = w ++ s -> False).
  { intros w s [m [sd [-> [Hm Hs]]]] E. rewrite <- !app_assoc in E. destruct (sides_first sd s Hs) as [c [s' [Es Hc]]]. destruct n as [|x n].
    - cbn [app] in E. destruct m as [|y m].
      + cbn [app list_ascii_of_string] in E. subst rest. cbn [after_ok] in S. destruct S as [M _]. apply meet_word in M; [|reflexivity]. discriminate.
      + cbn [app] in E. apply (Rc _ _ E). left. cbn [forallb] in Hm. apply andb_true_iff in Hm. tauto.
    - cbn [forallb] in D. apply andb_true_iff in D. destruct D as [Dx D]. destruct m as [|y m].
      + cbn [app list_ascii_of_string] in E. inversion E as [[E1 E2]]. subst x. rewrite Es in E2. destruct n as [|z n].
        * apply (Rc _ _ E2 Hc).
        * cbn [app] in E2. inversion E2; subst. cbn [forallb] in D. apply andb_true_iff in D. now apply (Nc c).
      + cbn [app] in E. inversion E; subst. cbn [forallb] in Hm. apply andb_true_iff in Hm. now apply (Dg y). }
  split; apply no_match; intros w s L E; cbn [snd] in E.
  - apply dice_lang in L. eauto.
  - apply lang_seq in L. destruct L as [u [v [-> [L _]]]]. apply dice_lang in L. rewrite <- app_assoc in E. eauto.
Qed.

(** No drop or keep after a die that ends there *)
Lemma dice_no_dropkeep : forall w rest b, dice_form_text w -> stops is_word rest -> rmatch re_drop_keep_dice (b, w ++ rest) = [].
Proof.
  intros w rest b [n [s [-> [Hn Hs]]]] S. apply no_match. intros w s' L E. cbn [snd] in E. apply lang_seq in L. destruct L as [u [v [-> [Lu Lv]]]].
  apply dice_lang in Lu. destruct Lu as [n' [t [-> [Hn' Ht]]]]. apply lang_seq in Lv. destruct Lv as [k [m [-> [Lk Lm]]]]. apply lang_char in Lk. destruct Lk as [c [-> Hc]].
  assert (Hk : c = "k"%char \/ c = "d"%char) by (apply orb_true_iff in Hc; rewrite !Ascii.eqb_eq in Hc; exact Hc). clear Hc.
  rewrite <- !app_assoc in E. apply dice_parts in E; auto. destruct E as [_ E]. clear n n' Hn Hn'. cbn [app] in E.
  assert (Wc : is_word c = true) by (destruct Hk; subst; reflexivity). assert (Dc : is_digit c = false) by (destruct Hk; subst; reflexivity).
  destruct Hs as [s [N D]| | |es tr s C]; destruct Ht as [t [N' D']| | |es' tr' t C'].
  - destruct (run_unique is_digit s rest t (c :: m ++ s') E D D') as [_ E'].
    + intros x y ->. cbn [stops] in S. destruct (is_digit x) eqn:X; [|reflexivity]. apply digit_word in X. congruence.
    + intros x y H. inversion H; subst. exact Dc.
    + subst rest. cbn [stops] in S. congruence.
  - destruct s as [|x s]; [congruence|]. inversion E; subst. discriminate.
  - destruct s as [|x s]; [congruence|]. inversion E; subst. discriminate.
  - destruct s as [|x s]; [congruence|]. apply custom_form in C'. destruct C' as [y [-> _]]. inversion E; subst. discriminate.
  - destruct t as [|x t]; [congruence|]. inversion E; subst. discriminate.
  - inversion E; subst. cbn [stops] in S. congruence.
  - discriminate.
  - apply custom_form in C'. destruct C' as [y [-> _]]. discriminate.
  - destruct t as [|x t]; [congruence|]. inversion E; subst. discriminate.
  - discriminate.
  - inversion E; subst. cbn [stops] in S. congruence.
  - apply custom_form in C'. destruct C' as [y [-> _]]. discriminate.
  - apply custom_form in C. destruct C as [y [-> _]]. destruct t as [|x t]; [congruence|]. inversion E; subst. discriminate.
  - apply custom_form in C. destruct C as [y [-> _]]. discriminate.
  - apply custom_form in C. destruct C as [y [-> _]]. discriminate.
  - apply custom_form in C. apply custom_form in C'. destruct C as [y [-> Y]], C' as [z [-> Z]]. cbn [app list_ascii_of_string] in E. inversion E as [E'].
    rewrite <- !app_assoc in E'. apply brackets_end in E'; auto. destruct E' as [_ ->]. cbn [stops] in S. congruence.
Qed.

(** ** Every token is found where it is laid out *)
Lemma word_bound_left : forall b c s, before_ok b (c :: s) -> is_word c = true -> at_bound (b, c :: s) = true.
Proof.
  intros b c s H W. unfold at_bound. cbn [fst snd]. rewrite W. destruct b as [|a b]; [reflexivity|]. unfold before_ok in H. cbn [hd_error may_follow] in H.
  destruct (is_word a) eqn:A; [|reflexivity]. apply meet_word in H; [congruence|]. now rewrite A.
Qed.
Lemma word_bound_right : forall a b rest, is_word a = true -> after_ok a rest -> at_bound (a :: b, rest) = true.
Proof.
  intros a b rest W H. unfold at_bound. cbn [fst snd]. rewrite W. destruct rest as [|c rest]; [reflexivity|]. destruct H as [H _]. apply meet_word in H; [|now rewrite W].
  now rewrite H.
Qed.
Lemma fm_word : forall c s a u b rest, c :: s = u ++ [a] -> is_word c = true -> is_word a = true -> before_ok b (c :: s) -> after_ok a rest ->
  first_match (rword (c :: s)) (b, (c :: s) ++ rest) (rev (c :: s) ++ b, rest).
Proof.
  intros c s a u b rest E Wc Wa B A. unfold rword. cbn [rseq]. eapply fm_seq; [apply fm_bound; now apply word_bound_left|]. eapply fm_seq; [apply fm_lit|]. apply fm_bound.
  rewrite E, rev_app_distr. cbn [rev app]. now apply word_bound_right.
Qed.

Lemma digit_starts : forall c n, is_digit c = true -> can_start n c = true -> n = T_DROP_KEEP_DICE \/ n = T_DICE \/ n = T_CONSTANT_INTEGER.
Proof. intros c n D H. destruct n; auto; exfalso; destruct c as [[] [] [] [] [] [] [] []]; vm_compute in D, H; discriminate. Qed.
Lemma name_starts : forall c n, name_char c = true -> can_start n c = true -> n = T_DROP_KEEP_DICE \/ n = T_DICE \/ n = T_NAME.
Proof. intros c n D H. destruct n; auto; exfalso; destruct c as [[] [] [] [] [] [] [] []]; vm_compute in D, H; discriminate. Qed.
Lemma die_starts : forall c n, is_digit c || Ascii.eqb c "d" = true -> can_start n c = true ->
  n = T_DROP_KEEP_DICE \/ n = T_DICE \/ n = T_CONSTANT_INTEGER \/ n = T_NAME.
Proof. intros c n D H. destruct n; auto; exfalso; destruct c as [[] [] [] [] [] [] [] []]; vm_compute in D, H; discriminate. Qed.

Ltac earlier := intros n' r' Hin Hst; cbn [firstn lexer_rules In] in Hin;
  repeat match type of Hin with _ \/ _ => destruct Hin as [Hin|Hin]; [injection Hin as <- <-; try discriminate Hst|] end; [..|destruct Hin].

Lemma equals_next : forall a rest b, Ascii.eqb a "=" || Ascii.eqb a "!" || Ascii.eqb a "<" || Ascii.eqb a ">" = true -> after_ok a rest -> rmatch (rch "=") (b, rest) = [].
Proof.
  intros a rest b A H. destruct rest as [|c rest]; [reflexivity|]. destruct H as [H _]. apply (meet_equals a c A) in H. cbn [rch rmatch snd]. now rewrite H.
Qed.

Definition finds (n : tokname) (b w rest : text) : Prop := first_rule lexer_rules (b, w ++ rest) = Some (n, (rev w ++ b, rest)).

Lemma find_dice : forall b w rest, dice_form_text w -> stops is_word rest -> finds T_DICE b w rest.
Proof.
  intros b w rest D S. unfold finds. pose proof (fm_dice w b rest D) as F. pose proof (dice_no_dropkeep w rest b D S) as K.
  destruct w as [|c w]; [destruct D as [[|y n] [s [X _]]]; discriminate|]. pose proof (dice_start c w D) as St. cbn [app] in *.
  apply (find_rule 5 T_DICE re_dice); [reflexivity| |].
  - intros n' r' I C. pose proof (die_starts c n' St C) as X. cbn [firstn lexer_rules In] in I.
    repeat match type of I with _ \/ _ => destruct I as [I|I]; [injection I as <- <-; try (exfalso; destruct X as [X|[X|[X|X]]]; discriminate X)|] end; [exact K|destruct I].
  - apply F. destruct rest as [|x rest]; [exact Logic.I|]. cbn [stops] in *. destruct (is_digit x) eqn:X; [|reflexivity]. apply digit_word in X. congruence.
Qed.
Lemma find_drop_keep : forall b d k n rest, dice_form_text d -> (k = "k"%char \/ k = "d"%char) -> is_digits n -> stops is_digit rest ->
  finds T_DROP_KEEP_DICE b (d ++ [k] ++ n) rest.
Proof.
  intros b d k n rest D K N S. unfold finds.
  assert (F : first_match re_drop_keep_dice (b, (d ++ [k] ++ n) ++ rest) (rev (d ++ [k] ++ n) ++ b, rest)).
  { unfold re_drop_keep_dice. rewrite <- !app_assoc, !rev_app_distr, <- !app_assoc. eapply fm_seq.
    - apply fm_dice; [exact D|]. cbn [app stops]. destruct K; subst; reflexivity.
    - cbn [rseq]. eapply fm_seq; [apply (fm_char _ _ k (n ++ rest)); destruct K; subst; reflexivity|]. now apply (fm_digits n (k :: rev d ++ b) rest). }
  destruct d as [|c d]; [destruct D as [[|y m] [s [X _]]]; discriminate|]. pose proof (dice_start c d D) as St. cbn [app] in *.
  apply (find_rule 4 T_DROP_KEEP_DICE re_drop_keep_dice); [reflexivity| |exact F].
  intros n' r' I C. pose proof (die_starts c n' St C) as X. cbn [firstn lexer_rules In] in I.
  repeat match type of I with _ \/ _ => destruct I as [I|I]; [injection I as <- <-; exfalso; destruct X as [X|[X|[X|X]]]; discriminate X|] end. destruct I.
Qed.
Lemma find_integer : forall b m rest, numeral_ok m -> stops is_word rest -> finds T_CONSTANT_INTEGER b (numeral_text m) rest.
Proof.
  intros b [sg d] rest [N D] S. cbn [n_digits] in *. unfold finds, numeral_text. cbn [n_minus n_digits].
  assert (Sd : stops is_digit rest).
  { destruct rest as [|x rest]; [exact Logic.I|]. cbn [stops] in *. destruct (is_digit x) eqn:X; [|reflexivity]. apply digit_word in X. congruence. }
  destruct sg.
  - cbn [app list_ascii_of_string rev]. rewrite <- app_assoc. apply (find_rule 7 T_CONSTANT_INTEGER (RSeq (ropt (rch "-")) rdigits)); [reflexivity|earlier|].
    eapply fm_seq; [apply fm_altl; apply fm_ch|]. apply (fm_digits d ("-"%char :: b) rest); [now split|exact Sd].
  - cbn [app]. destruct (digits_no_dice d rest b (conj N D) S) as [N1 N2]. pose proof (fm_digits d b rest (conj N D) Sd) as F.
    destruct d as [|c d]; [congruence|]. cbn [app forallb] in *. apply andb_true_iff in D. destruct D as [Dc D].
    apply (find_rule 7 T_CONSTANT_INTEGER (RSeq (ropt (rch "-")) rdigits)); [reflexivity| |].
    + intros n' r' I C. pose proof (digit_starts c n' Dc C) as X. cbn [firstn lexer_rules In] in I.
      repeat match type of I with _ \/ _ => destruct I as [I|I]; [injection I as <- <-; try (exfalso; destruct X as [X|[X|X]]; discriminate X)|] end; [exact N2|exact N1|destruct I].
    + eapply fm_seq; [|exact F]. apply fm_altr; [|apply fm_eps]. apply no_match. intros w s L E. apply lang_ch in L. subst w. inversion E; subst. discriminate.
Qed.

Lemma find_name : forall b w rest a u, w = u ++ [a] -> forallb name_char w = true -> before_ok b w -> after_ok a rest -> finds T_NAME b w rest.
Proof.
  intros b w rest a u Ew D B A. unfold finds.
  assert (Na : name_char a = true) by (rewrite Ew, forallb_app in D; apply andb_true_iff in D; destruct D as [_ D]; cbn [forallb] in D; now rewrite andb_true_r in D).
  assert (Ad : after_ok "d" rest).
  { destruct rest as [|x rest]; [exact Logic.I|]. cbn [after_ok] in *. destruct A as [M A]. split; [|exact A]. apply meet_word in M; [|now rewrite (lower_word a Na)].
    unfold may_meet. now rewrite M. }
  destruct (name_no_dice w rest b D Ad) as [N1 N2].
  assert (W : w <> []) by (rewrite Ew; now destruct u).
  assert (F : first_match (rplus (RChar name_char)) (b, w ++ rest) (rev w ++ b, rest)).
  { apply fm_plus_char; auto. apply (stops_word name_char a rest lower_word); [now rewrite (lower_word a Na)|exact A]. }
  assert (Hb : at_bound (b, w ++ rest) = true).
  { destruct w as [|c w]; [congruence|]. cbn [forallb] in D. apply andb_true_iff in D. cbn [app]. apply word_bound_left; [exact B|]. now apply lower_word. }
  assert (He : at_bound (rev w ++ b, rest) = true) by (rewrite Ew, rev_app_distr; cbn [rev app]; apply word_bound_right; [now apply lower_word|exact A]).
  destruct w as [|c w]; [congruence|]. cbn [forallb] in D. apply andb_true_iff in D. destruct D as [Dc D]. cbn [app] in *.
  eapply (find_rule 17 T_NAME); [reflexivity| |].
  - intros n' r' I C. pose proof (name_starts c n' Dc C) as X. cbn [firstn lexer_rules In] in I.
    repeat match type of I with _ \/ _ => destruct I as [I|I]; [injection I as <- <-; try (exfalso; destruct X as [X|[X|X]]; discriminate X)|] end; [exact N2|exact N1|destruct I].
  - cbn [rseq]. eapply fm_seq; [apply fm_bound; exact Hb|]. eapply fm_seq; [exact F|]. now apply fm_bound.
Qed.

(** A pattern for one text does not match where another text stands *)
Lemma lit_no_match : forall s p, is_prefix s (snd p) = false -> rmatch (rlit s) p = [].
Proof.
  induction s as [|c s IH]; intros [b t] H; [discriminate|]. cbn [rlit rmatch rch snd fst] in *. destruct t as [|x t]; [reflexivity|]. cbn [is_prefix] in H.
  destruct (Ascii.eqb c x); [|reflexivity]. cbn [flat_map andb] in *. rewrite (IH (x :: b, t) H). reflexivity.
Qed.
Lemma word_no_match : forall s p, is_prefix s (snd p) = false -> rmatch (rword s) p = [].
Proof.
  intros s p H. unfold rword. cbn [rseq rmatch]. destruct (at_bound p); [|reflexivity]. cbn [flat_map]. rewrite (lit_no_match s p H). reflexivity.
Qed.

Lemma find_operator : forall b w rest a u, In w [$"=="; $"!="; $"<="; $"<"; $">="; $">"; $"AND"; $"OR"] -> w = u ++ [a] -> before_ok b w -> after_ok a rest ->
  finds T_BINARY_OPERATOR b w rest.
Proof.
  intros b w rest a u I E B A. unfold finds. 
  assert (Lt : a = "<"%char \/ a = ">"%char -> match rest with [] => True | x :: _ => Ascii.eqb "=" x = false end).
  { intros X. destruct rest as [|x rest]; [exact Logic.I|]. destruct A as [M _]. apply (meet_equals a x) in M; [exact M|]. destruct X; subst; reflexivity. }
  cbn [In] in I.
  assert (X : forall c s, w = c :: s -> existsb (Ascii.eqb c) $"=!<>AO" = true -> (s <> [] \/ c <> "!"%char) -> (c = "!"%char -> exists s', s = "="%char :: s') ->
    first_match (ralt [rlit $"=="; rlit $"!="; rlit $"<="; rlit $"<"; rlit $">="; rlit $">"; rword $"AND"; rword $"OR"]) (b, c :: s ++ rest) (rev w ++ b, rest) ->
    first_rule lexer_rules (b, w ++ rest) = Some (T_BINARY_OPERATOR, (rev w ++ b, rest))).
  { intros c s Ew Hc Hs Hn F. rewrite Ew. cbn [app]. eapply (find_rule 6 T_BINARY_OPERATOR); [reflexivity| |rewrite <- Ew; exact F].
    intros n' r' Hin Hst. cbn [firstn lexer_rules In] in Hin.
    repeat match type of Hin with _ \/ _ => destruct Hin as [Hin|Hin]; [injection Hin as <- <-|] end; [..|destruct Hin];
      cbn [can_start] in Hst; try (exfalso; clear - Hc Hst; destruct c as [[] [] [] [] [] [] [] []]; vm_compute in Hc, Hst; discriminate).
    apply Ascii.eqb_eq in Hst. destruct (Hn Hst) as [s' ->]. subst c. reflexivity. }
  repeat match type of I with _ \/ _ => destruct I as [I|I] end; [..|destruct I]; symmetry in I.
  - apply (X "="%char $"=" I); [reflexivity|now left|discriminate|]. rewrite I. apply fm_altl. apply (fm_lit $"==" b rest).
  - apply (X "!"%char $"=" I); [reflexivity|now left|now exists []|]. rewrite I. apply fm_altr; [now apply lit_no_match|]. apply fm_altl. apply (fm_lit $"!=" b rest).
  - apply (X "<"%char $"=" I); [reflexivity|now left|discriminate|]. rewrite I. do 2 (apply fm_altr; [now apply lit_no_match|]). apply fm_altl. apply (fm_lit $"<=" b rest).
  - apply (X "<"%char [] I); [reflexivity|right; discriminate|discriminate|]. rewrite I in *. do 2 (apply fm_altr; [now apply lit_no_match|]). apply fm_altr.
    + apply lit_no_match. apply (app_inj_tail [] u "<"%char a) in E. destruct E as [_ <-]. specialize (Lt (or_introl eq_refl)). destruct rest as [|x rest]; [reflexivity|].
      cbn [app list_ascii_of_string is_prefix snd]. rewrite Lt. apply andb_false_r.
    + apply fm_altl. apply (fm_lit $"<" b rest).
  - apply (X ">"%char $"=" I); [reflexivity|now left|discriminate|]. rewrite I. do 4 (apply fm_altr; [now apply lit_no_match|]). apply fm_altl. apply (fm_lit $">=" b rest).
  - apply (X ">"%char [] I); [reflexivity|right; discriminate|discriminate|]. rewrite I in *. do 4 (apply fm_altr; [now apply lit_no_match|]). apply fm_altr.
    + apply lit_no_match. apply (app_inj_tail [] u ">"%char a) in E. destruct E as [_ <-]. specialize (Lt (or_intror eq_refl)). destruct rest as [|x rest]; [reflexivity|].
      cbn [app list_ascii_of_string is_prefix snd]. rewrite Lt. apply andb_false_r.
    + apply fm_altl. apply (fm_lit $">" b rest).
  - apply (X "A"%char $"ND" I); [reflexivity|now left|discriminate|]. rewrite I in *. do 6 (apply fm_altr; [now apply lit_no_match|]). apply fm_altl.
    apply (app_inj_tail $"AN" u "D"%char a) in E. destruct E as [_ <-]. now apply (fm_word "A"%char $"ND" "D"%char $"AN" b rest).
  - apply (X "O"%char $"R" I); [reflexivity|now left|discriminate|]. rewrite I in *. do 6 (apply fm_altr; [now apply lit_no_match|]). apply fm_altr; [now apply word_no_match|].
    apply (app_inj_tail $"O" u "R"%char a) in E. destruct E as [_ <-]. cbn [ralt]. try apply fm_altl. now apply (fm_word "O"%char $"R" "R"%char $"O" b rest).
Qed.

Lemma no_operator : forall p, (forall s, In s [$"=="; $"!="; $"<="; $"<"; $">="; $">"; $"AND"; $"OR"] -> is_prefix s (snd p) = false) ->
  rmatch (ralt [rlit $"=="; rlit $"!="; rlit $"<="; rlit $"<"; rlit $">="; rlit $">"; rword $"AND"; rword $"OR"]) p = [].
Proof.
  intros p H. cbn [ralt rmatch]. rewrite (lit_no_match $"=="), (lit_no_match $"!="), (lit_no_match $"<="), (lit_no_match $"<"), (lit_no_match $">="), (lit_no_match $">"),
    (word_no_match $"AND"), (word_no_match $"OR") by (apply H; cbn [In]; tauto). reflexivity.
Qed.

Lemma token_found : forall n w b rest a u, token_form n w -> w = u ++ [a] -> before_ok b w -> after_ok a rest -> finds n b w rest.
Proof.
  intros n w b rest a u F E B A.
  assert (Wd : is_word a || Ascii.eqb a "%" || Ascii.eqb a "]" = true -> stops is_word rest) by (intros H; apply (stops_word is_word a); auto).
  destruct n; cbn [token_form] in F.
  - rewrite F in *. apply (find_rule 0 T_OPEN_PARENTHESIS (rch "(")); [reflexivity|earlier|apply fm_ch].
  - rewrite F in *. apply (find_rule 1 T_CLOSE_PARENTHESIS (rch ")")); [reflexivity|earlier|apply fm_ch].
  - rewrite F in *. apply (find_rule 2 T_COMMA (rch ",")); [reflexivity|earlier|apply fm_ch].
  - rewrite F in *. apply (app_inj_tail [] u "!"%char a) in E. destruct E as [_ <-]. eapply (find_rule 3 T_NOT); [reflexivity|earlier|].
    eapply fm_seq; [apply fm_ch|]. apply fm_ahead. now apply (equals_next "!").
  - destruct F as [d [k [m [-> [D [K N]]]]]]. apply find_drop_keep; auto. destruct N as [N Dm]. destruct (last_digits m Dm N) as [v [x [-> Dx]]].
    rewrite !app_assoc in E. apply app_inj_tail in E. destruct E as [_ ->]. apply (stops_word is_digit a rest digit_word); [now rewrite (digit_word a Dx)|exact A].
  - apply find_dice; [exact F|]. destruct F as [m [s [-> [_ S]]]]. destruct (sides_last s S) as [v [x [-> X]]]. rewrite !app_assoc in E. apply app_inj_tail in E.
    destruct E as [_ ->]. now apply Wd.
  - now apply (find_operator b w rest a u).
  - destruct F as [m [M ->]]. apply find_integer; [exact M|]. apply Wd. destruct M as [N D]. destruct (last_digits (n_digits m) D N) as [v [x [Em Dx]]].
    unfold numeral_text in E. rewrite Em, app_assoc in E. apply app_inj_tail in E. destruct E as [_ ->]. now rewrite (digit_word a Dx).
  - destruct F as [F|F]; rewrite F in *.
    + apply (app_inj_tail $"Tru" u "e"%char a) in E. destruct E as [_ <-]. eapply (find_rule 8 T_CONSTANT_BINARY); [reflexivity|earlier|].
      apply fm_altl. now apply (fm_word "T"%char $"rue" "e"%char $"Tru" b rest).
    + apply (app_inj_tail $"Fals" u "e"%char a) in E. destruct E as [_ <-]. eapply (find_rule 8 T_CONSTANT_BINARY); [reflexivity|earlier|].
      apply fm_altr; [now apply word_no_match|]. cbn [ralt]. now apply (fm_word "F"%char $"alse" "e"%char $"Fals" b rest).
  - rewrite F in *. apply (find_rule 9 T_ADD (rch "+")); [reflexivity|earlier|apply fm_ch].
  - rewrite F in *. apply (app_inj_tail [] u "-"%char a) in E. destruct E as [_ <-]. apply (find_rule 10 T_SUBTRACT (rch "-")); [reflexivity|earlier|apply fm_ch].
    apply no_match. intros w' s L E. apply lang_seq in L. destruct L as [x [y [-> [L1 L2]]]]. apply lang_digits in L2. destruct L2 as [N D]. destruct y as [|d y]; [congruence|].
    cbn [forallb] in D. apply andb_true_iff in D. destruct D as [D _]. apply lang_opt in L1. cbn [snd] in E. destruct L1 as [L1| ->].
    + apply lang_ch in L1. subst x. cbn [app list_ascii_of_string] in E. inversion E as [E']. subst rest. destruct A as [A _]. apply meet_minus in A. congruence.
    + cbn [app list_ascii_of_string] in E. inversion E. subst d. discriminate.
  - rewrite F in *. apply (find_rule 11 T_MULTIPLY (rch "*")); [reflexivity|earlier|apply fm_ch].
  - rewrite F in *. apply (find_rule 12 T_INTEGER_DIVISION (rlit $"//")); [reflexivity|earlier|apply (fm_lit $"//" b rest)].
  - destruct F as [F|F]; rewrite F in *.
    + apply (app_inj_tail $"MA" u "X"%char a) in E. destruct E as [_ <-]. eapply (find_rule 13 T_MINMAX); [reflexivity|earlier|].
      apply fm_altl. now apply (fm_word "M"%char $"AX" "X"%char $"MA" b rest).
    + apply (app_inj_tail $"MI" u "N"%char a) in E. destruct E as [_ <-]. eapply (find_rule 13 T_MINMAX); [reflexivity|earlier|].
      apply fm_altr; [now apply word_no_match|]. cbn [ralt]. now apply (fm_word "M"%char $"IN" "N"%char $"MI" b rest).
  - rewrite F in *. apply (app_inj_tail $"AB" u "S"%char a) in E. destruct E as [_ <-]. eapply (find_rule 14 T_ABS); [reflexivity|earlier|].
    + apply (no_operator (b, $"ABS" ++ rest)). intros s I. cbn [In] in I. repeat (destruct I as [<-|I]; [reflexivity|]). destruct I.
    + now apply (fm_word "A"%char $"BS" "S"%char $"AB" b rest).
  - rewrite F in *. apply (app_inj_tail [] u "="%char a) in E. destruct E as [_ <-]. eapply (find_rule 15 T_ASSIGNMENT); [reflexivity|earlier|].
    + assert (X : is_prefix $"==" ("="%char :: rest) = false).
      { destruct rest as [|x rest]; [reflexivity|]. destruct A as [A _]. apply (meet_equals "=" x eq_refl) in A. cbn [list_ascii_of_string is_prefix]. now rewrite A, andb_false_r. }
      apply (no_operator (b, $"=" ++ rest)). intros s I. cbn [In] in I. destruct I as [<-|I]; [exact X|]. repeat (destruct I as [<-|I]; [reflexivity|]). destruct I.
    + cbn [rseq]. eapply fm_seq; [apply fm_ch|]. eapply fm_seq; [apply fm_ahead; now apply (equals_next "=")|].
      exists []. cbn [rmatch fst]. cbn [list_ascii_of_string rev app is_prefix]. destruct b as [|x b]; [reflexivity|]. unfold before_ok in B. cbn [hd_error may_follow] in B.
      assert (X : Ascii.eqb "=" x = false).
      { destruct (Ascii.eqb "=" x) eqn:X; [|reflexivity]. apply Ascii.eqb_eq in X. subst x. discriminate B. }
      now rewrite X, andb_false_r.
  - rewrite F in *. apply (app_inj_tail $"VA" u "R"%char a) in E. destruct E as [_ <-]. eapply (find_rule 16 T_VAR); [reflexivity|earlier|].
    now apply (fm_word "V"%char $"AR" "R"%char $"VA" b rest).
  - destruct F as [_ D]. now apply (find_name b w rest a u).
Qed.

(** ** Laid out texts *)
Lemma hd_rev : forall u b, hd_error (rev u ++ b) = last_of (hd_error b) u.
Proof. induction u as [|c u IH]; intros b; [reflexivity|]. cbn [rev last_of]. rewrite <- app_assoc. apply (IH (c :: b)). Qed.
Lemma last_of_end : forall u a p, last_of p (u ++ [a]) = Some a.
Proof. intros u a p. now rewrite last_of_app. Qed.

Lemma start_class : forall n c, can_start n c = true -> is_space c = false /\ c <> "%"%char /\ c <> "["%char.
Proof.
  intros n c H. destruct (is_space c || Ascii.eqb c "%" || Ascii.eqb c "[") eqn:E.
  - exfalso. destruct n; destruct c as [[] [] [] [] [] [] [] []]; vm_compute in E, H; discriminate.
  - apply orb_false_iff in E. destruct E as [E E3]. apply orb_false_iff in E. destruct E as [E1 E2]. rewrite Ascii.eqb_neq in E2, E3. auto.
Qed.
Lemma space_meets : forall a c, is_space c = true -> may_meet a c = true.
Proof.
  intros a c H. assert (X : is_word c = false /\ Ascii.eqb c "=" = false /\ is_digit c = false).
  { destruct c as [[] [] [] [] [] [] [] []]; vm_compute in H; try discriminate; repeat split. }
  destruct X as [X1 [X2 X3]]. unfold may_meet. now rewrite X1, X2, X3, !andb_false_r.
Qed.

Lemma token_first : forall n w c s, token_form n w -> w ++ s = c :: match w ++ s with [] => [] | _ :: s' => s' end -> exists w', w = c :: w' /\ can_start n c = true.
Proof.
  intros n w c s F E. pose proof (form_nonempty n w F) as N. destruct w as [|x w]; [congruence|]. cbn [app] in E. inversion E. subst. exists w. split; [reflexivity|]. eapply form_start; eauto.
Qed.
Lemma laid_space : forall p c s ts, laid_out p (c :: s) ts -> is_space c = true -> laid_out (Some c) s ts.
Proof.
  intros p c s ts L H. remember (c :: s) as x eqn:E. destruct L as [|p c' s' ts L1 L2|p t s' ts F M L]; [discriminate|now inversion E; subst|].
  destruct (token_first _ _ c s' F) as [w' [_ C]]; [now rewrite E|]. apply start_class in C. destruct C. congruence.
Qed.
Lemma laid_spaces : forall u p s ts, laid_out p (u ++ s) ts -> forallb is_space u = true -> laid_out (last_of p u) s ts.
Proof.
  induction u as [|c u IH]; intros p s ts L H; [exact L|]. cbn [forallb] in H. apply andb_true_iff in H. destruct H as [Hc H]. cbn [last_of]. apply IH; [|exact H].
  now apply (laid_space p c).
Qed.
Lemma laid_after : forall a s ts, laid_out (Some a) s ts -> after_ok a s.
Proof.
  intros a s ts L. remember (Some a) as p eqn:E. destruct L as [|p c s ts L1 L2|p t s ts F M L]; subst; [exact Logic.I| |].
  - cbn [after_ok]. split; [now apply space_meets|]. split; intros ->; discriminate.
  - pose proof (form_nonempty _ _ F) as N. destruct (tk_text t) as [|c w] eqn:T; [congruence|]. cbn [app after_ok may_follow] in *. split; [exact M|].
    apply form_start in F. now apply start_class in F.
Qed.

Lemma spaces_split : forall s, exists u rest, s = u ++ rest /\ forallb is_space u = true /\ stops is_space rest.
Proof.
  induction s as [|c s [u [rest [-> [U S]]]]]; [exists [], []; repeat split|]. destruct (is_space c) eqn:C.
  - exists (c :: u), rest. cbn [app forallb]. rewrite C. auto.
  - exists [], (c :: u ++ rest). repeat split. exact C.
Qed.

Lemma laid_out_lexes : forall fuel b s ts, laid_out (hd_error b) s ts -> (length s < fuel)%nat -> rply_lex fuel (b, s) = Lexed ts.
Proof.
  induction fuel as [|fuel IH]; intros b s ts L H; [lia|]. cbn [rply_lex snd]. destruct s as [|c s].
  - inversion L; subst; [reflexivity|]. exfalso. pose proof (form_nonempty _ _ H1) as N. destruct (tk_text t); [congruence|discriminate].
  - destruct (is_space c) eqn:C.
    + destruct (spaces_split s) as [u [rest [-> [U S]]]]. destruct (fm_plus_char is_space (c :: u) b rest) as [l E]; [discriminate|cbn [forallb]; now rewrite C|exact S|].
      change (rmatch ignore_rule (b, c :: u ++ rest) = (rev (c :: u) ++ b, rest) :: l) in E. rewrite E. apply IH.
      * rewrite hd_rev. apply laid_spaces; [exact L|]. cbn [forallb]. now rewrite C.
      * cbn [length] in H. rewrite app_length in H. lia.
    + assert (E : rmatch ignore_rule (b, c :: s) = []).
      { apply no_match. intros w s' Lw Ew. apply lang_plus_char in Lw. destruct Lw as [N D]. destruct w as [|x w]; [congruence|]. cbn [snd app] in Ew. inversion Ew; subst.
        cbn [forallb] in D. apply andb_true_iff in D. destruct D. congruence. }
      rewrite E. remember (c :: s) as x eqn:Ex. remember (hd_error b) as p eqn:Ep. destruct L as [|p c' s' ts L1 L2|p t s' ts F M L]; [discriminate|inversion Ex; subst; congruence|].
      pose proof (form_nonempty _ _ F) as N. destruct (exists_last N) as [u [a Eu]]. rewrite Eu, last_of_end in L.
      assert (X : finds (tk_name t) b (tk_text t) s') by (apply (token_found _ _ b s' a u F Eu); [unfold before_ok; now rewrite <- Ep|exact (laid_after a s' ts L)]).
      unfold finds in X. rewrite X. rewrite (IH (rev (tk_text t) ++ b) s' ts).
      * cbn [lex_cons]. rewrite (between_reads _ (tk_text t)); [|split; reflexivity]. now destruct t.
      * rewrite hd_rev, Eu, last_of_end. exact L.
      * rewrite app_length in H. destruct (tk_text t); [congruence|]. cbn [length] in H. lia.
Qed.

Lemma laid_out_tokens : forall s ts, laid_out None s ts -> lex s = LexOk ts.
Proof. intros s ts L. unfold lex, run_lexer, pstart. rewrite (laid_out_lexes (S (length s)) [] s ts L); [reflexivity|lia]. Qed.

Lemma laid_out_app : forall p s ts s' ts', laid_out p s ts -> laid_out (last_of p s) s' ts' -> laid_out p (s ++ s') (ts ++ ts').
Proof.
  intros p s ts s' ts' L. induction L as [p|p c s ts H L IH|p t s ts F M L IH]; intros L'.
  - exact L'.
  - cbn [app last_of] in *. apply lo_space; auto.
  - rewrite <- app_assoc. cbn [app]. apply lo_token; auto. apply IH. now rewrite <- last_of_app.
Qed.
