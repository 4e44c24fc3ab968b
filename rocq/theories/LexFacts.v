(** * LexFacts: what the lexer of Lexer.v does *)
From Verif Require Import Py PyFacts Regex RegexFacts Lexer SpecNotation SpecLexer.

(** ** The language of a regular expression, look-around being empty *)
Inductive lang : regex -> text -> Prop :=
| l_char : forall f c, f c = true -> lang (RChar f) [c]
| l_eps : lang REps []
| l_seq : forall a b u v, lang a u -> lang b v -> lang (RSeq a b) (u ++ v)
| l_altl : forall a b u, lang a u -> lang (RAlt a b) u
| l_altr : forall a b u, lang b u -> lang (RAlt a b) u
| l_star0 : forall a, lang (RStar a) []
| l_star : forall a u v, lang a u -> lang (RStar a) v -> lang (RStar a) (u ++ v)
| l_bound : lang RBound []
| l_ahead : forall a, lang (RNotAhead a) []
| l_behind : forall s, lang (RNotBehind s) [].

(** [q] is reached from [p] by reading [w] *)
Definition reads_to (p : pos) (w : text) (q : pos) : Prop := snd p = w ++ snd q /\ fst q = rev w ++ fst p.

Lemma reads_nil : forall p, reads_to p [] p.
Proof. split; reflexivity. Qed.

Lemma reads_app : forall p u q v r, reads_to p u q -> reads_to q v r -> reads_to p (u ++ v) r.
Proof.
  intros p u q v r [H1 H2] [H3 H4]. split.
  - rewrite H1, H3. now rewrite app_assoc.
  - rewrite H4, H2, rev_app_distr. now rewrite app_assoc.
Qed.

Lemma rmatch_lang : forall r p q, In q (rmatch r p) -> exists w, lang r w /\ reads_to p w q.
Proof.
  induction r; intros p q H.
  - apply in_char in H. destruct H as [c [s [E [F ->]]]]. exists [c]. split; [now constructor|]. now split.
  - destruct H as [<-|[]]. exists []. split; [constructor | apply reads_nil].
  - apply in_seq in H. destruct H as [m [H1 H2]]. apply IHr1 in H1. apply IHr2 in H2.
    destruct H1 as [u [L1 R1]], H2 as [v [L2 R2]]. exists (u ++ v). split; [now constructor | eapply reads_app; eauto].
  - apply in_alt in H. destruct H as [H|H]; [apply IHr1 in H | apply IHr2 in H]; destruct H as [w [L Rd]]; exists w; split; auto; now constructor.
  - cbn [rmatch] in H. revert p q H.
    assert (X : forall n p q, In q (rstar (rmatch r) n p) -> exists w, lang (RStar r) w /\ reads_to p w q).
    { induction n as [|n IHn]; intros p q H.
      - destruct H as [<-|[]]. exists []. split; [constructor | apply reads_nil].
      - cbn [rstar] in H. apply in_app_or in H. destruct H as [H|[<-|[]]].
        + apply in_flat_map in H. destruct H as [m [H1 H2]]. destruct (_ <? _)%nat; [|destruct H2].
          apply IHr in H1. apply IHn in H2. destruct H1 as [u [L1 R1]], H2 as [v [L2 R2]].
          exists (u ++ v). split; [now constructor | eapply reads_app; eauto].
        + exists []. split; [constructor | apply reads_nil]. }
    intros p q. apply X.
  - cbn [rmatch] in H. destruct (at_bound p); [|destruct H]. destruct H as [<-|[]]. exists []. split; [constructor | apply reads_nil].
  - cbn [rmatch] in H. destruct (rmatch r p); [|destruct H]. destruct H as [<-|[]]. exists []. split; [constructor | apply reads_nil].
  - cbn [rmatch] in H. destruct (is_prefix _ _); [destruct H|]. destruct H as [<-|[]]. exists []. split; [constructor | apply reads_nil].
Qed.

(** ** Languages of the patterns *)
Lemma lang_char : forall f w, lang (RChar f) w -> exists c, w = [c] /\ f c = true.
Proof. intros f w H. inversion H; subst. eauto. Qed.
Lemma lang_ch : forall c w, lang (rch c) w -> w = [c].
Proof. intros c w H. apply lang_char in H. destruct H as [x [-> H]]. apply Ascii.eqb_eq in H. now subst. Qed.
Lemma lang_eps : forall w, lang REps w -> w = [].
Proof. intros w H. now inversion H. Qed.
Lemma lang_seq : forall a b w, lang (RSeq a b) w -> exists u v, w = u ++ v /\ lang a u /\ lang b v.
Proof. intros a b w H. inversion H; subst. eauto. Qed.
Lemma lang_alt : forall a b w, lang (RAlt a b) w -> lang a w \/ lang b w.
Proof. intros a b w H. inversion H; subst; auto. Qed.
Lemma lang_opt : forall a w, lang (ropt a) w -> lang a w \/ w = [].
Proof. intros a w H. apply lang_alt in H. destruct H as [H|H]; auto. right. now apply lang_eps. Qed.
Lemma lang_bound : forall w, lang RBound w -> w = [].
Proof. intros w H. now inversion H. Qed.
Lemma lang_ahead : forall a w, lang (RNotAhead a) w -> w = [].
Proof. intros a w H. now inversion H. Qed.
Lemma lang_behind : forall a w, lang (RNotBehind a) w -> w = [].
Proof. intros a w H. now inversion H. Qed.

Lemma lang_star_all : forall r (P : ascii -> bool), (forall w, lang r w -> forallb P w = true) -> forall w, lang (RStar r) w -> forallb P w = true.
Proof.
  intros r P H w L. remember (RStar r) as s eqn:E. induction L; inversion E; subst; auto.
  rewrite forallb_app, (H u), (IHL2 eq_refl); auto.
Qed.

Lemma lang_star_char : forall f w, lang (RStar (RChar f)) w -> forallb f w = true.
Proof.
  intros f. apply lang_star_all. intros w H. apply lang_char in H. destruct H as [c [-> H]]. simpl. now rewrite H.
Qed.

Lemma lang_plus_char : forall f w, lang (rplus (RChar f)) w -> w <> [] /\ forallb f w = true.
Proof.
  intros f w H. apply lang_seq in H. destruct H as [u [v [-> [Hu Hv]]]].
  apply lang_char in Hu. destruct Hu as [c [-> Hc]]. apply lang_star_char in Hv. simpl. rewrite Hc. split; [discriminate|auto].
Qed.

Lemma lang_digits : forall w, lang rdigits w -> is_digits w.
Proof. intros w H. now apply lang_plus_char in H. Qed.

Lemma lang_lit : forall s w, lang (rlit s) w -> w = s.
Proof.
  induction s as [|c s IH]; intros w H; cbn [rlit] in H.
  - now apply lang_eps.
  - apply lang_seq in H. destruct H as [u [v [-> [Hu Hv]]]]. apply lang_ch in Hu. apply IH in Hv. now subst.
Qed.

Lemma lang_word : forall s w, lang (rword s) w -> w = s.
Proof.
  intros s w H. unfold rword in H. cbn [rseq] in H. apply lang_seq in H. destruct H as [u [v [-> [Hu Hv]]]].
  apply lang_bound in Hu. apply lang_seq in Hv. destruct Hv as [u' [v' [-> [Hu' Hv']]]].
  apply lang_lit in Hu'. apply lang_bound in Hv'. subst. cbn. now rewrite app_nil_r.
Qed.

Ltac lang_inv H :=
  let u := fresh "u" in let v := fresh "v" in let Hu := fresh "L" in let Hv := fresh "L" in
  apply lang_seq in H; destruct H as [u [v [-> [Hu Hv]]]].

(** ** Custom dice *)
Lemma lang_entry : forall w, lang re_entry w -> exists e, entry_ok e /\ entry_text e = w.
Proof.
  assert (Hn : forall u v, lang (ropt (rch "-")) u -> lang rdigits v -> exists n, numeral_ok n /\ numeral_text n = u ++ v).
  { intros u v Hu Hv. apply lang_digits in Hv. apply lang_opt in Hu. destruct Hu as [Hu| ->].
    - apply lang_ch in Hu. subst. exists {| n_minus := true; n_digits := v |}. auto.
    - exists {| n_minus := false; n_digits := v |}. auto. }
  assert (Hm : forall v, lang re_multiplier v -> exists c, match c with Some t => is_digits t | None => True end /\ match c with Some t => $"*" ++ t | None => [] end = v).
  { intros v Hv. apply lang_opt in Hv. destruct Hv as [Hv| ->]; [|exists None; auto]. lang_inv Hv. apply lang_ch in L. apply lang_digits in L0. subst.
    exists (Some v0). auto. }
  intros w H. apply lang_alt in H. destruct H as [H|H]; cbn [rseq] in H.
  - lang_inv H. lang_inv L0. lang_inv L2. lang_inv L3. lang_inv L4. destruct (Hn _ _ L L1) as [n1 [O1 T1]]. apply lang_ch in L0. destruct (Hn _ _ L2 L3) as [n2 [O2 T2]].
    destruct (Hm _ L5) as [c [Oc Tc]]. exists {| e_from := n1; e_to := Some n2; e_copies := c |}. split; [repeat split; auto; apply O1 || apply O2|].
    unfold entry_text. cbn [e_from e_to e_copies]. rewrite T1, T2, Tc. subst. now rewrite <- !app_assoc.
  - lang_inv H. lang_inv L0. destruct (Hn _ _ L L1) as [n1 [O1 T1]]. destruct (Hm _ L2) as [c [Oc Tc]].
    exists {| e_from := n1; e_to := None; e_copies := c |}. split; [repeat split; auto; apply O1|].
    unfold entry_text. cbn [e_from e_to e_copies]. rewrite T1, Tc. cbn [app]. now rewrite <- app_assoc.
Qed.

Lemma l_star_char : forall f w, forallb f w = true -> lang (RStar (RChar f)) w.
Proof.
  intros f. induction w as [|c w IH]; intros H; [constructor|]. cbn [forallb] in H. apply andb_true_iff in H.
  change (c :: w) with ([c] ++ w). apply l_star; [constructor; tauto|apply IH; tauto].
Qed.
Lemma l_ch : forall c, lang (rch c) [c].
Proof. intros c. constructor. apply Ascii.eqb_refl. Qed.
Lemma l_digits : forall w, is_digits w -> lang rdigits w.
Proof.
  intros [|c w] [N H]; [congruence|]. cbn [forallb] in H. apply andb_true_iff in H. change (c :: w) with ([c] ++ w). apply l_seq; [constructor; tauto|].
  apply l_star_char. tauto.
Qed.
Lemma l_opt_some : forall r w, lang r w -> lang (ropt r) w.
Proof. intros. now apply l_altl. Qed.
Lemma l_opt_none : forall r, lang (ropt r) [].
Proof. intros. apply l_altr. constructor. Qed.

Lemma l_entry : forall e, entry_ok e -> lang re_entry (entry_text e).
Proof.
  assert (Hn : forall n r w, numeral_ok n -> lang r w -> lang (RSeq (ropt (rch "-")) (RSeq rdigits r)) (numeral_text n ++ w)).
  { intros [m d] r w N L. unfold numeral_text. cbn [n_minus n_digits]. rewrite <- app_assoc. apply l_seq; [|apply l_seq; [now apply l_digits|exact L]].
    destruct m; [apply l_opt_some, l_ch|apply l_opt_none]. }
  assert (Hm : forall c, match c with Some t => is_digits t | None => True end -> lang re_multiplier match c with Some t => $"*" ++ t | None => [] end).
  { intros [t|] H; [|apply l_opt_none]. apply l_opt_some. apply l_seq; [apply l_ch|now apply l_digits]. }
  intros [n1 [n2|] c] [O1 [O2 Oc]]; unfold entry_text; cbn [e_from e_to e_copies] in *.
  - apply l_altl. cbn [rseq]. apply Hn; [exact O1|]. rewrite <- app_assoc. apply l_seq; [apply l_ch|]. apply Hn; [exact O2|]. now apply Hm.
  - apply l_altr. cbn [rseq app]. apply Hn; [exact O1|]. now apply Hm.
Qed.

Lemma blank_app : forall a b, blank a -> blank b -> blank (a ++ b).
Proof. intros a b A B. unfold blank. now rewrite forallb_app, A, B. Qed.

Definition re_item : regex := RSeq re_spaces (RSeq re_entry (RSeq re_spaces (RSeq (rch ",") re_spaces))).
Definition with_commas (ws : list text) : text := concat (map (fun w => w ++ $",") ws).

Lemma lang_items : forall w, lang (RStar re_item) w -> exists es ws lead, Forall2 padded es ws /\ (forall e, In e es -> entry_ok e) /\ blank lead /\ w = with_commas ws ++ lead.
Proof.
  intros w L. remember (RStar re_item) as r eqn:E. induction L; inversion E; subst; clear E.
  - exists [], [], []. split; [constructor|]. split; [intros e []|]. split; reflexivity.
  - destruct (IHL2 eq_refl) as [es [ws [lead [F [O [B ->]]]]]]. clear IHL1 IHL2 L2. unfold re_item in L1. lang_inv L1. lang_inv L0. lang_inv L2. lang_inv L3.
    apply lang_star_char in L. apply lang_star_char in L0. apply lang_ch in L2. apply lang_star_char in L4. apply lang_entry in L1. destruct L1 as [e [Oe Te]]. subst.
    destruct F as [|e' w' es ws P F].
    + exists [e], [u0 ++ entry_text e ++ u1], (v0 ++ lead). split; [constructor; [exists u0, u1; auto|constructor]|]. split; [intros x [<-|[]]; exact Oe|].
      split; [now apply blank_app|]. unfold with_commas. cbn [map concat app]. rewrite app_nil_r, <- !app_assoc. reflexivity.
    + exists (e :: e' :: es), ((u0 ++ entry_text e ++ u1) :: (v0 ++ w') :: ws), lead. split.
      { constructor; [exists u0, u1; auto|]. constructor; [|exact F]. destruct P as [a [b [A [B' ->]]]]. exists (v0 ++ a), b. split; [now apply blank_app|]. split; [exact B'|].
        now rewrite <- app_assoc. }
      split; [intros x [<-|I]; [exact Oe|now apply O]|]. split; [exact B|]. unfold with_commas. cbn [map concat]. rewrite <- !app_assoc. reflexivity.
Qed.

Lemma join_last : forall ws w, join $"," (ws ++ [w]) = with_commas ws ++ w.
Proof.
  unfold with_commas. induction ws as [|x ws IH]; intros w; [reflexivity|]. cbn [map concat app]. rewrite <- app_assoc, <- IH.
  destruct ws as [|y ws]; cbn [app join]; now rewrite <- app_assoc.
Qed.

Lemma lang_custom : forall w, lang re_custom w -> exists es trailing, custom_text es trailing w.
Proof.
  intros w H. unfold re_custom in H. cbn [rseq] in H. lang_inv H. apply lang_ch in L. subst u. lang_inv L0. fold re_item in L. apply lang_items in L.
  destruct L as [es [ws [lead [F [O [B ->]]]]]]. lang_inv L1. lang_inv L0. lang_inv L2. lang_inv L3. lang_inv L4.
  apply lang_star_char in L. apply lang_star_char in L0. apply lang_star_char in L3. apply lang_ch in L5. apply lang_entry in L1. destruct L1 as [e [Oe Te]]. subst.
  assert (Oes : forall x, In x (es ++ [e]) -> entry_ok x) by (intros x I; apply in_app_or in I; destruct I as [I|[<-|[]]]; auto).
  apply lang_opt in L2. destruct L2 as [L2| ->].
  - apply lang_ch in L2. subst. exists (es ++ [e]), true. split; [destruct es; discriminate|]. split; [exact Oes|].
    exists (ws ++ [lead ++ u ++ entry_text e ++ u1]), u3. split.
    { apply Forall2_app; [exact F|]. constructor; [|constructor]. exists (lead ++ u), u1. split; [now apply blank_app|]. split; [exact L0|]. now rewrite <- app_assoc. }
    split; [exact L3|]. rewrite join_last. rewrite <- !app_assoc. reflexivity.
  - exists (es ++ [e]), false. split; [destruct es; discriminate|]. split; [exact Oes|].
    exists (ws ++ [lead ++ u ++ entry_text e ++ u1 ++ u3]), []. split.
    { apply Forall2_app; [exact F|]. constructor; [|constructor]. exists (lead ++ u), (u1 ++ u3). split; [now apply blank_app|]. split; [now apply blank_app|]. now rewrite <- app_assoc. }
    split; [reflexivity|]. rewrite join_last. rewrite <- !app_assoc. reflexivity.
Qed.

Lemma l_custom : forall es trailing s, custom_text es trailing s -> lang re_custom s.
Proof.
  intros es tr s [N [O [ws [sp [F [B ->]]]]]].
  assert (X : exists es' e, es = es' ++ [e]) by (destruct (exists_last N) as [es' [e ->]]; eauto). destruct X as [es' [e ->]].
  apply Forall2_app_inv_l in F. destruct F as [ws' [l [F [P ->]]]]. inversion P as [|? w ? l0 Pw Pl]; subst. inversion Pl; subst. clear P Pl.
  rewrite join_last. unfold re_custom. cbn [rseq]. apply l_seq; [apply l_ch|]. rewrite <- app_assoc. apply l_seq.
  - clear Pw N. fold re_item. assert (O' : forall x, In x es' -> entry_ok x) by (intros x I; apply O, in_or_app; auto). clear O. induction F as [|x y es' ws' P F IH]; [constructor|].
    unfold with_commas. cbn [map concat]. apply l_star; [|apply IH; intros; apply O'; now right]. destruct P as [a [b [A [B' ->]]]]. unfold re_item. rewrite <- !app_assoc.
    apply l_seq; [now apply l_star_char|]. apply l_seq; [apply l_entry, O'; now left|]. apply l_seq; [now apply l_star_char|].
    change ($",") with ([","%char] ++ []). apply l_seq; [apply l_ch|]. constructor.
  - destruct Pw as [a [b [A [B' ->]]]]. rewrite <- !app_assoc. apply l_seq; [now apply l_star_char|]. apply l_seq; [apply l_entry, O, in_or_app; right; now left|].
    apply l_seq; [now apply l_star_char|]. destruct tr.
    + rewrite <- app_assoc. apply l_seq; [apply l_opt_some, l_ch|]. apply l_seq; [now apply l_star_char|apply l_ch].
    + change ([] ++ $"]") with ([] ++ [] ++ $"]"). apply l_seq; [apply l_opt_none|]. apply l_seq; [constructor|apply l_ch].
Qed.

(** The characters between the brackets *)
Definition bracket_char (c : ascii) : bool :=
  is_digit c || is_space c || Ascii.eqb c "," || Ascii.eqb c "-" || Ascii.eqb c "*".
Definition in_bracket (w : text) : Prop := forallb bracket_char w = true.

Lemma in_bracket_app : forall u v, in_bracket u -> in_bracket v -> in_bracket (u ++ v).
Proof. intros u v H1 H2. unfold in_bracket. now rewrite forallb_app, H1, H2. Qed.

Lemma forallb_weaken : forall (f g : ascii -> bool) w, (forall c, f c = true -> g c = true) -> forallb f w = true -> forallb g w = true.
Proof. intros f g w H. rewrite !forallb_forall. auto. Qed.

Lemma digits_bracket : forall w, forallb is_digit w = true -> in_bracket w.
Proof. intros w H. eapply forallb_weaken; [|exact H]. intros c Hc. unfold bracket_char. now rewrite Hc. Qed.
Lemma blank_bracket : forall w, blank w -> in_bracket w.
Proof. intros w H. eapply forallb_weaken; [|exact H]. intros c Hc. unfold bracket_char. rewrite Hc. now rewrite orb_true_r. Qed.
Lemma numeral_bracket : forall n, numeral_ok n -> in_bracket (numeral_text n).
Proof. intros [[] d] [_ D]; unfold numeral_text; cbn [n_minus n_digits] in *; apply in_bracket_app; try reflexivity; now apply digits_bracket. Qed.
Lemma entry_bracket : forall e, entry_ok e -> in_bracket (entry_text e).
Proof.
  intros [n1 n2 c] [O1 [O2 Oc]]. unfold entry_text. cbn [e_from e_to e_copies] in *. apply in_bracket_app; [now apply numeral_bracket|]. apply in_bracket_app.
  - destruct n2; [|reflexivity]. apply in_bracket_app; [reflexivity|now apply numeral_bracket].
  - destruct c; [|reflexivity]. apply in_bracket_app; [reflexivity|]. apply digits_bracket, Oc.
Qed.
Lemma custom_form : forall es trailing w, custom_text es trailing w -> exists body, w = $"[" ++ body ++ $"]" /\ in_bracket body.
Proof.
  intros es tr w [_ [O [ws [sp [F [B ->]]]]]]. exists (join $"," ws ++ (if tr then $"," ++ sp else [])). split; [now rewrite <- !app_assoc|].
  apply in_bracket_app; [|destruct tr; [apply in_bracket_app; [reflexivity|now apply blank_bracket]|reflexivity]].
  induction F as [|e y es ws P F IH]; [reflexivity|]. assert (Y : in_bracket y).
  { destruct P as [a [b [A [B' ->]]]]. apply in_bracket_app; [now apply blank_bracket|]. apply in_bracket_app; [apply entry_bracket, O; now left|now apply blank_bracket]. }
  specialize (IH (fun x I => O x (or_intror I))). destruct ws as [|z ws]; [exact Y|]. cbn [join]. apply in_bracket_app; [exact Y|]. apply in_bracket_app; [reflexivity|exact IH].
Qed.

Lemma dice_lang : forall w, lang re_dice w -> dice_form_text w.
Proof.
  intros w H. unfold re_dice in H. cbn [rseq ralt] in H. lang_inv H. lang_inv L0. apply lang_ch in L1. subst.
  apply lang_star_char in L. exists u, v0. repeat split; auto.
  apply lang_alt in L2. destruct L2 as [H|H]; [apply sides_number; now apply lang_digits|].
  apply lang_alt in H. destruct H as [H|H]; [apply lang_ch in H; subst; exact sides_percent|].
  apply lang_alt in H. destruct H as [H|H]; [apply lang_ch in H; subst; exact sides_fate|].
  apply lang_custom in H. destruct H as [es [tr H]]. eapply sides_custom; eauto.
Qed.

Lemma rule_form : forall n r w, In (n, r) lexer_rules -> lang r w -> token_form n w.
Proof.
  intros n r w H L. unfold lexer_rules in H. cbn [In] in H.
  repeat (destruct H as [H|H]; [inversion H; subst; clear H|]); try destruct H; cbn [token_form];
    try (now apply lang_ch in L); try (now apply lang_word in L).
  - lang_inv L. apply lang_ch in L0. apply lang_ahead in L1. subst. reflexivity.
  - lang_inv L. lang_inv L1. apply dice_lang in L0. apply lang_char in L. destruct L as [c [-> Hc]]. apply lang_digits in L2.
    exists u, c, v0. repeat split; auto. apply orb_true_iff in Hc. rewrite !Ascii.eqb_eq in Hc. auto. apply L2. apply L2.
  - now apply dice_lang.
  - cbn [ralt] in L.
    apply lang_alt in L. destruct L as [L|L]; [apply (lang_lit $"==") in L; subst; simpl; tauto|].
    apply lang_alt in L. destruct L as [L|L]; [apply (lang_lit $"!=") in L; subst; simpl; tauto|].
    apply lang_alt in L. destruct L as [L|L]; [apply (lang_lit $"<=") in L; subst; simpl; tauto|].
    apply lang_alt in L. destruct L as [L|L]; [apply (lang_lit $"<") in L; subst; simpl; tauto|].
    apply lang_alt in L. destruct L as [L|L]; [apply (lang_lit $">=") in L; subst; simpl; tauto|].
    apply lang_alt in L. destruct L as [L|L]; [apply (lang_lit $">") in L; subst; simpl; tauto|].
    apply lang_alt in L. destruct L as [L|L]; [apply (lang_word $"AND") in L | apply (lang_word $"OR") in L]; subst; simpl; tauto.
  - lang_inv L. apply lang_digits in L1. apply lang_opt in L0. destruct L0 as [L0| ->].
    + apply lang_ch in L0. subst. exists {| n_minus := true; n_digits := v |}. auto.
    + exists {| n_minus := false; n_digits := v |}. auto.
  - cbn [ralt] in L. apply lang_alt in L. destruct L as [L|L]; apply lang_word in L; auto.
  - now apply (lang_lit $"//") in L.
  - cbn [ralt] in L. apply lang_alt in L. destruct L as [L|L]; apply lang_word in L; auto.
  - cbn [rseq] in L. lang_inv L. lang_inv L1. apply lang_ch in L0. apply lang_ahead in L. apply lang_behind in L2. subst. reflexivity.
  - cbn [rseq] in L. lang_inv L. lang_inv L1. apply lang_bound in L0. apply lang_bound in L2. apply lang_plus_char in L. subst.
    cbn. now rewrite app_nil_r.
Qed.

Lemma form_nonempty : forall n w, token_form n w -> w <> [].
Proof.
  intros n w H. destruct n; cbn [token_form] in H; try (subst; discriminate); try (destruct H; subst; discriminate); try tauto.
  - destruct H as [d [k [n [-> _]]]]. destruct d; discriminate.
  - destruct H as [n [s [-> _]]]. destruct n; discriminate.
  - simpl in H. intros ->. repeat (destruct H as [H|H]; [discriminate|]). destruct H.
  - destruct H as [n [[H _] ->]]. unfold numeral_text. destruct (n_minus n); auto. discriminate.
Qed.

(** ** Steps of the lexer *)
Lemma first_rule_some : forall rules p n q, first_rule rules p = Some (n, q) -> exists r l, In (n, r) rules /\ rmatch r p = q :: l.
Proof.
  induction rules as [|[n' r] rules IH]; intros p n q H; cbn [first_rule] in H; [discriminate|].
  destruct (rmatch r p) as [|q' l] eqn:E.
  - apply IH in H. destruct H as [r' [l [I E']]]. exists r', l. simpl. auto.
  - inversion H; subst. exists r, l. simpl. auto.
Qed.

Lemma first_rule_none : forall rules p, first_rule rules p = None <-> forall n r, In (n, r) rules -> rmatch r p = [].
Proof.
  induction rules as [|[n' r'] rules IH]; intros p; cbn [first_rule].
  - simpl. tauto.
  - destruct (rmatch r' p) as [|q l] eqn:E.
    + rewrite IH. split; intros H n r; [intros [I|I]; [inversion I; subst; auto | eauto] | intros I; apply (H n r); simpl; auto].
    + split; [discriminate|]. intros H. rewrite (H n' r') in E; [discriminate | simpl; auto].
Qed.

Lemma between_reads : forall p w q, reads_to p w q -> between p q = w.
Proof.
  intros p w q [H _]. unfold between. rewrite H, app_length, Nat.add_sub. rewrite firstn_app, Nat.sub_diag. cbn. now rewrite app_nil_r, firstn_all.
Qed.

Lemma first_rule_token : forall p n q, first_rule lexer_rules p = Some (n, q) -> reads_to p (between p q) q /\ token_form n (between p q).
Proof.
  intros p n q H. apply first_rule_some in H. destruct H as [r [l [I E]]].
  destruct (rmatch_lang r p q) as [w [L Rd]]; [rewrite E; simpl; auto|].
  rewrite (between_reads p w q Rd). split; auto. eapply rule_form; eauto.
Qed.

Lemma ignore_space : forall p q l, rmatch ignore_rule p = q :: l -> exists w, w <> [] /\ forallb is_space w = true /\ reads_to p w q.
Proof.
  intros p q l E. destruct (rmatch_lang ignore_rule p q) as [w [L Rd]]; [rewrite E; simpl; auto|].
  apply lang_plus_char in L. exists w. tauto.
Qed.

Lemma spelled_spaces : forall w s ts, forallb is_space w = true -> spelled s ts -> spelled (w ++ s) ts.
Proof.
  induction w as [|c w IH]; intros s ts H Sp; cbn [app]; auto. cbn [forallb] in H. apply andb_true_iff in H.
  constructor; [tauto|]. apply IH; tauto.
Qed.

(** Where the lexer fails: at a character that is no white space and starts no token *)
Definition stuck (p : pos) : Prop :=
  exists c s, snd p = c :: s /\ is_space c = false /\ first_rule lexer_rules p = None.

Lemma ignore_none : forall p c s, snd p = c :: s -> rmatch ignore_rule p = [] -> is_space c = false.
Proof.
  intros [b r] c s H E. cbn [snd] in H. subst r. destruct (is_space c) eqn:Sp; auto.
  unfold ignore_rule, rplus, rspace in E. cbn [rmatch snd] in E. rewrite Sp in E. cbn [flat_map] in E. rewrite app_nil_r in E.
  destruct s; cbn in E; [discriminate|]. apply app_eq_nil in E. destruct E; discriminate.
Qed.

Lemma rply_lex_spec : forall fuel p, (length (snd p) < fuel)%nat ->
  match rply_lex fuel p with
  | Lexed ts => spelled (snd p) ts
  | LexFail q => stuck q /\ exists u ts, spelled u ts /\ reads_to p u q
  | LexStuck => False
  end.
Proof.
  induction fuel as [|fuel IH]; intros p L; [lia|]. cbn [rply_lex]. destruct (snd p) as [|c s] eqn:E; [constructor|].
  destruct (rmatch ignore_rule p) as [|q l] eqn:I.
  - destruct (first_rule lexer_rules p) as [[n q]|] eqn:F.
    + apply first_rule_token in F. destruct F as [[R1 R2] T]. pose proof (form_nonempty _ _ T) as NE.
      set (w := between p q) in *. rewrite E in R1.
      assert (Lq : (length (snd q) < fuel)%nat).
      { apply (f_equal (@length ascii)) in R1. rewrite app_length in R1. destruct w; [congruence|]. simpl in *. lia. }
      specialize (IH q Lq). destruct (rply_lex fuel q) as [ts|q'|]; cbn [lex_cons].
      * rewrite R1. apply (sp_token {| tk_name := n; tk_text := w |}); auto.
      * destruct IH as [St [u [ts [Sp [R3 R4]]]]]. split; auto.
        exists (w ++ u), ({| tk_name := n; tk_text := w |} :: ts). split; [apply (sp_token {| tk_name := n; tk_text := w |}); auto|].
        apply (reads_app p w q u q'); split; auto. now rewrite E.
      * destruct IH.
    + split; [exists c, s; split; [auto|split; auto]; eapply ignore_none; eauto|].
      exists [], []. split; [constructor | apply reads_nil].
  - apply ignore_space in I. destruct I as [w [NE [Sp [R1 R2]]]]. rewrite E in R1.
    assert (Lq : (length (snd q) < fuel)%nat).
    { apply (f_equal (@length ascii)) in R1. rewrite app_length in R1. destruct w; [congruence|]. simpl in *. lia. }
    specialize (IH q Lq). destruct (rply_lex fuel q) as [ts|q'|].
    + rewrite R1. now apply spelled_spaces.
    + destruct IH as [St [u [ts [Sp' [R3 R4]]]]]. split; auto. exists (w ++ u), ts. split; [now apply spelled_spaces|].
      apply (reads_app p w q u q'); split; auto. now rewrite E.
    + destruct IH.
Qed.


(** ** The error message *)
Notation nl := (Ascii.eqb newline).

Lemma split_lines : forall s, join [newline] (split_on nl s) = s /\ forall l, In l (split_on nl s) -> ~ In newline l.
Proof.
  induction s as [|c s [IH1 IH2]]; cbn [split_on].
  - split; [reflexivity|]. intros l [<-|[]] [].
  - destruct (nl c) eqn:E.
    + apply Ascii.eqb_eq in E. subst c. split.
      * pose proof (split_on_nonnil nl s) as N. destruct (split_on nl s) as [|l ls]; [congruence|].
        change (newline :: join [newline] (l :: ls) = newline :: s). now rewrite IH1.
      * intros l [<-|H]; [intros []|]. auto.
    + pose proof (split_on_nonnil nl s) as N. destruct (split_on nl s) as [|l ls]; [congruence|]. split.
      * destruct ls; cbn [join app] in *; now rewrite IH1.
      * intros l' [<-|H]; [|apply IH2; simpl; auto]. intros [H|H]; [|apply (IH2 l); simpl; auto].
        subst c. rewrite Ascii.eqb_refl in E. discriminate.
Qed.

Lemma find_line_spec : forall lines i c, (forall l, In l lines -> ~ In newline l) ->
  nth_error (join [newline] lines) i = Some c -> c <> newline ->
  exists line col, find_line lines (Z.of_nat i) = Ok (line, Z.of_nat col) /\ line_at (join [newline] lines) i line col.
Proof.
  induction lines as [|l lines IH]; intros i c N H C.
  - destruct i; discriminate.
  - cbn [find_line]. destruct (Z.of_nat (length l) <? Z.of_nat i) eqn:L.
    + apply Z.ltb_lt in L. destruct lines as [|l' lines].
      * cbn [join] in H. rewrite (proj2 (nth_error_None l i)) in H by lia. discriminate.
      * assert (E : join [newline] (l :: l' :: lines) = l ++ [newline] ++ join [newline] (l' :: lines)) by reflexivity.
        rewrite E in *. remember (join [newline] (l' :: lines)) as s.
        rewrite nth_error_app2 in H by lia. cbn [app] in H.
        destruct (i - length l)%nat as [|j] eqn:J; [lia|]. cbn [nth_error] in H.
        destruct (IH j c) as [line [col [F [above [below [E1 [N1 [A [B [I1 I2]]]]]]]]]]; auto.
        { intros x Hx. apply N. now right. }
        exists line, col. replace (Z.of_nat i - (Z.of_nat (length l) + 1)) with (Z.of_nat j) by lia. split; auto.
        exists (l ++ [newline] ++ above), below. rewrite E1. split; [now rewrite <- !app_assoc|]. repeat split; auto.
        -- right. destruct A as [-> | [x ->]]; [exists l; now rewrite app_nil_r | exists (l ++ [newline] ++ x); now rewrite <- !app_assoc].
        -- rewrite !app_length. simpl. lia.
    + apply Z.ltb_ge in L. exists l, i. split; auto.
      assert (Li : (i < length l)%nat).
      { destruct (Nat.eq_dec i (length l)) as [->|]; [|lia]. exfalso. destruct lines as [|l' lines].
        - cbn [join] in H. rewrite (proj2 (nth_error_None l (length l))) in H by lia. discriminate.
        - change (nth_error (l ++ [newline] ++ join [newline] (l' :: lines)) (length l) = Some c) in H.
          rewrite nth_error_app2, Nat.sub_diag in H by lia. cbn [nth_error app] in H. congruence. }
      exists []. destruct lines as [|l' lines].
      * exists []. cbn [join app]. rewrite app_nil_r. repeat split; auto. apply N. now left.
      * exists ([newline] ++ join [newline] (l' :: lines)). split; [reflexivity|]. repeat split; auto; [apply N; now left|].
        right. eexists. reflexivity.
Qed.

Lemma message_points : forall input i c, nth_error input i = Some c -> c <> newline ->
  exists m, lex_error_message input (Z.of_nat i) = Ok m /\ points_at input i m.
Proof.
  intros input i c H C. destruct (split_lines input) as [E N].
  destruct (find_line_spec (split_on nl input) i c N) as [line [col [F LA]]]; [now rewrite E| auto|].
  rewrite E in LA. unfold lex_error_message. rewrite F. cbn [rbind].
  destruct LA as [above [below [E1 [N1 [A [B [I1 I2]]]]]]].
  assert (Len : (length line <= length input)%nat) by (rewrite E1, !app_length; lia).
  replace (Z.max 0 (Z.of_nat col - 50)) with (Z.of_nat (col - 50)) by lia.
  replace (Z.min (Z.of_nat (length input)) (Z.of_nat col + 50)) with (Z.of_nat (Nat.min (length input) (col + 50))) by lia.
  eexists. split; [reflexivity|]. unfold slice. rewrite !Nat2Z.id.
  replace (Z.to_nat (Z.of_nat col - Z.of_nat (col - 50))) with (col - (col - 50))%nat by lia.
  set (st := (col - 50)%nat). set (en := Nat.min (length input) (col + 50)).
  exists line, col, (firstn st line), (skipn st (firstn en line)), (skipn en line).
  assert (Hst : (st <= en)%nat) by (unfold st, en; lia).
  assert (Split : line = firstn st line ++ skipn st (firstn en line) ++ skipn en line).
  { rewrite <- (firstn_skipn en line) at 1. rewrite app_assoc. f_equal.
    rewrite <- (firstn_skipn st (firstn en line)) at 1. f_equal. rewrite firstn_firstn. now rewrite Nat.min_l. }
  assert (Lst : length (firstn st line) = st) by (rewrite firstn_length; unfold st; lia).
  repeat split.
  - exists above, below. auto 10.
  - exact Split.
  - exact Lst.
  - destruct (le_lt_dec (length line) en) as [G|G].
    + left. now apply skipn_all2.
    + right. assert (X : length (firstn st line ++ skipn st (firstn en line)) = en).
      { rewrite app_length, Lst, skipn_length, firstn_length. lia. }
      rewrite X. unfold en in *. lia.
  - now rewrite Lst.
  - rewrite Lst, E1, I1. rewrite nth_error_app2 by lia. replace (length above + col - length above)%nat with col by lia.
    rewrite nth_error_app1 by lia. rewrite Split at 2. rewrite nth_error_app2 by (rewrite Lst; unfold st; lia). rewrite Lst.
    rewrite nth_error_app1; auto. rewrite skipn_length, firstn_length. unfold st, en. lia.
Qed.

(** ** Running the lexer *)
Lemma lex_spec : forall input,
  match lex input with
  | LexOk ts => spelled input ts
  | LexValueError m => exists u c s ts, input = u ++ c :: s /\ spelled u ts /\ stuck (rev u, c :: s) /\ points_at input (length u) m
  | LexOther _ => False
  end.
Proof.
  intros input. unfold lex, run_lexer. pose proof (rply_lex_spec (S (length input)) (pstart input)) as H. cbn [snd pstart] in H.
  specialize (H (Nat.lt_succ_diag_r _)). destruct (rply_lex _ _) as [ts|q|]; auto.
  destruct H as [[c [s [E [Sp F]]]] [u [ts [S [R1 R2]]]]]. destruct q as [b r]. cbn in *. subst r b. rewrite app_nil_r in *.
  assert (X : nth_error input (length u) = Some c) by (rewrite R1, nth_error_app2, Nat.sub_diag by lia; reflexivity).
  assert (C : c <> newline) by (intros ->; vm_compute in Sp; discriminate).
  rewrite rev_length. destruct (message_points input (length u) c X C) as [m [-> P]].
  exists u, c, s, ts. repeat split; auto. exists c, s. auto.
Qed.
