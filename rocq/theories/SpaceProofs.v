(** * SpaceProofs: white space between tokens *)
From Verif Require Import Py PyFacts Lexer SpecNotation SpecLexer LexFacts LexProofs MunchProofs.

(** ** Places inside a token *)
Lemma split_pair : forall (a b : ascii) x y l r, x ++ a :: b :: y = l ++ r ->
  (exists z, l = x ++ a :: b :: z) \/ (l = x ++ [a] /\ r = b :: y) \/ (exists x', x = l ++ x' /\ r = x' ++ a :: b :: y).
Proof.
  intros a b x y l. revert x. induction l as [|c l IH]; intros x r E; [right; right; exists x; auto|]. destruct x as [|c' x]; cbn [app] in E; injection E as <- E.
  - destruct l as [|d l]; [right; left; auto|]. cbn [app] in E. injection E as <- E. left. now exists l.
  - destruct (IH x r E) as [[z ->]|[[-> ->]|[x' [-> ->]]]]; [left; now exists z|right; left; auto|right; right; now exists x'].
Qed.
Lemma word_pair : forall a b x y, forallb is_word (x ++ a :: b :: y) = true -> may_meet a b = false.
Proof.
  intros a b x y H. rewrite forallb_app in H. cbn [forallb] in H. apply andb_true_iff in H. destruct H as [_ H]. apply andb_true_iff in H. destruct H as [A H]. apply andb_true_iff in H.
  destruct H as [B _]. unfold may_meet. now rewrite A, B.
Qed.

(** Between two characters of a token that may meet: a bracket is open *)
Definition open_bracket (x : text) : Prop := In "["%char x /\ ~ In "]"%char x.
Definition inner (x : text) (a b : ascii) : Prop := b = "%"%char \/ b = "["%char \/ (x = [] /\ a = "/"%char /\ b = "/"%char) \/ open_bracket (x ++ [a]).

Lemma no_bracket : forall (f : ascii -> bool) w, f "]"%char = false -> forallb f w = true -> ~ In "]"%char w.
Proof. intros f w F H I. rewrite forallb_forall in H. apply H in I. congruence. Qed.

Lemma dice_inner : forall x a b y, dice_form_text (x ++ a :: b :: y) -> may_meet a b = true -> inner x a b.
Proof.
  intros x a b y [n [s [E [Hn Hs]]]] M. rewrite app_assoc in E.
  assert (W : forallb is_word (n ++ $"d") = true) by (rewrite forallb_app, (forallb_weaken _ _ _ digit_word Hn); reflexivity).
  apply split_pair in E. destruct E as [[z E]|[[E1 E2]|[x' [-> E]]]].
  - rewrite E in W. apply word_pair in W. congruence.
  - assert (A : is_word a = true) by (rewrite E1, forallb_app in W; cbn [forallb] in W; rewrite andb_true_r in W; apply andb_true_iff in W; tauto).
    assert (B : is_word b = false) by (apply (meet_word a); [now rewrite A|exact M]).
    destruct (sides_first s [] Hs) as [c [s' [Es Hc]]]. rewrite app_nil_r, E2 in Es. injection Es as <- _. destruct Hc as [H|[->|[->| ->]]].
    + apply digit_word in H. congruence.
    + now left.
    + discriminate.
    + right; now left.
  - destruct Hs as [s [_ D]| | |es tr s C].
    + apply (forallb_weaken _ _ _ digit_word) in D. rewrite E in D. apply word_pair in D. congruence.
    + destruct x' as [|? [|? ?]]; discriminate.
    + destruct x' as [|? [|? ?]]; discriminate.
    + apply custom_form in C. destruct C as [body [-> B]]. right; right; right. split.
      * rewrite <- app_assoc. apply in_or_app. right. destruct x' as [|c x']; cbn in E; injection E as <- _; now left.
      * rewrite <- app_assoc. intros I. apply in_app_or in I. destruct I as [I|I]; [exact (no_bracket _ _ eq_refl W I)|].
        assert (E' : (x' ++ [a]) ++ b :: y = ($"[" ++ body) ++ $"]") by (rewrite <- !app_assoc; exact (eq_sym E)).
        assert (P : exists z, $"[" ++ body = (x' ++ [a]) ++ z).
        { destruct (exists_last (l := b :: y)) as [z [e Ez]]; [discriminate|]. rewrite Ez, app_assoc in E'. apply app_inj_tail in E'. exists z. now rewrite (proj1 E'). }
        destruct P as [z P]. assert (Bb : forallb (fun c => bracket_char c || Ascii.eqb c "[") ($"[" ++ body) = true).
        { cbn [list_ascii_of_string app forallb]. rewrite orb_true_r. cbn [andb]. eapply forallb_weaken; [|exact B]. intros c Hc. now rewrite Hc. }
        rewrite P, forallb_app in Bb. apply andb_true_iff in Bb. refine (no_bracket _ _ _ (proj1 Bb) I). reflexivity.
Qed.

Lemma form_inner : forall n x a b y, token_form n (x ++ a :: b :: y) -> may_meet a b = true -> inner x a b.
Proof.
  intros n x a b y F M.
  assert (C : forall w, forallb is_word w = true -> x ++ a :: b :: y = w -> inner x a b).
  { intros w W <-. apply word_pair in W. congruence. }
  assert (One : forall c, x ++ a :: b :: y = [c] -> inner x a b) by (intros c E; destruct x as [|? [|? ?]]; discriminate).
  assert (Two : forall c, x ++ a :: b :: y = [c; "="%char] -> In c ["="; "!"; "<"; ">"]%char -> inner x a b).
  { intros c E I. exfalso. destruct x as [|? [|? [|? ?]]]; try discriminate. injection E as -> -> _. cbn [In] in I. repeat (destruct I as [<-|I]; [discriminate M|]). destruct I. }
  destruct n; cbn [token_form] in F; try (eapply One; exact F); try (destruct F as [F|F]; (eapply C; [|exact F]); reflexivity); try (eapply C; [|exact F]; reflexivity).
  - destruct F as [d [k [m [E [D [K [_ N]]]]]]]. apply split_pair in E. destruct E as [[z E]|[[E1 E2]|[x' [-> E]]]].
    + subst d. eapply dice_inner; eauto.
    + exfalso. destruct D as [dn [s [-> [_ Hs]]]]. destruct (sides_last s Hs) as [u [a' [-> L]]]. rewrite !app_assoc in E1. apply app_inj_tail in E1. destruct E1 as [_ <-].
      apply (meet_word a' b L) in M. cbn [app] in E2. injection E2 as <- _. destruct K; subst; discriminate.
    + exfalso. assert (W : forallb is_word ([k] ++ m) = true) by (cbn [app forallb]; rewrite (forallb_weaken _ _ _ digit_word N); destruct K; subst; reflexivity).
      rewrite E in W. apply word_pair in W. congruence.
  - eapply dice_inner; eauto.
  - cbn [In] in F. repeat (destruct F as [F|F]; [first [eapply C; [|symmetry; exact F]; reflexivity | eapply One; symmetry; exact F | eapply Two; [symmetry; exact F|cbn; tauto]]|]). destruct F.
  - destruct F as [[sg d] [[N D] E]]. cbn [n_digits] in *. apply (forallb_weaken _ _ _ digit_word) in D as W. unfold numeral_text in E. cbn [n_minus n_digits] in E. destruct sg; [|eapply C; eauto].
    cbn [app list_ascii_of_string] in E. destruct x as [|c x]; cbn [app] in E; injection E as -> E.
    + exfalso. subst d. cbn [forallb] in D. apply andb_true_iff in D. apply meet_minus in M. destruct D; congruence.
    + exfalso. subst d. apply word_pair in W. congruence.
  - destruct x as [|? [|? [|? ?]]]; try discriminate; injection F as -> -> _. right; right; left. auto.
  - destruct F as [_ F]. eapply C; [|reflexivity]. eapply forallb_weaken; [|exact F]. exact lower_word.
Qed.

(** Where the text of a token has a bracket it also closes it *)
Lemma form_closes : forall n w, token_form n w -> In "["%char w -> In "]"%char w.
Proof.
  assert (W : forall w, forallb is_word w = true -> ~ In "["%char w) by (intros w H I; rewrite forallb_forall in H; apply H in I; discriminate).
  assert (D : forall w, dice_form_text w -> In "["%char w -> In "]"%char w).
  { intros w [n [s [-> [Hn Hs]]]] I. rewrite app_assoc in *. apply in_app_or in I. apply in_or_app. destruct I as [I|I].
    - exfalso. apply (W (n ++ $"d")); [|exact I]. rewrite forallb_app, (forallb_weaken _ _ _ digit_word Hn). reflexivity.
    - right. destruct Hs as [s [_ D]| | |es tr s C].
      + exfalso. apply (W s); [now apply (forallb_weaken _ _ _ digit_word)|exact I].
      + destruct I as [I|[]]. discriminate.
      + destruct I as [I|[]]. discriminate.
      + apply custom_form in C. destruct C as [body [-> _]]. apply in_or_app. right. apply in_or_app. right. now left. }
  assert (O : forall w v, w = v -> In "["%char v -> In "["%char w) by (intros; now subst).
  intros n w F I. destruct n; cbn [token_form] in F.
  all: try (subst w; cbn in I; repeat (destruct I as [I|I]; [discriminate|]); destruct I).
  all: try (destruct F; subst w; cbn in I; repeat (destruct I as [I|I]; [discriminate|]); destruct I).
  - destruct F as [d [k [m [-> [Hd [K [_ N]]]]]]]. apply in_app_or in I. apply in_or_app. destruct I as [I|I]; [left; now apply D|]. exfalso. apply (W ([k] ++ m)); [|exact I].
    cbn [app forallb]. rewrite (forallb_weaken _ _ _ digit_word N). destruct K; subst; reflexivity.
  - now apply D.
  - cbn [In] in F. repeat (destruct F as [<-|F]; [cbn in I; repeat (destruct I as [I|I]; [discriminate|]); destruct I|]). destruct F.
  - exfalso. destruct F as [[sg d] [[_ N] ->]]. cbn [n_digits] in N. unfold numeral_text in I. cbn [n_minus n_digits] in I. apply (forallb_weaken _ _ _ digit_word) in N. apply in_app_or in I.
    destruct I as [I|I]; [destruct sg; [destruct I as [I|[]]; discriminate|destruct I]|now apply (W d)].
  - exfalso. destruct F as [_ F]. apply (W w); [|exact I]. eapply forallb_weaken; [|exact F]. exact lower_word.
Qed.
Lemma spelled_closes : forall s ts, spelled s ts -> ~ open_bracket s.
Proof.
  intros s ts H [I N]. apply N. clear N. induction H as [|c s ts C H IH|t s ts F H IH]; [destruct I| |].
  - destruct I as [->|I]; [discriminate|]. right. auto.
  - apply in_app_or in I. apply in_or_app. destruct I as [I|I]; [left; eapply form_closes; eauto|right; auto].
Qed.

(** ** Words *)
Definition plain (w : text) : Prop := forallb name_char w = true \/ In w [$"AND"; $"OR"; $"True"; $"False"; $"MAX"; $"MIN"; $"ABS"; $"VAR"].
Lemma plain_word : forall w, plain w -> forallb is_word w = true.
Proof.
  intros w [H|H]; [eapply forallb_weaken; [|exact H]; exact lower_word|]. cbn [In] in H. repeat (destruct H as [<-|H]; [reflexivity|]). destruct H.
Qed.

Lemma token_free : forall n p w v, token_at n p w v -> (plain w \/ length w = 1%nat) \/ forall q v', token_at n q w v'.
Proof.
  intros n p w v [F _]. unfold plain. destruct n; cbn [token_form] in F; try (right; intros q v'; split; [exact F|exact I]).
  - left. subst. now right.
  - cbn [In] in F. do 6 (destruct F as [<-|F]; [right; intros q v'; split; [cbn; tauto|intros [X|X]; discriminate]|]).
    left. left. right. cbn. tauto.
  - left. left. right. cbn. intuition auto.
  - left. left. right. cbn. intuition auto.
  - left. left. right. cbn. intuition auto.
  - left. subst. now right.
  - left. left. right. cbn. intuition auto.
  - left. left. left. tauto.
Qed.

Lemma space_not_word : forall c, is_space c = true -> is_word c = false /\ c <> "="%char.
Proof. intros c H. destruct c as [[] [] [] [] [] [] [] []]; vm_compute in H; try discriminate; (split; [reflexivity|discriminate]). Qed.
Lemma token_before_space : forall n p w v c v', token_at n p w v -> is_space c = true -> token_at n p w (c :: v').
Proof.
  intros n p w v c v' [F T] C. apply space_not_word in C. destruct C as [C1 C2]. split; [exact F|]. unfold word_apart, not_before in *. cbn [hd_error].
  destruct n; auto; try tauto; try congruence. split; [tauto|congruence].
Qed.
Lemma token_after_space : forall n p w v c, token_at n p w v -> is_space c = true -> token_at n (Some c) w v.
Proof.
  intros n p w v c [F T] C. apply space_not_word in C. destruct C as [C1 C2]. split; [exact F|]. unfold word_apart, not_before in *.
  destruct n; auto; try tauto; try congruence. split; [congruence|tauto].
Qed.
Lemma token_at_hd : forall n p w v v', token_at n p w v -> hd_error v = hd_error v' -> token_at n p w v'.
Proof.
  intros n p w v v' [F T] E. split; [exact F|].
  assert (W : word_apart p v -> word_apart p v') by (unfold word_apart; destruct v, v'; cbn [hd_error] in E; try discriminate; [auto|injection E as ->; auto]).
  unfold not_before in *. rewrite E in T. destruct n; auto.
Qed.

Lemma word_prefix : forall n p w u z, token_at n p w (u ++ z) -> u <> [] -> plain (w ++ u) -> False.
Proof.
  intros n p w u z [F T] N P. pose proof (plain_word _ P) as W. rewrite forallb_app in W. apply andb_true_iff in W. destruct W as [Ww Wu].
  destruct u as [|y u]; [congruence|]. cbn [forallb] in Wu. apply andb_true_iff in Wu. destruct Wu as [Wy _].
  assert (A : ~ word_apart p ((y :: u) ++ z)) by (unfold word_apart; cbn [app]; intros [_ A]; congruence).
  assert (D : forall d x, dice_form_text d -> w = d ++ x -> False).
  { intros d x Hd ->. destruct P as [P|P].
    - assert (X := name_before d (x ++ y :: u) (d ++ x ++ y :: u) [] Hd). rewrite <- app_assoc in P. specialize (X P). rewrite app_nil_r in X. specialize (X eq_refl).
      rewrite app_length in X. lia.
    - assert (S0 : d <> []) by (intros ->; destruct Hd as [[|? ?] [? [E _]]]; discriminate). destruct d as [|c d]; [congruence|]. apply dice_start in Hd. cbn [In] in P.
      repeat (destruct P as [P|P]; [cbn [app list_ascii_of_string] in P; injection P as <- _; discriminate Hd|]). destruct P. }
  destruct n; cbn [token_form] in F; try (subst w; discriminate Ww); try (now apply A).
  - destruct F as [d [k [m [-> [Hd _]]]]]. now apply (D d ([k] ++ m)).
  - apply (D w [] F). now rewrite app_nil_r.
  - cbn [In] in F. do 6 (destruct F as [<-|F]; [discriminate Ww|]). apply A, T. intuition auto.
  - destruct F as [[sg d] [[Nd Dd] ->]]. cbn [n_digits] in *. unfold numeral_text in *. cbn [n_minus n_digits] in *. destruct sg; [discriminate Ww|]. cbn [app] in *. destruct d as [|c d]; [congruence|].
    cbn [forallb] in Dd. apply andb_true_iff in Dd. destruct Dd as [Dc _]. destruct P as [P|P].
    + cbn [app forallb] in P. apply andb_true_iff in P. destruct P as [P _]. destruct c as [[] [] [] [] [] [] [] []]; vm_compute in P, Dc; discriminate.
    + cbn [In] in P. repeat (destruct P as [P|P]; [cbn [app list_ascii_of_string] in P; injection P as <- _; discriminate Dc|]). destruct P.
Qed.

(** ** Tokens and what surrounds them *)
Definition longest (p : option ascii) (w s : text) : Prop := forall n w' v', s = w' ++ v' -> token_at n p w' v' -> (length w' <= length w)%nat.

Lemma split_longer : forall (w s w' v' : text), w ++ s = w' ++ v' -> (length w < length w')%nat -> exists u, u <> [] /\ w' = w ++ u /\ s = u ++ v'.
Proof.
  induction w as [|c w IH]; intros s w' v' E L.
  - exists w'. destruct w'; [cbn in L; lia|]. repeat split; [discriminate|exact E].
  - destruct w' as [|c' w']; cbn [length] in L; [lia|]. cbn [app] in E. injection E as <- E. destruct (IH s w' v' E) as [u [N [-> ->]]]; [lia|]. exists u. auto.
Qed.
Lemma last_of_nonempty : forall w p q, w <> [] -> last_of p w = last_of q w.
Proof. intros [|c w] p q N; [congruence|reflexivity]. Qed.

Lemma munched_token : forall p t v ts, munched p (tk_text t ++ v) (t :: ts) [] -> token_form (tk_name t) (tk_text t) ->
  token_at (tk_name t) p (tk_text t) v /\ longest p (tk_text t) (tk_text t ++ v) /\ munched (last_of p (tk_text t)) v ts [].
Proof.
  intros p t v ts M F. remember (tk_text t ++ v) as s eqn:E. remember (t :: ts) as l eqn:El. remember [] as r eqn:Er.
  destruct M as [p s|p c s ts' rest C M|p t' v' ts' rest T Lo M]; [discriminate| |].
  - exfalso. pose proof (form_nonempty _ _ F) as N. destruct (tk_text t) as [|x w]; [congruence|]. cbn [app] in E. injection E as <- _. apply form_start in F. apply start_class in F.
    destruct F; congruence.
  - injection El as <- <-. apply app_inv_head in E. subst v' rest. auto.
Qed.
Lemma munched_start : forall p c s ts, munched p (c :: s) ts [] -> c <> "%"%char /\ c <> "["%char.
Proof.
  intros p c s ts M. remember (c :: s) as x eqn:E. remember [] as r eqn:Er. destruct M as [p s'|p c' s' ts rest C M|p t v ts rest T Lo M]; subst; [discriminate| |].
  - injection E as -> _. split; intros ->; discriminate.
  - pose proof (form_nonempty _ _ (proj1 T)) as N. destruct T as [F _]. destruct (tk_text t) as [|y w]; [congruence|]. cbn [app] in E. injection E as -> _. apply form_start in F. now apply start_class in F.
Qed.

Lemma munched_context : forall p c v ts, munched p v ts [] -> is_space c = true -> munched (Some c) v ts [].
Proof.
  intros p c v ts M C. remember [] as r eqn:Er. destruct M as [p s|p c' s ts rest C' M|p t v ts rest T Lo M]; subst; [apply mu_stop|now apply mu_space|]. apply mu_token.
  - eapply token_after_space; eauto.
  - intros n w' v' E T'. destruct (le_lt_dec (length w') (length (tk_text t))) as [L|L]; [exact L|]. destruct (split_longer _ _ _ _ E L) as [u [N [-> ->]]].
    destruct (token_free _ _ _ _ T') as [[P|O]|Fr].
    + exfalso. eapply word_prefix; eauto.
    + exfalso. pose proof (form_nonempty _ _ (proj1 T)) as Nt. rewrite app_length in O. destruct (tk_text t), u; cbn [length] in O; congruence || lia.
    + exfalso. specialize (Lo n (tk_text t ++ u) v' E (Fr p v')). lia.
  - rewrite (last_of_nonempty _ (Some c) p) by (eapply form_nonempty; exact (proj1 T)). exact M.
Qed.

(** ** Inserting white space *)
Lemma insert_space : forall u ts1, spelled u ts1 -> forall c p v ts2, is_space c = true -> munched p (u ++ v) (ts1 ++ ts2) [] -> munched p (u ++ c :: v) (ts1 ++ ts2) [].
Proof.
  intros u ts1 H. induction H as [|d s ts D H IH|t s ts F H IH]; intros c p v ts2 C M.
  - cbn [app] in *. apply mu_space; [exact C|]. eapply munched_context; eauto.
  - cbn [app] in *. apply mu_space; [exact D|]. apply IH; [exact C|]. eapply munched_space; eauto.
  - rewrite <- app_assoc in *. cbn [app] in *. destruct (munched_token _ _ _ _ M F) as [T [Lo M']]. apply mu_token.
    + destruct s as [|x s]; [eapply token_before_space; eauto|]. eapply token_at_hd; [exact T|reflexivity].
    + intros n w' v' E T'. destruct (le_lt_dec (length w') (length (tk_text t))) as [L|L]; [exact L|]. destruct (split_longer _ _ _ _ E L) as [x [N [-> Ex]]]. exfalso.
      pose proof (form_nonempty _ _ F) as Nt.
      destruct (Nat.lt_total (length x) (length s)) as [Ls|[Ls|Ls]].
      * symmetry in Ex. destruct (split_longer _ _ _ _ Ex Ls) as [y [Ny [-> ->]]]. rewrite <- app_assoc in Lo.
        assert (X : token_at n p (tk_text t ++ x) (y ++ v)) by (eapply token_at_hd; [exact T'|]; destruct y; [congruence|reflexivity]).
        pose proof (Lo n (tk_text t ++ x) (y ++ v) (app_assoc _ _ _) X). lia.
      * destruct (same_prefix s (c :: v) x v' Ex (eq_sym Ls)) as [-> <-]. destruct (token_free _ _ _ _ T') as [[P|O]|Fr].
        -- eapply word_prefix; eauto.
        -- rewrite app_length in O. destruct (tk_text t), x; cbn [length] in O; congruence || lia.
        -- pose proof (Lo n (tk_text t ++ x) v (app_assoc _ _ _) (Fr p v)). lia.
      * destruct (split_longer _ _ _ _ Ex Ls) as [y [Ny [-> Ey]]]. destruct y as [|b y]; [congruence|]. cbn [app] in Ey. injection Ey as <- ->.
        assert (Q : exists z a, tk_text t ++ s = z ++ [a]).
        { destruct (exists_last (l := tk_text t ++ s)) as [z [a Z]]; [destruct (tk_text t); [congruence|discriminate]|eauto]. }
        destruct Q as [z [a Q]]. destruct T' as [F' _]. rewrite app_assoc, Q, <- app_assoc in F'. cbn [app] in F'. apply form_inner in F'; [|now apply space_meets].
        destruct F' as [->|[->|[[_ [_ ->]]|O]]]; try discriminate. rewrite <- Q in O. revert O. apply (spelled_closes _ (t :: ts)). now apply sp_token.
    + apply IH; [exact C|exact M'].
Qed.
Lemma insert_spaces : forall sp u v ts1 ts2, spelled u ts1 -> blank sp -> lex (u ++ v) = LexOk (ts1 ++ ts2) -> lex (u ++ sp ++ v) = LexOk (ts1 ++ ts2).
Proof.
  intros sp u v ts1 ts2 H B L. apply maximal_munch. apply maximal_munch in L. induction sp as [|c sp IH]; [exact L|]. unfold blank in B. cbn [forallb] in B. apply andb_true_iff in B.
  destruct B as [C B]. cbn [app]. apply insert_space; auto.
Qed.

(** ** Leaving out white space *)
Lemma remove_context : forall p c v ts, munched (Some c) v ts [] -> may_follow p v -> is_space c = true -> munched p v ts [].
Proof.
  intros p c v ts M Fo C. remember [] as r eqn:Er. remember (Some c) as q eqn:Eq. destruct M as [q s|q c' s ts rest C' M|q t v ts rest T Lo M]; subst; [apply mu_stop|now apply mu_space|]. 
  pose proof (form_nonempty _ _ (proj1 T)) as N. apply mu_token.
  - destruct T as [F T]. split; [exact F|]. destruct p as [a|]; [|unfold word_apart in *; destruct (tk_name t); auto; try tauto; split; [discriminate|tauto]].
    destruct (tk_text t) as [|b w] eqn:Et; [congruence|]. cbn [app may_follow] in Fo.
    assert (A : is_word b = true -> word_apart (Some c) v -> word_apart (Some a) v).
    { intros Wb [_ X]. split; [|exact X]. destruct (is_word a) eqn:Wa; [|reflexivity]. assert (is_word b = false) by (apply (meet_word a); [now rewrite Wa|exact Fo]). congruence. }
    destruct (tk_name t) eqn:En; cbn [token_form] in F; auto.
    + intros X. apply A; [|now apply T]. destruct X as [X|X]; injection X as -> _; reflexivity.
    + apply A; [|exact T]. destruct F as [F|F]; injection F as -> _; reflexivity.
    + apply A; [|exact T]. destruct F as [F|F]; injection F as -> _; reflexivity.
    + apply A; [|exact T]. injection F as -> _; reflexivity.
    + split; [|tauto]. injection F as -> _. intros X. injection X as ->. discriminate Fo.
    + apply A; [|exact T]. injection F as -> _; reflexivity.
    + apply A; [|exact T]. destruct F as [_ F]. cbn [forallb] in F. apply andb_true_iff in F. now apply lower_word.
  - intros n w' v' E T'. apply (Lo n w' v' E). eapply token_after_space; eauto.
  - rewrite (last_of_nonempty _ p (Some c)) by exact N. exact M.
Qed.

Lemma end_follows : forall n p w c x v, token_at n p w (c :: x) -> is_space c = true -> may_follow (last_of p w) v -> token_at n p w v.
Proof.
  intros n p w c x v [F T] C Fo. split; [exact F|]. destruct v as [|b v].
  { unfold word_apart, not_before in *. cbn [hd_error]. destruct n; auto; try tauto; try discriminate. split; [tauto|discriminate]. }
  assert (W : forall u a, w = u ++ [a] -> may_meet a b = true) by (intros u a ->; now rewrite last_of_end in Fo).
  assert (A : forall u a, w = u ++ [a] -> is_word a = true -> word_apart p (c :: x) -> word_apart p (b :: v)).
  { intros u a E Wa [X _]. split; [exact X|]. apply (meet_word a); [now rewrite Wa|eauto]. }
  assert (Q : forall u a, w = u ++ [a] -> Ascii.eqb a "=" || Ascii.eqb a "!" || Ascii.eqb a "<" || Ascii.eqb a ">" = true -> not_before "=" (b :: v)).
  { intros u a E Wa X. injection X as ->. apply W in E. apply (meet_equals _ _ Wa) in E. discriminate. }
  destruct n; cbn [token_form] in F; auto.
  - now apply (Q [] "!"%char).
  - intros X. specialize (T X). destruct X as [->| ->]; [now apply (A $"AN" "D"%char)|now apply (A $"O" "R"%char)].
  - destruct F as [->| ->]; [now apply (A $"Tru" "e"%char)|now apply (A $"Fals" "e"%char)].
  - destruct F as [->| ->]; [now apply (A $"MA" "X"%char)|now apply (A $"MI" "N"%char)].
  - subst w. now apply (A $"AB" "S"%char).
  - split; [tauto|]. now apply (Q [] "="%char).
  - subst w. now apply (A $"VA" "R"%char).
  - destruct F as [N F]. destruct (exists_last N) as [u [a ->]]. apply (A u a); auto. rewrite forallb_app in F. cbn [forallb] in F. rewrite andb_true_r in F. apply andb_true_iff in F. now apply lower_word.
Qed.

Lemma munched_drop : forall u ts1, spelled u ts1 -> forall p s ts2, munched p (u ++ s) (ts1 ++ ts2) [] -> exists q, munched q s ts2 [].
Proof.
  intros u ts1 H. induction H as [|d s ts D H IH|t s ts F H IH]; intros p x ts2 M; [eauto| |].
  - cbn [app] in M. apply munched_space in M; [|exact D]. eauto.
  - rewrite <- app_assoc in M. cbn [app] in M. destruct (munched_token _ _ _ _ M F) as [_ [_ M']]. eauto.
Qed.

Lemma remove_space : forall u ts1, spelled u ts1 -> forall c p v ts2, is_space c = true -> may_follow (last_of p u) v -> munched p (u ++ c :: v) (ts1 ++ ts2) [] ->
  munched p (u ++ v) (ts1 ++ ts2) [].
Proof.
  intros u ts1 H. induction H as [|d s ts D H IH|t s ts F H IH]; intros c p v ts2 C Fo M.
  - cbn [app last_of] in *. apply munched_space in M; [|exact C]. eapply remove_context; eauto.
  - cbn [app last_of] in *. apply mu_space; [exact D|]. eapply IH; eauto. eapply munched_space; eauto.
  - rewrite <- app_assoc in *. cbn [app] in *. rewrite last_of_app in Fo. destruct (munched_token _ _ _ _ M F) as [T [Lo M']]. apply mu_token.
    + destruct s as [|x s]; [cbn [app last_of] in *; eapply end_follows; eauto|]. eapply token_at_hd; [exact T|reflexivity].
    + intros n w' v' E T'. destruct (le_lt_dec (length w') (length (tk_text t))) as [L|L]; [exact L|]. destruct (split_longer _ _ _ _ E L) as [x [N [-> Ex]]]. exfalso.
      pose proof (form_nonempty _ _ F) as Nt.
      destruct (Nat.lt_total (length x) (length s)) as [Ls|[Ls|Ls]].
      * symmetry in Ex. destruct (split_longer _ _ _ _ Ex Ls) as [y [Ny [-> ->]]]. rewrite <- app_assoc in Lo.
        assert (X : token_at n p (tk_text t ++ x) (y ++ c :: v)) by (eapply token_at_hd; [exact T'|]; destruct y; [congruence|reflexivity]).
        pose proof (Lo n (tk_text t ++ x) (y ++ c :: v) (app_assoc _ _ _) X). lia.
      * destruct (same_prefix s v x v' Ex (eq_sym Ls)) as [-> <-].
        pose proof (Lo n (tk_text t ++ x) (c :: v) (app_assoc _ _ _) (token_before_space _ _ _ _ _ _ T' C)). lia.
      * destruct (split_longer _ _ _ _ Ex Ls) as [y [Ny [-> ->]]]. destruct y as [|b y]; [congruence|].
        destruct (munched_drop _ _ H _ _ _ M') as [q Mv]. apply munched_space in Mv; [|exact C]. apply munched_start in Mv.
        assert (Q : exists z a, tk_text t ++ s = z ++ [a]).
        { destruct (exists_last (l := tk_text t ++ s)) as [z [a Z]]; [destruct (tk_text t); [congruence|discriminate]|eauto]. }
        destruct Q as [z [a Q]]. rewrite <- last_of_app, Q, last_of_end in Fo. cbn [app may_follow] in Fo.
        destruct T' as [F' _]. rewrite app_assoc, Q, <- app_assoc in F'. cbn [app] in F'. apply form_inner in F'; [|exact Fo].
        destruct F' as [->|[->|[[-> [-> ->]]|O]]]; [tauto|tauto| |].
        -- destruct (tk_text t) as [|x1 w1]; [congruence|]. cbn [app] in Q. injection Q as -> Q. destruct w1; [|discriminate]. pose proof (form_start _ _ _ F) as S0.
           destruct (tk_name t); try discriminate S0; discriminate F.
        -- rewrite <- Q in O. revert O. apply (spelled_closes _ (t :: ts)). now apply sp_token.
    + eapply IH; eauto.
Qed.
Lemma remove_spaces : forall sp u v ts1 ts2, spelled u ts1 -> blank sp -> may_follow (last_of None u) v -> lex (u ++ sp ++ v) = LexOk (ts1 ++ ts2) -> lex (u ++ v) = LexOk (ts1 ++ ts2).
Proof.
  intros sp u v ts1 ts2 H B Fo L. apply maximal_munch. apply maximal_munch in L. destruct (list_eq_dec Ascii.ascii_dec sp []) as [->|Ns]; [exact L|]. revert v Fo L.
  induction sp as [|c sp IH]; intros v Fo L; [congruence|]. unfold blank in B. cbn [forallb] in B. apply andb_true_iff in B. destruct B as [C B].
  destruct sp as [|d sp]; [now apply (remove_space u ts1 H c)|]. apply IH; [exact B|discriminate|exact Fo|].
  apply (remove_space u ts1 H c); [exact C| |exact L]. cbn [app may_follow]. unfold blank in B. cbn [forallb] in B. apply andb_true_iff in B. destruct (last_of None u); [|exact I].
  now apply space_meets.
Qed.
