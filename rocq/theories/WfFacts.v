(** * WfFacts: what the parser returns is well formed, and every operation keeps the state's invariant *)
From Verif Require Import Py PyFacts PyFloat Regex RegexFacts Constraint ConstraintFacts Distribution DistFacts SpecDice SpecNotation DiceFacts DiceModel
  DropKeepFacts NotationFacts DiceProofs Expr TagFacts SpecProgram ExprFacts StateFacts Lexer SpecLexer LexFacts Parser SpecGrammar ParserFacts Interp.

(** ** Dice tokens *)
Lemma int_raise : forall t x, int_of_text t = Raise x -> x = ValueError.
Proof.
  intros t x H. unfold int_of_text in H.
  repeat match type of H with
         | match ?y with _ => _ end = _ => destruct y; try congruence
         end.
Qed.

Lemma rbind_raise : forall A B (r : res A) (f : A -> res B) x, rbind r f = Raise x -> r = Raise x \/ exists a, r = Ok a /\ f a = Raise x.
Proof. intros A B [a|e] f x H; cbn in H; [right; eauto | left; congruence]. Qed.

Lemma rmap_raise : forall A B (r : res A) (f : A -> B) x, rmap f r = Raise x -> r = Raise x.
Proof. intros A B [a|e] f x H; cbn in H; congruence. Qed.

Lemma split_length : forall (p : ascii -> bool) s, length (split_on p s) = S (length (filter p s)).
Proof.
  intros p. induction s as [|c s IH]; auto. cbn [split_on filter]. destruct (p c); cbn [length]; [now rewrite IH|].
  pose proof (split_on_nonnil p s) as N. destruct (split_on p s); [congruence|]. exact IH.
Qed.

Lemma find_range_raise : forall v x, re_test re_range v = true -> find_range v = Raise x -> x = ValueError.
Proof.
  intros v x T H. unfold find_range in H. apply rbind_raise in H.
  assert (D : (2 <= length (split_on (is_ch "-") v))%nat).
  { rewrite split_length. assert (In "-"%char v).
    { apply re_test_leaves in T; [|reflexivity]. destruct T as [s' T]. unfold re_range in T. cbn [rseq leaves] in T.
      destruct T as [m1 [H1 [m2 [H2 [m3 [H3 _]]]]]].
      apply (leaves_ch "-" m2 m3) in H3. subst m2.
      assert (S1 : exists u, v = u ++ m1) by (eapply (leaves_suffix (ropt (rch "-"))); exact H1).
      assert (S2 : exists u, m1 = u ++ "-"%char :: m3) by (eapply (leaves_suffix (rplus rdigit)); exact H2).
      destruct S1 as [u1 ->], S2 as [u2 ->]. rewrite !in_app_iff. simpl. auto. }
    assert (E : In "-"%char (filter (is_ch "-") v)) by (apply filter_In; split; auto).
    destruct (filter (is_ch "-") v); [destruct E | simpl; lia]. }
  assert (I : forall (i : nat) y, (i < 2)%nat -> index (split_on (is_ch "-") v) i <> Raise y).
  { intros i y Hi. unfold index. destruct (nth_error (split_on (is_ch "-") v) i) eqn:E; [discriminate|].
    apply nth_error_None in E. lia. }
  destruct H as [H|[a [_ H]]].
  - destruct (re_test re_start_positive v); apply rbind_raise in H; destruct H as [H|[a [_ H]]];
      try (exfalso; revert H; apply I; lia); [|apply rmap_raise in H]; now apply int_raise in H.
  - apply rbind_raise in H. destruct H as [H|[b [_ H]]]; [|discriminate].
    destruct (re_test re_end_negative v); [apply rmap_raise in H|]; now apply int_raise in H.
Qed.

Lemma add_entry_raise : forall d v x, add_entry d v = Raise x -> x = ValueError.
Proof.
  intros d v x H. unfold add_entry in H. apply rbind_raise in H. destruct H as [H|[[v' m] [_ H]]].
  - destruct (re_test re_multiplied v); [|discriminate].
    destruct (split_on (is_ch "*") v) as [|? [|? [|? ?]]]; congruence.
  - apply rbind_raise in H. destruct H as [H|[ks [_ H]]].
    + destruct (re_test re_range v') eqn:T; [now apply find_range_raise in H|]. apply rmap_raise in H. now apply int_raise in H.
    + destruct ks; [discriminate|]. apply rbind_raise in H. destruct H as [H|[a [_ H]]]; [now apply int_raise in H | discriminate].
Qed.

Lemma add_entries_raise : forall vs d x, add_entries d vs = Raise x -> x = ValueError.
Proof.
  induction vs as [|v vs IH]; intros d x H; cbn [add_entries] in H; [discriminate|].
  apply rbind_raise in H. destruct H as [H|[a [_ H]]]; [now apply add_entry_raise in H | eauto].
Qed.

Lemma single_map_raise : forall s x, get_single_dice_outcome_map s = Raise x -> x = ValueError.
Proof.
  intros s x H. unfold get_single_dice_outcome_map in H. destruct (re_test re_starts_digit s).
  - apply rmap_raise in H. now apply int_raise in H.
  - destruct (text_eqb s $"%"); [discriminate|]. destruct (text_eqb s $"F"); [discriminate|]. now apply add_entries_raise in H.
Qed.

Lemma sides_chars : forall s c, sides_form s -> In c s -> c <> "d"%char /\ c <> "k"%char.
Proof.
  intros s c H I. assert (D : forall x, is_digit x = true -> x <> "d"%char /\ x <> "k"%char).
  { intros x Hx. split; intros ->; vm_compute in Hx; discriminate. }
  destruct H as [s [_ H]| | |es tr s H].
  - rewrite forallb_forall in H. apply D. auto.
  - destruct I as [<-|[]]. split; discriminate.
  - destruct I as [<-|[]]. split; discriminate.
  - apply custom_form in H. destruct H as [body [-> H]]. unfold in_bracket in H.
    cbn [app list_ascii_of_string] in I. destruct I as [<-|I]; [split; discriminate|]. apply in_app_or in I. destruct I as [I|[<-|[]]]; [|split; discriminate].
    rewrite forallb_forall in H. apply H in I. split; intros ->; vm_compute in I; discriminate.
Qed.

Lemma digits_free : forall (p : ascii -> bool) n, (forall c, is_digit c = true -> p c = false) -> forallb is_digit n = true -> split_on p n = [n].
Proof.
  intros p n P H. apply split_on_none. rewrite forallb_forall in *. intros c Hc. rewrite P; auto.
Qed.

Lemma is_ch_eq : forall a c, is_ch a c = true <-> a = c.
Proof. intros. apply Ascii.eqb_eq. Qed.

Lemma dice_split : forall n s, forallb is_digit n = true -> sides_form s -> split_on (is_ch "d") (n ++ $"d" ++ s) = [n; s].
Proof.
  intros n s Hn Hs. cbn [app list_ascii_of_string]. rewrite split_on_app_gen by reflexivity.
  rewrite (digits_free _ n); auto.
  - rewrite (split_on_none _ s); [reflexivity|]. rewrite forallb_forall. intros c Hc. apply negb_true_iff. apply Ascii.eqb_neq.
    intros <-. apply (sides_chars s) in Hc; auto. tauto.
  - intros c Hc. apply Ascii.eqb_neq. intros <-. vm_compute in Hc. discriminate.
Qed.

Lemma is_dk_free : forall c, c <> "d"%char -> c <> "k"%char -> is_dk c = false.
Proof.
  intros c H1 H2. unfold is_dk. apply orb_false_iff. split; apply Ascii.eqb_neq; congruence.
Qed.

Lemma digit_not_dk : forall c, is_digit c = true -> is_dk c = false.
Proof. intros c H. apply is_dk_free; intros ->; vm_compute in H; discriminate. Qed.

Lemma dropkeep_split : forall n s k m, forallb is_digit n = true -> sides_form s -> (k = "k"%char \/ k = "d"%char) -> is_digits m ->
  split_on is_dk ((n ++ $"d" ++ s) ++ [k] ++ m) = [n; s; m].
Proof.
  intros n s k m Hn Hs Hk [_ Hm].
  replace ((n ++ $"d" ++ s) ++ [k] ++ m) with (n ++ "d"%char :: s ++ k :: m) by (rewrite <- app_assoc; reflexivity).
  rewrite split_on_app_gen by reflexivity. rewrite split_on_app_gen by (destruct Hk; subst; reflexivity).
  rewrite (digits_free _ n), (digits_free _ m); auto using digit_not_dk.
  rewrite (split_on_none _ s); [reflexivity|]. rewrite forallb_forall. intros c Hc. apply (sides_chars s) in Hc; auto.
  apply negb_true_iff, is_dk_free; tauto.
Qed.

Lemma count_digits : forall n rest, forallb is_digit n = true -> exists k, number_of_dice (n :: rest) = Ok k /\ 0 <= k.
Proof.
  intros n rest H. unfold number_of_dice. cbn [index nth_error rbind]. destruct n as [|c n]; [exists 1; split; [reflexivity|lia]|].
  destruct (int_of_is_digits (c :: n)) as [E P]; [split; [discriminate|auto]|]. rewrite E. eauto.
Qed.

Lemma dice_token : forall w, dice_form_text w ->
  (exists d, mk_dice w = Ok d /\ 0 <= dice_num d) \/ mk_dice w = Raise ValueError.
Proof.
  intros w [n [s [-> [Hn Hs]]]]. unfold mk_dice. rewrite dice_split by auto. cbn [index nth_error rbind].
  destruct (get_single_dice_outcome_map s) as [m|x] eqn:E; cbn [rbind]; [|apply single_map_raise in E; subst; auto].
  destruct (count_digits n [s] Hn) as [k [-> P]]. cbn [rbind]. left. eexists. split; [reflexivity|]. exact P.
Qed.

Lemma dropkeep_token : forall w, token_form T_DROP_KEEP_DICE w ->
  (exists dk, mk_dropkeep w = Ok dk /\ 0 <= dk_num dk /\ 0 <= dk_k dk) \/ mk_dropkeep w = Raise ValueError.
Proof.
  intros w [d [k [m [-> [[n [s [-> [Hn Hs]]]] [Hk Hm]]]]]]. unfold mk_dropkeep. rewrite dropkeep_split by auto.
  destruct (count_digits n [s; m] Hn) as [j [Ej P]]. rewrite Ej. cbn [index nth_error rbind].
  destruct (get_single_dice_outcome_map s) as [mp|x] eqn:E; cbn [rbind]; [|apply single_map_raise in E; subst; auto].
  destruct (int_of_is_digits m Hm) as [Em Pm]. rewrite Em. cbn [rbind].
  assert (M : exists d, mk_dice (text_of_Z j ++ $"d" ++ s) = Ok d).
  { unfold mk_dice. rewrite dice_split; auto.
    - cbn [index nth_error rbind]. rewrite E. cbn [rbind].
      destruct (count_digits (text_of_Z j) [s]) as [k' [-> _]]; [|cbn [rbind]; eauto].
      apply text_of_Z_nonneg_digits in P. destruct (text_of_Z j); auto.
    - apply text_of_Z_nonneg_digits in P. destruct (text_of_Z j); auto. }
  destruct M as [dd ->]. cbn [rmap rbind]. left.
  destruct (existsb (is_ch "k") _); destruct (j <=? decimal m); try destruct (decimal m =? 0); cbn [rbind]; eexists; (split; [reflexivity|]); cbn; auto.
Qed.

(** ** Expressions of token sequences *)
Definition good_token (t : token) : Prop := token_form (tk_name t) (tk_text t).

Lemma spelled_good : forall s ts, spelled s ts -> Forall good_token ts.
Proof. induction 1; auto. Qed.

Lemma op_meaning_form : forall w, token_form T_BINARY_OPERATOR w -> operator_meaning w <> None.
Proof.
  intros w H. cbn [token_form] in H. simpl in H.
  repeat (destruct H as [<-|H]; [discriminate|]). destruct H.
Qed.

Lemma name_comma : forall w, token_form T_NAME w -> ~ In ","%char w.
Proof. intros w [_ H] I. rewrite forallb_forall in H. apply H in I. vm_compute in I. discriminate. Qed.

Lemma derives_wf : forall e ts, derives e ts -> Forall good_token ts -> well_formed e.
Proof.
  induction 1; intros G; cbn [well_formed];
    repeat match goal with
           | G : Forall _ (_ :: _) |- _ => inversion G; subst; clear G
           | G : Forall _ (_ ++ _) |- _ => apply Forall_app in G; destruct G
           end;
    repeat match goal with
           | N : named _ ?t, G : good_token ?t |- _ => unfold good_token in G; rewrite N in G; clear N
           end; auto.
  - destruct (dropkeep_token (tk_text t)) as [[dk [E P]]|E]; auto; rewrite E in *; [|discriminate].
    match goal with H : Ok _ = Ok _ |- _ => apply Ok_inj in H; subst end. split; eauto.
  - destruct (dice_token (tk_text t)) as [[dk [E P]]|E]; auto; rewrite E in *; [|discriminate].
    match goal with H : Ok _ = Ok _ |- _ => apply Ok_inj in H; subst end. split; eauto.
  - match goal with H : token_form _ _ |- _ => destruct H as [n [On ->]] end. exists (numeral_value n). now apply numeral_int.
  - split; auto using op_meaning_form.
  - split; auto. match goal with H : token_form T_MINMAX _ |- _ => destruct H as [-> | ->] end; discriminate.
  - split; auto using name_comma.
Qed.

(** ** The parser on text *)
Lemma parse_ok : forall t e, parse t = Ok e <-> exists ts, lex t = LexOk ts /\ derives e ts /\ well_grouped e.
Proof.
  intros t e. unfold parse. split.
  - destruct (lex t) as [ts| |]; try discriminate. destruct (parse_tokens ts) as [e'| |] eqn:P; try discriminate.
    intros H. apply Ok_inj in H. subst e'. exists ts. split; auto. now apply parsed_iff.
  - intros [ts [-> D]]. apply parsed_iff in D. now rewrite D.
Qed.

Lemma lexed_good : forall t ts, lex t = LexOk ts -> Forall good_token ts.
Proof. intros t ts H. pose proof (lex_spec t) as S. rewrite H in S. now apply spelled_good in S. Qed.

Lemma parse_wf : forall t e, parse t = Ok e -> well_formed e.
Proof.
  intros t e H. apply parse_ok in H. destruct H as [ts [L [D _]]]. apply lexed_good in L. eapply derives_wf; eauto.
Qed.

Lemma parse_raise : forall t x, parse t = Raise x -> x = ValueError.
Proof.
  intros t x H. unfold parse in H. pose proof (lex_spec t) as S. destruct (lex t) as [ts|m|e]; [|congruence|destruct S].
  apply spelled_good in S. pose proof (parse_sound ts) as P. destruct (parse_tokens ts) as [e|at_t|y]; try congruence.
  cbn in P. assert (x = y) by congruence. subst y. destruct P as [t' [I [[N M]|[N M]]]]; rewrite Forall_forall in S; apply S in I; unfold good_token in I; rewrite N in I.
  - destruct (dice_token _ I) as [[d [E _]]|E]; congruence.
  - destruct (dropkeep_token _ I) as [[d [E _]]|E]; congruence.
Qed.

(** ** Invariants *)
Section State.
  Context (R : Runtime).
  Notation state := (state R).

  Lemma pool_plain : forall form dk, mk_dropkeep form = Ok dk -> 0 <= dk_num dk -> 0 <= dk_k dk ->
    exists d, forall s, dist_of R (EDropKeep dk) s = (s, Ok d) /\ dinv R d /\ plain R d.
  Proof.
    intros form dk M N K. destruct (Z.le_gt_cases 1 (dk_num dk)) as [G|G].
    - destruct (pool_cases R form dk (empty_state R) M G K) as [d [E [D [P _]]]]. exists d. intros s.
      destruct (pool_cases R form dk s M G K) as [d' [E' [D' [P' _]]]].
      cbn [dist_of] in *. destruct (dk_simple dk) as [[d0|t]|]; unfold lift in *; injection E as E; injection E' as E'; rewrite E; auto.
    - destruct (mk_dropkeep_inv form dk M) as [Nat Inv]. destruct (dk_keep dk).
      + destruct Inv as [I _]. destruct (I ltac:(lia)) as [d0 [S [Em En]]].
        destruct (dice_dist_spec R d0) as [dd [E [D [P _]]]]; [now rewrite Em|]. exists dd. intros s. cbn [dist_of]. rewrite S. unfold lift. rewrite E. auto.
      + destruct Inv as [I _]. specialize (I ltac:(lia)).
        destruct (mk_dist_ints_plain R [(0, 1)]) as [d [E [D [P _]]]]; [intros v c [X|[]]; inversion X; lia|].
        exists d. intros s. cbn [dist_of]. rewrite I. unfold lift. change (int_of_text $"0") with (Ok 0 : res Z). cbn [rbind]. rewrite E. auto.
  Qed.

  Lemma dice_natural : forall form d, mk_dice form = Ok d -> natural_counts (dice_map d).
  Proof.
    intros form d H. unfold mk_dice in H. destruct (index (split_on (is_ch "d") form) 1) as [s|]; [|discriminate]. cbn [rbind] in H.
    destruct (get_single_dice_outcome_map s) as [m|] eqn:E; [|discriminate]. cbn [rbind] in H.
    destruct (number_of_dice _); [|discriminate]. apply Ok_inj in H. subst d. cbn. now apply single_map_natural in E.
  Qed.

  Lemma later_set_constant : forall s n v, later R s (set_constant R n v s).
  Proof. intros s n v m. pose proof (later_bumped R s n m) as H. exact H. Qed.

  Lemma sinv_set_constant : forall s n v, sinv R s -> sinv R (set_constant R n v s).
  Proof.
    intros s n v [V T]. assert (L := later_set_constant s n v). constructor.
    - intros m d H. cbn in H. apply V in H. eapply dwf_later; eauto.
    - intros m. specialize (L m). specialize (T m). lia.
  Qed.

  (** What running an operation may do to the state *)
  Definition kept {A} (P : state -> A -> Prop) (s : state) (r : state * res A) : Prop :=
    sinv R (fst r) /\ later R s (fst r) /\ match snd r with Ok a => P (fst r) a | Raise _ => True end.

  Lemma kept_ok : forall A (P : state -> A -> Prop) s a, sinv R s -> P s a -> kept P s (s, Ok a).
  Proof. intros. split; [|split]; cbn; auto using later_refl. Qed.
  Lemma kept_raise : forall A (P : state -> A -> Prop) s x, sinv R s -> kept P s (s, Raise x).
  Proof. intros. split; [|split]; cbn; auto using later_refl. Qed.

  Lemma kept_bind : forall A B (P : state -> A -> Prop) (Q : state -> B -> Prop) (m : M R A) (f : A -> M R B) s,
    kept P s (m s) -> (forall s' a, sinv R s' -> later R s s' -> P s' a -> kept Q s' (f a s')) -> kept Q s (bind R m f s).
  Proof.
    intros A B P Q m f s H F. unfold bind. destruct (m s) as [s' [a|x]]; destruct H as [I [L H]]; cbn [fst snd] in *.
    - destruct (F s' a I L H) as [I' [L' H']]. split; [auto|]. split; [|auto]. eapply later_trans; eauto.
    - split; [|split]; auto.
  Qed.

  Lemma kept_lift : forall A (P : state -> A -> Prop) (r : res A) s, sinv R s -> (forall a, r = Ok a -> P s a) -> kept P s (lift R r s).
  Proof. intros A P [a|x] s I H; [apply kept_ok | apply kept_raise]; auto. Qed.

  Lemma kept_set_var : forall s n d, sinv R s -> dwf R s d -> ~ In ","%char n -> kept (fun _ _ => True) s (set_var R n d s).
  Proof.
    intros s n d I W N. destruct (set_var_spec R s n d I W) as [d' [E [_ [_ W']]]]; [exact N|]. rewrite E.
    split; [now apply sinv_store|]. split; [|exact Logic.I]. exact (later_bumped R s n).
  Qed.

  Lemma kept_binop : forall op (a b : M R (dist R)) s, kept (dwf R) s (a s) ->
    (forall s', sinv R s' -> kept (dwf R) s' (b s')) -> kept (dwf R) s (binop_m R op a b s).
  Proof.
    intros op a b s Ha Hb. unfold binop_m. eapply kept_bind; [exact Ha|]. intros s1 da I1 L1 W1.
    eapply (kept_bind _ _ (dwf R)); [auto|]. intros s2 db I2 L2 W2. apply kept_lift; auto. intros d E.
    eapply binop_dwf; [|exact W2|exact E]. eapply dwf_later; eauto.
  Qed.

  Lemma dist_of_kept : forall e, well_formed e -> forall s, sinv R s -> kept (dwf R) s (dist_of R e s).
  Proof.
    induction e; intros W s I; cbn [well_formed] in W.
    - apply IHe; auto.
    - cbn [dist_of]. eapply kept_bind; [apply IHe; auto|]. intros s' d I' L' W'. apply kept_ok; auto. now apply unop_dwf.
    - destruct W as [[form Mk] [N K]]. destruct (pool_plain form d Mk N K) as [dd H]. destruct (H s) as [E [D P]]. rewrite E.
      apply kept_ok; auto. now apply plain_dwf.
    - destruct W as [[form Mk] N]. destruct (dice_dist_spec R d) as [dd [E [D [P _]]]]; [eapply dice_natural; eauto|].
      cbn [dist_of]. unfold lift. rewrite E. apply kept_ok; auto. now apply plain_dwf.
    - destruct W as [z E]. destruct (mk_dist_ints_plain R [(z, 1)]) as [d [Ed [D [P _]]]]; [intros v c [X|[]]; inversion X; lia|].
      cbn [dist_of]. unfold lift. rewrite E. cbn [rbind]. rewrite Ed. apply kept_ok; auto. now apply plain_dwf.
    - destruct (mk_dist_ints_plain R [(bool_value binary_string, 1)]) as [d [Ed [D [P _]]]]; [intros v c [X|[]]; inversion X; lia|].
      cbn [dist_of]. unfold lift. rewrite Ed. apply kept_ok; auto. now apply plain_dwf.
    - cbn [dist_of]. apply kept_binop; [apply IHe1 | intros; apply IHe2]; tauto.
    - cbn [dist_of]. apply kept_binop; [apply IHe1 | intros; apply IHe2]; tauto.
    - cbn [dist_of]. apply kept_binop; [apply IHe1 | intros; apply IHe2]; tauto.
    - cbn [dist_of]. apply kept_binop; [apply IHe1 | intros; apply IHe2]; tauto.
    - cbn [dist_of]. destruct W as [W0 [W1 W2]]. destruct (meaning_dist_operator operator W0) as [v ->]. apply kept_binop; auto.
    - cbn [dist_of]. apply kept_binop; [apply IHe1 | intros; apply IHe2]; tauto.
    - cbn [dist_of]. eapply kept_bind; [apply IHe; auto|]. intros s' d I' L' W'. apply kept_ok; auto. now apply unop_dwf.
    - cbn [dist_of]. destruct W as [Nc W]. eapply kept_bind; [apply IHe; auto|]. intros s' d I' L' W'.
      eapply kept_bind; [apply kept_set_var; auto|]. intros s2 u I2 L2 _. apply kept_ok; auto. eapply dwf_later; eauto.
    - cbn [dist_of]. unfold get_var. destruct (dget text_eqb (st_var s) name) as [d|] eqn:E; [|now apply kept_raise].
      apply kept_ok; auto. apply (si_var R s I name).
      clear - E. induction (st_var s) as [|[k v] l IH]; [discriminate|]. cbn [dget] in E. destruct (text_eqb k name) eqn:K.
      + apply text_eqb_eq in K. inversion E; subst. now left.
      + right. auto.
  Qed.

  Lemma kept_any : forall A (P : state -> A -> Prop) s r, kept P s r -> kept (fun _ _ => True) s r.
  Proof. intros A P s [s' [a|x]] [H1 [H2 H3]]; split; auto; split; cbn; auto. Qed.

  Lemma kept_get_constant : forall n s, sinv R s -> kept (fun _ _ => True) s (s, get_constant R n s).
  Proof. intros n s I. destruct (get_constant R n s); [apply kept_ok | apply kept_raise]; auto. Qed.

  Lemma kept_set_const : forall n v s, sinv R s -> kept (fun _ _ => True) s (set_const_m R n v s).
  Proof. intros n v s I. split; [now apply sinv_set_constant|]. split; [apply later_set_constant | exact Logic.I]. Qed.

  Lemma ext_via_dist_kept : forall mx e, well_formed e -> forall s, sinv R s -> kept (fun _ _ => True) s (ext_via_dist R mx e s).
  Proof.
    intros mx e W s I. unfold ext_via_dist. eapply kept_bind; [apply dist_of_kept; auto|]. intros s' d I' _ _. now apply kept_lift.
  Qed.

  Lemma ext_of_kept : forall mx e, well_formed e -> forall s, sinv R s -> kept (fun _ _ => True) s (ext_of R mx e s).
  Proof.
    intros mx. induction e; intros W s I; try (exact (ext_via_dist_kept mx _ W s I)); cbn [ext_of]; cbn [well_formed] in W.
    - apply IHe; auto.
    - destruct (dk_simple d) as [[d0|t]|]; now apply kept_lift.
    - now apply kept_lift.
    - now apply kept_lift.
    - now apply kept_ok.
    - eapply kept_bind; [apply dist_of_kept; [apply W | auto]|]. intros s' d I' _ _. destruct (contains_zero R d); [now apply kept_lift|].
      apply ext_via_dist_kept; auto.
    - destruct W as [_ [W1 W2]]. destruct (minmax_operator min_max); [|now apply kept_lift].
      eapply kept_bind; [apply IHe1; auto|]. intros s1 x I1 _ _. eapply kept_bind; [apply IHe2; auto|]. intros s2 y I2 _ _. now apply kept_ok.
    - destruct W as [Nc W]. eapply kept_bind; [apply IHe; auto|]. intros s1 v I1 _ _. eapply kept_bind; [apply kept_set_const; auto|].
      intros s2 u I2 _ _. eapply kept_bind; [apply dist_of_kept; auto|]. intros s3 d I3 _ W3.
      eapply kept_bind; [apply kept_set_var; auto|]. intros s4 u' I4 _ _. now apply kept_ok.
    - now apply kept_get_constant.
  Qed.

  Lemma cost_of_kept : forall e s, sinv R s -> kept (fun _ _ => True) s (cost_of R e s).
  Proof.
    assert (S : forall e1 e2, (forall s, sinv R s -> kept (fun _ _ => True) s (cost_of R e1 s)) ->
      (forall s, sinv R s -> kept (fun _ _ => True) s (cost_of R e2 s)) -> forall s, sinv R s ->
      kept (fun _ _ => True) s (cost_sum R (cost_of R e1) (cost_of R e2) s)).
    { intros e1 e2 H1 H2 s I. unfold cost_sum. eapply kept_bind; [apply H1; auto|]. intros s1 x I1 _ _.
      eapply kept_bind; [apply H2; auto|]. intros s2 y I2 _ _. now apply kept_ok. }
    induction e; intros s I; cbn [cost_of]; auto; try (now apply kept_ok).
    - eapply kept_bind; [apply IHe; auto|]. intros s1 x I1 _ _. now apply kept_lift.
    - destruct (dk_simple d) as [[d0|t]|]; now apply kept_ok.
    - eapply kept_bind; [apply IHe; auto|]. intros s1 v I1 _ _. eapply kept_bind; [apply kept_set_const; auto|].
      intros s2 u I2 _ _. now apply kept_ok.
    - now apply kept_get_constant.
  Qed.

  (** Every run of a roll *)
  Definition all_kept {A} (s : state) (l : list (Z * (state * res A))) : Prop := forall w r, In (w, r) l -> kept (fun _ _ => True) s r.

  Lemma all_kept_bind : forall A B (m : W R A) (f : A -> W R B) s, all_kept s (m s) ->
    (forall s' a, sinv R s' -> all_kept s' (f a s')) -> all_kept s (wbind R m f s).
  Proof.
    intros A B m f s H F w r I. unfold wbind in I. apply in_flat_map in I. destruct I as [[w0 [s' [a|x]]] [I1 I2]].
    - apply in_map_iff in I2. destruct I2 as [[w2 r2] [E I2]]. cbn in E. inversion E; subst.
      destruct (H _ _ I1) as [K1 [K2 _]]. cbn [fst] in *. destruct (F s' a K1 _ _ I2) as [K3 [K4 K5]].
      split; [auto|]. split; auto. eapply later_trans; eauto.
    - destruct I2 as [E|[]]. inversion E; subst. apply (H _ _ I1).
  Qed.

  Lemma all_kept_one : forall A w (r : res A) s, sinv R s -> all_kept s [(w, (s, r))].
  Proof. intros A w r s I w' r' [E|[]]. inversion E; subst. destruct r; [apply kept_ok | apply kept_raise]; auto. Qed.

  Lemma all_kept_rolls : forall A (l : rolls A) s, sinv R s -> all_kept s (wrolls R l s).
  Proof.
    intros A l s I w r H. unfold wrolls in H. apply in_map_iff in H. destruct H as [[w0 r0] [E _]]. inversion E; subst. cbn.
    destruct r0; [apply kept_ok | apply kept_raise]; auto.
  Qed.

  Lemma all_kept_binop : forall f (a b : W R Z) s, all_kept s (a s) -> (forall s', sinv R s' -> all_kept s' (b s')) ->
    all_kept s (wbinop R f a b s).
  Proof.
    intros f a b s Ha Hb. unfold wbinop. apply all_kept_bind; auto. intros s1 x I1. apply all_kept_bind; auto. intros s2 y I2.
    now apply all_kept_one.
  Qed.

  Lemma roll_of_kept : forall e s, sinv R s -> all_kept s (roll_of R e s).
  Proof.
    induction e; intros s I; cbn [roll_of]; auto; try (apply all_kept_binop; auto; fail); try (now apply all_kept_rolls); try (now apply all_kept_one).
    - apply all_kept_bind; auto. intros s1 x I1. now apply all_kept_one.
    - destruct (dk_simple d) as [[d0|t]|]; try (now apply all_kept_rolls). now apply all_kept_one.
    - apply all_kept_bind; auto. intros s1 x I1. destruct (x =? 0); [now apply all_kept_one|]. apply all_kept_bind; auto. intros s2 y I2.
      now apply all_kept_one.
    - destruct (int_operator operator); [apply all_kept_binop; auto | now apply all_kept_one].
    - destruct (minmax_operator min_max); [apply all_kept_binop; auto | now apply all_kept_one].
    - apply all_kept_bind; auto. intros s1 x I1. now apply all_kept_one.
    - apply all_kept_bind; auto. intros s1 x I1 w r [E|[]]. inversion E; subst.
      split; [now apply sinv_set_constant|]. split; [apply later_set_constant | exact Logic.I].
  Qed.

  (** *** Calls of the interpreter *)
  Lemma sinv_stdout_const : forall x s, sinv R s -> sinv R (set_stdout_const R x s) /\ later R s (set_stdout_const R x s).
  Proof. intros x s [V T]. split; [constructor; [exact V | exact T] | intros n; apply Z.le_refl]. Qed.

  Lemma sinv_stdout_var : forall d s, sinv R s -> dwf R s d -> sinv R (set_stdout_var R d s) /\ later R s (set_stdout_var R d s).
  Proof.
    intros d s [V T] W. split; [|intros n; apply Z.le_refl]. constructor; [|exact T].
    intros n d' H. cbn in H. apply (dset_vals text_eqb text_eqb_iff) in H. destruct H as [H|[-> _]]; [exact (V n d' H) | exact W].
  Qed.

  Lemma parse_kept : forall l s, sinv R s -> kept (fun _ e => well_formed e) s (lift R (parse l) s).
  Proof. intros l s I. apply kept_lift; auto. intros e H. now apply parse_wf in H. Qed.

  Lemma roll_kept : forall lines rd s, sinv R s -> all_kept s (roll_from R rd lines s).
  Proof.
    induction lines as [|l lines IH]; intros rd s I; cbn [roll_from]; [now apply all_kept_one|].
    apply all_kept_bind; [|intros; auto]. unfold roll_line. apply all_kept_bind; [now apply all_kept_one|]. intros s1 e I1.
    apply all_kept_bind; [now apply roll_of_kept|]. intros s2 v I2 w r [E|[]]. inversion E; subst.
    destruct (sinv_stdout_const v s2 I2). split; [|split]; auto; exact Logic.I.
  Qed.

  Lemma ext_kept : forall mx lines rd s, sinv R s -> kept (fun _ _ => True) s (ext_from R mx rd lines s).
  Proof.
    intros mx. induction lines as [|l lines IH]; intros rd s I; cbn [ext_from]; [now apply kept_ok|].
    eapply (kept_bind _ _ (fun _ _ => True)); [|intros; apply IH; auto]. unfold ext_line. eapply kept_bind; [now apply parse_kept|]. intros s1 e I1 _ W.
    eapply kept_bind; [now apply ext_of_kept|]. intros s2 v I2 _ _. destruct (sinv_stdout_const v s2 I2). split; [|split]; auto; exact Logic.I.
  Qed.

  Definition all_dwf (s : state) (l : list (text * dist R)) : Prop := forall n d, In (n, d) l -> dwf R s d.

  Lemma dist_lines_kept : forall lines ran s, sinv R s -> kept all_dwf s (dist_lines R ran lines s).
  Proof.
    induction lines as [|l lines IH]; intros ran s I; cbn [dist_lines].
    - apply kept_ok; auto. destruct ran; [exact (si_var R s I) | intros n d []].
    - eapply (kept_bind _ _ (fun _ _ => True)); [|intros; apply IH; auto]. unfold dist_line. eapply kept_bind; [now apply parse_kept|]. intros s1 e I1 _ W.
      eapply kept_bind; [now apply dist_of_kept|]. intros s2 d I2 _ W2. destruct (sinv_stdout_var d s2 I2 W2). split; [|split]; auto; exact Logic.I.
  Qed.

  Lemma last_dist_kept : forall lines d s, sinv R s -> dwf R s d -> kept (dwf R) s (last_dist R d lines s).
  Proof.
    induction lines as [|l lines IH]; intros d s I W; cbn [last_dist]; [now apply kept_ok|].
    eapply kept_bind; [now apply parse_kept|]. intros s1 e I1 _ We. eapply kept_bind; [now apply dist_of_kept|]. intros s2 d2 I2 _ W2. auto.
  Qed.

  Lemma cost_kept : forall lines t s, sinv R s -> kept (fun _ _ => True) s (cost_from R t lines s).
  Proof.
    induction lines as [|l lines IH]; intros t s I; cbn [cost_from]; [now apply kept_ok|].
    eapply kept_bind; [now apply parse_kept|]. intros s1 e I1 _ We. eapply kept_bind; [now apply cost_of_kept|]. intros s2 d2 I2 _ _. auto.
  Qed.

  Lemma empty_dwf : forall s, dwf R s (empty_dist R).
  Proof.
    intros s. split.
    - apply mk_dist_inv; repeat intro; simpl in *; contradiction.
    - intros m [o [[] _]].
  Qed.
End State.
