(** * NotationFacts: lemmas about reading dice notation (the first part of DiceModel.v) *)
From Coq Require Import Permutation.
From Verif Require Import Py PyFacts Regex RegexFacts PyFloat Constraint Distribution DiceModel SpecDice SpecNotation DiceFacts.

Lemma Ok_inj : forall A (a b : A), Ok a = Ok b -> a = b.
Proof. intros A a b H. now inversion H. Qed.

Lemma split_on_app_gen : forall p a c b, p c = true -> split_on p (a ++ c :: b) = split_on p a ++ split_on p b.
Proof.
  induction a as [|x a IH]; intros c b H; simpl; [now rewrite H|].
  rewrite IH by auto. destruct (p x); auto. destruct (split_on p a) eqn:E; [now apply split_on_nonnil in E|]. reflexivity.
Qed.

Lemma split_on_single : forall p s x, split_on p s = [x] -> x = s.
Proof.
  induction s as [|c s IH]; simpl; intros x H; [now inversion H|].
  destruct (p c); [inversion H; now apply split_on_nonnil in H2|].
  destruct (split_on p s) eqn:E; [now apply split_on_nonnil in E|]. inversion H; subst. f_equal. auto.
Qed.

Lemma decimal_val : forall t, decimal t = digits_val 0 t.
Proof. reflexivity. Qed.

Lemma digits_val_nonneg : forall t a, 0 <= a -> forallb is_digit t = true -> 0 <= digits_val a t.
Proof.
  induction t as [|c t IH]; intros a Ha H; auto. cbn [forallb] in H. apply andb_true_iff in H. destruct H as [Hc Ht].
  change (digits_val a (c :: t)) with (digits_val (10 * a + digit_val c) t). apply IH; auto.
  unfold digit_val. unfold is_digit, in_range in Hc. apply andb_true_iff in Hc. destruct Hc as [H1 H2].
  apply N.leb_le in H1. assert (0 <= Z.of_N (code c) - 48) by lia. lia.
Qed.

Lemma is_digits_all : forall t, is_digits t <-> all_digits t = true.
Proof. intros [|c t]; unfold is_digits; simpl; split; intuition congruence. Qed.

Lemma int_of_is_digits : forall t, is_digits t -> int_of_text t = Ok (decimal t) /\ 0 <= decimal t.
Proof.
  intros t H. split.
  - apply int_of_digits. now apply is_digits_all.
  - apply digits_val_nonneg; [lia | apply H].
Qed.

Lemma int_of_digit_start : forall c t z, is_digit c = true -> int_of_text (c :: t) = Ok z -> 0 <= z.
Proof.
  intros c t z Hc H. rewrite (digit_not_sign c t Hc) in H.
  destruct (all_digits (c :: t)) eqn:E; [|discriminate]. assert (z = digits_val 0 (c :: t)) by congruence. subst z.
  apply digits_val_nonneg; [lia|]. apply is_digits_all in E. apply E.
Qed.

(** ** Counts are natural numbers, each face is listed once *)
Lemma leaves_suffix : forall r s s', leaves r s s' -> exists u, s = u ++ s'.
Proof.
  induction r; intros t t' H; cbn [leaves] in H; try contradiction.
  - destruct H as [c [-> _]]. exists [c]. auto.
  - subst. exists []. auto.
  - destruct H as [m [H1 H2]]. apply IHr1 in H1. apply IHr2 in H2. destruct H1 as [u1 ->]. destruct H2 as [u2 ->].
    exists (u1 ++ u2). now rewrite app_assoc.
  - destruct H; eauto.
  - destruct r; try contradiction. destruct H as [u [-> _]]. eauto.
Qed.

Lemma re_multiplied_star : forall s, re_test re_multiplied s = true ->
  exists a c b, s = a ++ "*"%char :: c :: b /\ is_digit c = true.
Proof.
  intros s H. apply re_test_leaves in H; [|reflexivity]. destruct H as [s' H].
  destruct H as [m [H1 [m' [H2 H3]]]]. apply leaves_suffix in H1. destruct H1 as [a ->].
  apply leaves_ch in H2. subst m. apply leaves_plus in H3. destruct H3 as [[|c u] [N [-> Hu]]]; [congruence|].
  simpl in Hu. apply andb_true_iff in Hu. exists a, c, (u ++ s'). split; [reflexivity | tauto].
Qed.

Lemma natural_safe_add : forall m k c, natural_counts m -> 0 <= c -> natural_counts (safe_add Z.eqb m k c).
Proof.
  induction m as [|[k' c'] m IH]; simpl; intros k c N C v x H.
  - destruct H as [H|[]]. now inversion H; subst.
  - assert (0 <= c') by (apply (N k'); left; auto). destruct (k' =? k); destruct H as [H|H].
    + inversion H; subst. lia.
    + apply (N v). right. auto.
    + inversion H; subst. lia.
    + revert H. apply IH; auto. intros v' x' H'. apply (N v'). right. auto.
Qed.

Lemma natural_safe_add_all : forall l m, natural_counts m -> natural_counts l -> natural_counts (safe_add_all Z.eqb l m).
Proof.
  induction l as [|[k c] l IH]; intros m N L; [exact N|]. unfold safe_add_all. cbn [fold_left]. apply IH.
  - apply natural_safe_add; auto. apply (L k). left. auto.
  - intros v x H. apply (L v). right. auto.
Qed.

Lemma add_entry_natural : forall d value d', natural_counts d -> NoDup (map fst d) -> add_entry d value = Ok d' ->
  natural_counts d' /\ NoDup (map fst d').
Proof.
  intros d value d' N D H. unfold add_entry in H.
  destruct (if re_test re_multiplied value then _ else _) as [[v m]|] eqn:E; [|discriminate]. cbn [rbind] in H.
  assert (Hm : forall z, int_of_text m = Ok z -> 0 <= z).
  { destruct (re_test re_multiplied value) eqn:Er.
    - apply re_multiplied_star in Er. destruct Er as [a [c [b [-> Hc]]]].
      rewrite split_on_app_gen in E by reflexivity.
      destruct (split_on (is_ch "*") a) as [|x [|y l]] eqn:Ea; [now apply split_on_nonnil in Ea| |].
      + destruct (split_on (is_ch "*") (c :: b)) as [|x' [|y' l']] eqn:Eb; try discriminate.
        apply split_on_single in Eb. simpl in E. inversion E; subst. intros z. now apply int_of_digit_start.
      + destruct (split_on (is_ch "*") (c :: b)) as [|x' l'] eqn:Eb; [now apply split_on_nonnil in Eb|].
        cbn [app list_ascii_of_string] in E. destruct (l ++ x' :: l') eqn:El; [destruct l; discriminate | discriminate E].
    - inversion E; subst. intros z Hz. vm_compute in Hz. inversion Hz. lia. }
  destruct (if re_test re_range v then _ else _) as [keys|]; [|discriminate]. cbn [rbind] in H.
  destruct keys as [|k keys]; [inversion H; subst; auto|].
  destruct (int_of_text m) as [z|] eqn:Ez; [|discriminate]. cbn [rbind] in H.
  assert (E' : d' = safe_add_all Z.eqb (map (fun k => (k, z)) (k :: keys)) d) by congruence. rewrite E'. split.
  - apply natural_safe_add_all; auto. intros x c Hx. apply in_map_iff in Hx. destruct Hx as [y [Hy _]]. inversion Hy; subst. now apply Hm.
  - apply (unmatched_nodup Z.eqb Zeqb_iff), safe_add_all_unmatched. now apply (nodup_unmatched Z.eqb Zeqb_iff).
Qed.

Lemma add_entries_natural : forall vs d d', natural_counts d -> NoDup (map fst d) -> add_entries d vs = Ok d' ->
  natural_counts d' /\ NoDup (map fst d').
Proof.
  induction vs as [|v vs IH]; simpl; intros d d' N D H; [inversion H; subst; auto|].
  destruct (add_entry d v) as [d1|] eqn:E; [|discriminate]. apply (add_entry_natural d v) in E; auto. simpl in H.
  apply (IH d1); tauto.
Qed.

Lemma unit_map_natural : forall l, NoDup l -> natural_counts (map (fun v => (v, 1)) l) /\ NoDup (map fst (map (fun v : Z => (v, 1)) l)).
Proof.
  intros l D. split.
  - intros v c H. apply in_map_iff in H. destruct H as [x [H _]]. inversion H. lia.
  - rewrite map_map. simpl. now rewrite map_id.
Qed.

Lemma single_map_natural : forall s m, get_single_dice_outcome_map s = Ok m -> natural_counts m /\ NoDup (map fst m).
Proof.
  intros s m H. unfold get_single_dice_outcome_map in H.
  destruct (re_test re_starts_digit s).
  { destruct (int_of_text s) as [n|]; [|discriminate]. simpl in H. apply Ok_inj in H. subst m. apply unit_map_natural, zrange_nodup. }
  destruct (text_eqb s $"%").
  { apply Ok_inj in H. subst m. apply unit_map_natural, zrange_nodup. }
  destruct (text_eqb s $"F").
  { apply Ok_inj in H. subst m. apply (unit_map_natural [-1; 0; 1]). repeat constructor; simpl; intuition lia. }
  revert H. apply add_entries_natural; [intros v c [] | constructor].
Qed.

(** ** Reading the entries of a custom die *)
Definition stops (s : text) : Prop := forall c w, s = c :: w -> is_digit c = false.

Lemma stops_nil : stops [].
Proof. intros c w H. discriminate. Qed.

Lemma stops_cons : forall c w, is_digit c = false -> stops (c :: w).
Proof. intros c w H c' w' E. now inversion E; subst. Qed.

Lemma opt_minus_leaves : forall n rest, numeral_ok n -> forall s s',
  leaves (ropt (rch "-")) (numeral_text n ++ rest) s -> plus_char is_digit s s' -> stops rest -> stops s' -> s' = rest.
Proof.
  intros [mi ds] rest [N D] s s' H [u [Nu [-> Hu]]] Hr Hs. unfold numeral_text in *. cbn [n_minus n_digits] in *.
  assert (E : ds ++ rest = u ++ s').
  { apply leaves_opt in H. destruct ds as [|d ds]; [congruence|]. destruct u as [|x u]; [congruence|].
    simpl in D, Hu. apply andb_true_iff in D. apply andb_true_iff in Hu. destruct mi; cbn [app list_ascii_of_string] in H.
    - destruct H as [H|H].
      + apply leaves_ch in H. cbn [app list_ascii_of_string] in *. congruence.
      + inversion H; subst. destruct Hu as [Hu _]. discriminate.
    - destruct H as [H|H]; auto. apply leaves_ch in H. inversion H; subst. destruct D as [D _]. discriminate. }
  destruct (run_unique is_digit ds rest u s') as [_ ->]; auto.
Qed.

Lemma opt_minus_enters : forall n rest, numeral_ok n -> exists s, leaves (ropt (rch "-")) (numeral_text n ++ rest) s /\ plus_char is_digit s rest.
Proof.
  intros [mi ds] rest [N D]. unfold numeral_text. cbn [n_minus n_digits] in *. exists (ds ++ rest). split.
  - apply leaves_opt. destruct mi; [left; apply leaves_ch; auto | right; auto].
  - exists ds. auto.
Qed.

Lemma numeral_int : forall n, numeral_ok n -> int_of_text (numeral_text n) = Ok (numeral_value n).
Proof.
  intros [mi ds] H. unfold numeral_ok in H. cbn [n_digits] in H. destruct (int_of_is_digits ds H) as [E _].
  unfold numeral_text, numeral_value. cbn [n_minus n_digits]. destruct mi; auto.
  cbn [app list_ascii_of_string]. unfold int_of_text. cbn. apply is_digits_all in H. rewrite H. reflexivity.
Qed.

Lemma digit_not : forall t p, (forall c, is_digit c = true -> p c = false) -> forallb is_digit t = true ->
  forallb (fun c => negb (p c)) t = true.
Proof.
  intros t p H D. apply forallb_forall. intros c Hc. rewrite H; auto. rewrite forallb_forall in D. auto.
Qed.

Lemma is_ch_digit : forall a, is_digit a = false -> forall c, is_digit c = true -> is_ch a c = false.
Proof.
  intros a Ha c Hc. unfold is_ch. apply Ascii.eqb_neq. intros ->. congruence.
Qed.

Lemma split_numeral : forall n, numeral_ok n -> split_on (is_ch "-") (numeral_text n) = if n_minus n then [[]; n_digits n] else [n_digits n].
Proof.
  intros [mi ds] [N D]. unfold numeral_text. cbn [n_minus n_digits] in *.
  assert (E : split_on (is_ch "-") ds = [ds]) by (apply split_on_none, digit_not; auto; now apply is_ch_digit).
  destruct mi; auto. cbn [app list_ascii_of_string split_on]. unfold is_ch at 1. simpl. now rewrite E.
Qed.

Lemma test_numeral_then : forall n rest r, numeral_ok n -> stops rest -> simple r = true ->
  (forall s s', leaves r s s' -> stops s) ->
  (re_test (RSeq (ropt (rch "-")) (RSeq (rplus rdigit) r)) (numeral_text n ++ rest) = true <-> exists s', leaves r rest s').
Proof.
  intros n rest r N S Sr Hr. rewrite re_test_leaves by exact Sr. split.
  - intros [s' [s1 [H1 [s2 [H2 H3]]]]]. apply leaves_plus in H2. exists s'.
    rewrite <- (opt_minus_leaves n rest N s1 s2); auto. now apply (Hr s2 s').
  - intros [s' H]. destruct (opt_minus_enters n rest N) as [s1 [H1 H2]]. exists s', s1. split; auto.
    exists rest. split; auto. now apply leaves_plus.
Qed.

Lemma minus_stops : forall r s s', leaves (RSeq (rch "-") r) s s' -> stops s.
Proof. intros r s s' [m [H _]]. apply leaves_ch in H. subst. now apply stops_cons. Qed.

Lemma re_range_text : forall a b, numeral_ok a -> numeral_ok b -> re_test re_range (numeral_text a ++ "-"%char :: numeral_text b) = true.
Proof.
  intros a b Ha Hb.
  apply (proj2 (test_numeral_then a ("-"%char :: numeral_text b) (RSeq (rch "-") (RSeq (ropt (rch "-")) (rplus rdigit)))
    Ha (stops_cons "-" _ eq_refl) eq_refl (minus_stops _))).
  destruct (opt_minus_enters b [] Hb) as [s1 [H1 H2]]. rewrite app_nil_r in H1.
  exists [], (numeral_text b). split; [now apply leaves_ch|]. exists s1. split; auto. now apply leaves_plus.
Qed.

Lemma re_range_single : forall a, numeral_ok a -> re_test re_range (numeral_text a) = false.
Proof.
  intros a Ha. apply not_true_iff_false. intros H. rewrite <- (app_nil_r (numeral_text a)) in H.
  apply (proj1 (test_numeral_then a [] (RSeq (rch "-") (RSeq (ropt (rch "-")) (rplus rdigit)))
    Ha stops_nil eq_refl (minus_stops _))) in H.
  destruct H as [s' [m [H _]]]. apply leaves_ch in H. discriminate.
Qed.

Lemma re_end_negative_text : forall a b, numeral_ok a -> numeral_ok b ->
  re_test re_end_negative (numeral_text a ++ "-"%char :: numeral_text b) = n_minus b.
Proof.
  intros a b Ha Hb. apply eq_true_iff_eq.
  rewrite (test_numeral_then a ("-"%char :: numeral_text b) (RSeq (rch "-") (RSeq (rch "-") (rplus rdigit)))
    Ha (stops_cons "-" _ eq_refl) eq_refl (minus_stops _)).
  destruct b as [mi ds]. destruct Hb as [N D]. unfold numeral_text. cbn [n_minus n_digits] in *. split.
  - intros [s' [m [H [m' [H' _]]]]]. apply leaves_ch in H. injection H as <-. apply leaves_ch in H'. destruct mi; auto.
    cbn [app list_ascii_of_string] in H'. subst ds. discriminate.
  - intros ->. exists []. exists (("-"%char) :: ds). split; [now apply leaves_ch|]. exists ds. split; [now apply leaves_ch|].
    apply leaves_plus. exists ds. rewrite app_nil_r. auto.
Qed.

Lemma re_start_positive_text : forall a b, numeral_ok a -> numeral_ok b ->
  re_test re_start_positive (numeral_text a ++ "-"%char :: numeral_text b) = negb (n_minus a).
Proof.
  intros a b Ha Hb. apply eq_true_iff_eq. rewrite re_test_leaves by reflexivity.
  destruct a as [mi ds]. destruct Ha as [N D]. unfold numeral_text at 1. cbn [n_minus n_digits] in *. split.
  - intros [s' [m [H _]]]. apply leaves_plus in H. destruct H as [[|x u] [Nu [E Hu]]]; [congruence|].
    destruct mi; auto. cbn [app list_ascii_of_string] in E. inversion E; subst. discriminate.
  - intros Hm. destruct mi; [discriminate|]. destruct (opt_minus_enters b [] Hb) as [s1 [H1 H2]]. rewrite app_nil_r in H1.
    exists [], ("-"%char :: numeral_text b). split; [apply leaves_plus; exists ds; auto|].
    exists (numeral_text b). split; [now apply leaves_ch|]. exists s1. split; auto. now apply leaves_plus.
Qed.

Lemma zrange_between : forall a b, zrange (Z.min a b) (Z.max a b + 1) = integers_between a b.
Proof.
  intros. unfold zrange, integers_between. do 2 f_equal. lia.
Qed.

Lemma find_range_text : forall a b, numeral_ok a -> numeral_ok b ->
  find_range (numeral_text a ++ "-"%char :: numeral_text b) = Ok (integers_between (numeral_value a) (numeral_value b)).
Proof.
  intros a b Ha Hb. unfold find_range. rewrite re_start_positive_text, re_end_negative_text by auto.
  rewrite split_on_app_gen by reflexivity. rewrite !split_numeral by auto.
  destruct (int_of_is_digits _ Ha) as [Ea _]. destruct (int_of_is_digits _ Hb) as [Eb _]. unfold numeral_value.
  destruct (n_minus a), (n_minus b); cbn [negb app index nth_error last rbind]; rewrite Ea; cbn [rbind rmap]; rewrite Eb;
    cbn [rbind rmap]; now rewrite zrange_between.
Qed.

Definition body_text (e : entry) : text :=
  numeral_text (e_from e) ++ match e_to e with Some n => $"-" ++ numeral_text n | None => [] end.

Lemma no_star_numeral : forall n, numeral_ok n -> ~ In "*"%char (numeral_text n).
Proof.
  intros [mi ds] [N D] H. unfold numeral_text in H. cbn [n_minus n_digits] in *. apply in_app_or in H.
  destruct H as [H|H].
  - destruct mi; [|destruct H]. destruct H as [H|[]]. discriminate.
  - rewrite forallb_forall in D. apply D in H. discriminate.
Qed.

Lemma no_star_body : forall e, entry_ok e -> ~ In "*"%char (body_text e).
Proof.
  intros e [H1 [H2 _]] H. unfold body_text in H. apply in_app_or in H. destruct H as [H|H]; [now apply no_star_numeral in H|].
  destruct (e_to e); [|destruct H]. destruct H as [H|H]; [discriminate | now apply no_star_numeral in H].
Qed.

Lemma body_values : forall e, entry_ok e ->
  (if re_test re_range (body_text e) then find_range (body_text e) else rmap (fun z => [z]) (int_of_text (body_text e)))
  = Ok (entry_values e).
Proof.
  intros e [H1 [H2 _]]. unfold body_text, entry_values. destruct (e_to e) as [n|].
  - cbn [app list_ascii_of_string]. rewrite re_range_text, find_range_text by auto. reflexivity.
  - rewrite app_nil_r, re_range_single, numeral_int by auto. reflexivity.
Qed.

Lemma entry_split : forall e, entry_ok e ->
  (if re_test re_multiplied (entry_text e)
   then match split_on (is_ch "*") (entry_text e) with [v; m] => Ok (v, m) | _ => Raise ValueError end
   else Ok (entry_text e, $"1")) =
  Ok (body_text e, match e_copies e with Some t => t | None => $"1" end).
Proof.
  intros e H. assert (Hs := no_star_body e H). unfold entry_text. rewrite app_assoc. fold (body_text e).
  assert (Sb : forall t, split_on (is_ch "*") (body_text e ++ "*"%char :: t) = body_text e :: split_on (is_ch "*") t).
  { intros t. rewrite split_on_app_gen by reflexivity. rewrite split_on_none; auto. apply forallb_forall. intros c Hc.
    apply negb_true_iff. unfold is_ch. apply Ascii.eqb_neq. intros <-. auto. }
  destruct (e_copies e) as [t|] eqn:Et.
  - cbn [app list_ascii_of_string]. rewrite Sb. destruct H as [H1 [H2 H3]]. rewrite Et in H3. destruct H3 as [N D].
    rewrite (split_on_none (is_ch "*") t) by (apply digit_not; auto; now apply is_ch_digit).
    replace (re_test re_multiplied (body_text e ++ "*"%char :: t)) with true; auto. symmetry.
    apply re_test_leaves; [reflexivity|]. exists [], ("*"%char :: t). split.
    + unfold body_text. destruct (e_to e) as [n|].
      * left. destruct (opt_minus_enters (e_from e) ("-"%char :: numeral_text n ++ "*"%char :: t) H1) as [s1 [A1 A2]].
        destruct (opt_minus_enters n ("*"%char :: t) H2) as [s2 [B1 B2]].
        rewrite <- !app_assoc. cbn [app list_ascii_of_string]. exists s1. split; [exact A1|]. exists ("-"%char :: numeral_text n ++ "*"%char :: t).
        split; [now apply leaves_plus|]. exists (numeral_text n ++ "*"%char :: t). split; [now apply leaves_ch|].
        exists s2. split; auto. now apply leaves_plus.
      * right. rewrite app_nil_r. destruct (opt_minus_enters (e_from e) ("*"%char :: t) H1) as [s1 [A1 A2]].
        exists s1. split; auto. now apply leaves_plus.
    + exists t. split; [now apply leaves_ch|]. apply leaves_plus. exists t. rewrite app_nil_r. auto.
  - rewrite app_nil_r. replace (re_test re_multiplied (body_text e)) with false; auto. symmetry.
    apply not_true_iff_false. intros E. apply re_multiplied_star in E. destruct E as [a [c [b [E _]]]]. apply Hs. rewrite E.
    apply in_or_app. right. left. auto.
Qed.

Lemma integers_between_nonnil : forall a b, integers_between a b <> [].
Proof.
  intros a b H. apply (f_equal (@length Z)) in H. unfold integers_between in H. rewrite map_length, seq_length in H. simpl in H. lia.
Qed.

Lemma entry_values_nonnil : forall e, entry_values e <> [].
Proof. intros e. unfold entry_values. destruct (e_to e); [apply integers_between_nonnil | discriminate]. Qed.

Lemma faces_safe_add : forall m k c, natural_counts m -> 0 <= c ->
  Permutation (faces (safe_add Z.eqb m k c)) (repeat k (Z.to_nat c) ++ faces m).
Proof.
  induction m as [|[k' c'] m IH]; cbn [safe_add]; intros k c N C.
  - unfold faces. simpl. rewrite app_nil_r. reflexivity.
  - assert (0 <= c') by (apply (N k'); left; auto). destruct (k' =? k) eqn:E.
    + apply Z.eqb_eq in E. subst k'. unfold faces. cbn [flat_map fst snd]. rewrite Z2Nat.inj_add by lia.
      rewrite repeat_app, app_assoc. apply Permutation_app_tail. apply Permutation_app_comm.
    + unfold faces in *. cbn [flat_map fst snd]. rewrite IH; auto.
      * rewrite !app_assoc. apply Permutation_app_tail. apply Permutation_app_comm.
      * intros v x Hx. apply (N v). right. auto.
Qed.

Lemma faces_safe_add_all : forall l m, natural_counts m -> natural_counts l ->
  Permutation (faces (safe_add_all Z.eqb l m)) (faces m ++ faces l).
Proof.
  induction l as [|[k c] l IH]; intros m N L; [unfold faces; simpl; now rewrite app_nil_r|].
  assert (C : 0 <= c) by (apply (L k); left; auto).
  assert (L' : natural_counts l) by (intros v x H; apply (L v); right; auto).
  unfold safe_add_all. cbn [fold_left]. fold (safe_add_all Z.eqb l (safe_add Z.eqb m k c)).
  etransitivity; [apply IH; auto; now apply natural_safe_add|].
  unfold faces at 4. cbn [flat_map fst snd]. fold (faces l). rewrite faces_safe_add by auto.
  rewrite !app_assoc. apply Permutation_app_tail. apply Permutation_app_comm.
Qed.

Lemma copies_perm : forall k l, Permutation (flat_map (fun v => repeat v k) l) (copies k l).
Proof.
  induction k as [|k IH]; intros l; simpl.
  - induction l; simpl; auto.
  - rewrite <- IH. clear IH. induction l as [|x l IH]; simpl; auto. constructor. rewrite IH.
    rewrite !app_assoc. apply Permutation_app_tail, Permutation_app_comm.
Qed.

Lemma zsafe_add_all_keys : forall l m (v : Z), In v (map fst (safe_add_all Z.eqb l m)) <-> In v (map fst m) \/ In v (map (@fst Z Z) l).
Proof.
  intros l m v. split.
  - apply safe_add_all_keys_in.
  - intros [H|H]; [now apply safe_add_all_keys_keep|].
    destruct (safe_add_all_keys_new Z.eqb l m v H) as [y [H1 [->|H2]]]; auto. apply Z.eqb_eq in H2. now subst.
Qed.

Lemma add_entry_text : forall e d, entry_ok e -> natural_counts d -> NoDup (map fst d) -> exists d',
  add_entry d (entry_text e) = Ok d' /\ natural_counts d' /\ NoDup (map fst d') /\
  Permutation (faces d') (faces d ++ copies (entry_copies e) (entry_values e)) /\
  (forall v, In v (map fst d') <-> In v (map fst d) \/ In v (entry_values e)).
Proof.
  intros e d H N D. set (t := match e_copies e with Some t => t | None => $"1" end).
  assert (Ht : exists c, int_of_text t = Ok c /\ 0 <= c /\ Z.to_nat c = entry_copies e).
  { subst t. unfold entry_copies. destruct H as [_ [_ H]]. destruct (e_copies e) as [t|].
    - destruct (int_of_is_digits t H). eauto.
    - exists 1. repeat split; auto. lia. }
  destruct Ht as [c [Ec [C0 Ek]]].
  assert (Nc : natural_counts (map (fun k => (k, c)) (entry_values e))).
  { intros v x Hx. apply in_map_iff in Hx. destruct Hx as [y [Hy _]]. now inversion Hy; subst. }
  exists (safe_add_all Z.eqb (map (fun k => (k, c)) (entry_values e)) d).
  assert (E : add_entry d (entry_text e) = Ok (safe_add_all Z.eqb (map (fun k => (k, c)) (entry_values e)) d)).
  { unfold add_entry. rewrite entry_split by auto. cbn [rbind]. rewrite body_values by auto. cbn [rbind]. fold t. rewrite Ec. cbn [rbind].
    destruct (entry_values e) ; auto. }
  split; auto. destruct (add_entry_natural _ _ _ N D E) as [N' D']. split; auto. split; auto. split.
  - rewrite faces_safe_add_all by auto. apply Permutation_app_head. unfold faces. rewrite flat_map_concat_map, map_map. simpl.
    rewrite <- flat_map_concat_map, Ek. apply copies_perm.
  - intros v. rewrite zsafe_add_all_keys. rewrite map_map. simpl. now rewrite map_id.
Qed.

Lemma add_entries_text : forall es d, (forall e, In e es -> entry_ok e) -> natural_counts d -> NoDup (map fst d) -> exists d',
  add_entries d (map entry_text es) = Ok d' /\ natural_counts d' /\ NoDup (map fst d') /\
  Permutation (faces d') (faces d ++ custom_faces es) /\
  (forall v, In v (map fst d') <-> In v (map fst d) \/ exists e, In e es /\ In v (entry_values e)).
Proof.
  induction es as [|e es IH]; intros d H N D.
  - exists d. unfold custom_faces. simpl. rewrite app_nil_r. repeat split; auto. intros [H0|[e [[] _]]]. auto.
  - destruct (add_entry_text e d) as [d1 [E1 [N1 [D1 [P1 K1]]]]]; auto; [apply H; left; auto|].
    destruct (IH d1) as [d2 [E2 [N2 [D2 [P2 K2]]]]]; auto; [intros e' He; apply H; right; auto|].
    exists d2. cbn [map add_entries]. rewrite E1. cbn [rbind]. repeat split; auto.
    + rewrite P2, P1. unfold custom_faces. cbn [flat_map]. now rewrite app_assoc.
    + rewrite K2, K1. intros [[H0|H0]|[e' [He Hv]]]; auto; right; eauto using in_eq, in_cons.
    + rewrite K2, K1. intros [H0|[e' [[<-|He] Hv]]]; auto. right. eauto.
Qed.

Lemma entry_text_chars : forall e c, entry_ok e -> In c (entry_text e) ->
  is_digit c = true \/ c = "-"%char \/ c = "*"%char.
Proof.
  assert (Hn : forall n c, numeral_ok n -> In c (numeral_text n) -> is_digit c = true \/ c = "-"%char).
  { intros [mi ds] c [_ D] H. unfold numeral_text in H. cbn [n_minus n_digits] in *. apply in_app_or in H. destruct H as [H|H].
    - destruct mi; [destruct H as [H|[]]; auto | destruct H].
    - left. rewrite forallb_forall in D. auto. }
  intros e c [H1 [H2 H3]] H. unfold entry_text in H. apply in_app_or in H. destruct H as [H|H]; [apply Hn in H; tauto|].
  apply in_app_or in H. destruct H as [H|H].
  - destruct (e_to e); [|destruct H]. destruct H as [H|H]; auto. apply Hn in H; tauto.
  - destruct (e_copies e); [|destruct H]. destruct H as [H|H]; auto. left. destruct H3 as [_ D]. rewrite forallb_forall in D. auto.
Qed.

Lemma strip_custom_text : forall body, ~ In "["%char body -> ~ In "]"%char body ->
  strip_custom ($"[" ++ body ++ $"]") = filter (fun c => negb (is_space c)) body.
Proof.
  intros body H1 H2. unfold strip_custom. cbn [app list_ascii_of_string filter]. change (is_ch "[" "[") with true. cbn [orb negb].
  rewrite filter_app. cbn [list_ascii_of_string filter]. change (is_ch "[" "]") with false. change (is_ch "]" "]") with true. cbn [orb negb].
  rewrite app_nil_r. apply filter_ext_in. intros c Hc.
  assert (E1 : is_ch "[" c = false) by (apply Ascii.eqb_neq; intros <-; auto).
  assert (E2 : is_ch "]" c = false) by (apply Ascii.eqb_neq; intros <-; auto).
  now rewrite E1, E2.
Qed.

Lemma custom_branch : forall s, hd_error s = Some "["%char ->
  get_single_dice_outcome_map s = add_entries [] (split_on (is_ch ",") (strip_custom s)).
Proof.
  intros [|c s] H; [discriminate|]. inversion H; subst. unfold get_single_dice_outcome_map.
  replace (re_test re_starts_digit ("["%char :: s)) with false.
  - reflexivity.
  - symmetry. apply re_test_false; [reflexivity|]. intros s' E. apply leaves_plus in E.
    destruct E as [[|x u] [N [E Hu]]]; [congruence|]. inversion E; subst. discriminate.
Qed.

Lemma comma_free_entries : forall es, (forall e, In e es -> entry_ok e) ->
  forall s, In s (map entry_text es) -> forallb (fun c => negb (is_ch "," c)) s = true.
Proof.
  intros es H s Hs. apply in_map_iff in Hs. destruct Hs as [e [<- He]]. apply forallb_forall. intros c Hc.
  apply negb_true_iff, Ascii.eqb_neq. intros <-. apply entry_text_chars in Hc; auto. destruct Hc as [Hc|[Hc|Hc]]; discriminate.
Qed.

Lemma custom_die_spec : forall s es, is_custom s es -> exists m,
  get_single_dice_outcome_map s = Ok m /\ natural_counts m /\ NoDup (map fst m) /\ Permutation (faces m) (custom_faces es) /\
  (forall v, In v (map fst m) <-> exists e, In e es /\ In v (entry_values e)).
Proof.
  intros s es [Ne [H [body [-> [B1 [B2 F]]]]]]. rewrite custom_branch by reflexivity. rewrite strip_custom_text, F by auto. change ($",") with [","%char].
  rewrite split_join; [|reflexivity | destruct es; [congruence | discriminate] | now apply comma_free_entries].
  destruct (add_entries_text es []) as [m [E [N [D [P K]]]]]; auto; [intros v c [] | constructor |].
  exists m. split; auto. split; auto. split; auto. split; auto. intros v. rewrite K. simpl. intuition.
Qed.

Lemma add_entries_app : forall a b d d', add_entries d a = Ok d' -> add_entries d (a ++ b) = add_entries d' b.
Proof.
  induction a as [|x a IH]; simpl; intros b d d' H; [now inversion H|].
  destruct (add_entry d x); [|discriminate]. simpl in *. auto.
Qed.

Lemma trailing_comma_raises : forall s es, is_custom_trailing s es -> get_single_dice_outcome_map s = Raise ValueError.
Proof.
  intros s es [Ne [H [body [-> [B1 [B2 F]]]]]]. rewrite custom_branch by reflexivity. rewrite strip_custom_text, F by auto. change ($",") with [","%char].
  rewrite split_on_app_gen by reflexivity.
  rewrite split_join; [|reflexivity | destruct es; [congruence | discriminate] | now apply comma_free_entries].
  destruct (add_entries_text es []) as [m [E _]]; auto; [intros v c [] | constructor |].
  rewrite (add_entries_app _ _ _ _ E). reflexivity.
Qed.

Lemma numbered_die_spec : forall s, is_digits s -> get_single_dice_outcome_map s = Ok (map (fun v => (v, 1)) (zrange 1 (decimal s + 1))).
Proof.
  intros s H. unfold get_single_dice_outcome_map. destruct (int_of_is_digits s H) as [E _]. rewrite E.
  replace (re_test re_starts_digit s) with true; auto. symmetry. apply re_test_leaves; [reflexivity|].
  destruct H. exists []. apply leaves_plus. exists s. rewrite app_nil_r. auto.
Qed.

Lemma faces_unit : forall l, faces (map (fun v => (v, 1)) l) = l.
Proof. unfold faces. induction l; simpl; auto. now f_equal. Qed.
