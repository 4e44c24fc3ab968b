(** * PyFacts: lemmas about Py.v *)
From Coq Require Import Permutation Sorting.Sorted Decimal DecimalPos DecimalZ.
From Verif Require Import Py.

(** ** Text equality *)
Lemma text_eqb_eq : forall a b, text_eqb a b = true <-> a = b.
Proof.
  induction a as [|x a IH]; destruct b as [|y b]; simpl; try (split; congruence).
  rewrite andb_true_iff, IH. split.
  - intros [E ->]. apply Ascii.eqb_eq in E. now subst.
  - intros E. injection E as -> ->. split; auto. apply Ascii.eqb_refl.
Qed.

Lemma text_eqb_refl : forall a, text_eqb a a = true.
Proof. intros. now apply text_eqb_eq. Qed.

Lemma text_eqb_neq : forall a b, text_eqb a b = false <-> a <> b.
Proof.
  intros. rewrite <- not_true_iff_false, text_eqb_eq. tauto.
Qed.

Lemma text_eqb_sym : forall a b, text_eqb a b = text_eqb b a.
Proof. intros. apply eq_true_iff_eq. rewrite !text_eqb_eq. split; congruence. Qed.

Lemma text_eq_dec : forall a b : text, {a = b} + {a <> b}.
Proof. apply list_eq_dec, ascii_dec. Qed.

(** ** zsum *)
Lemma zsum_app : forall a b, zsum (a ++ b) = zsum a + zsum b.
Proof. induction a; simpl; intros; [lia|]. rewrite IHa. lia. Qed.

Lemma zsum_perm : forall a b, Permutation a b -> zsum a = zsum b.
Proof. induction 1; simpl; lia. Qed.

Lemma zsum_cons : forall x l, zsum (x :: l) = x + zsum l.
Proof. reflexivity. Qed.

Lemma zsum_map_add : forall A (f g : A -> Z) l,
  zsum (map (fun x => f x + g x) l) = zsum (map f l) + zsum (map g l).
Proof. induction l; simpl; lia. Qed.

Lemma zsum_map_mul_l : forall A (f : A -> Z) k l, zsum (map (fun x => k * f x) l) = k * zsum (map f l).
Proof. induction l; simpl; lia. Qed.

Lemma zsum_map_mul_r : forall A (f : A -> Z) k l, zsum (map (fun x => f x * k) l) = zsum (map f l) * k.
Proof. induction l; simpl; lia. Qed.

Lemma zsum_map_ext_in : forall A (f g : A -> Z) l, (forall x, In x l -> f x = g x) ->
  zsum (map f l) = zsum (map g l).
Proof. intros. f_equal. apply map_ext_in. auto. Qed.

Lemma zsum_map_zero : forall A (f : A -> Z) l, (forall x, In x l -> f x = 0) -> zsum (map f l) = 0.
Proof. induction l; simpl; intros; auto. rewrite H by auto. rewrite IHl; auto. Qed.

Lemma zsum_map_nonneg : forall A (f : A -> Z) l, (forall x, In x l -> 0 <= f x) -> 0 <= zsum (map f l).
Proof.
  induction l; simpl; intros; [lia|]. specialize (IHl (fun x h => H x (or_intror h))).
  specialize (H a (or_introl eq_refl)). lia.
Qed.

Lemma zsum_nonneg : forall l, (forall x, In x l -> 0 <= x) -> 0 <= zsum l.
Proof. intros. rewrite <- (map_id l). apply zsum_map_nonneg. auto. Qed.

Lemma zsum_map_swap : forall A B (f : A -> B -> Z) l1 l2,
  zsum (map (fun a => zsum (map (f a) l2)) l1) = zsum (map (fun b => zsum (map (fun a => f a b) l1)) l2).
Proof.
  induction l1; simpl; intros.
  - symmetry. apply zsum_map_zero. auto.
  - rewrite IHl1, <- zsum_map_add. reflexivity.
Qed.

Lemma zsum_flat_map : forall A B (f : A -> list B) (g : B -> Z) l,
  zsum (map g (flat_map f l)) = zsum (map (fun a => zsum (map g (f a))) l).
Proof. induction l; simpl; intros; auto. rewrite map_app, zsum_app, IHl. auto. Qed.

Lemma zsum_pos_in : forall A (f : A -> Z) l, (forall x, In x l -> 0 <= f x) -> 0 < zsum (map f l) ->
  exists x, In x l /\ 0 < f x.
Proof.
  induction l; simpl; intros; [lia|].
  destruct (Z_lt_le_dec 0 (f a)); [eauto|].
  destruct IHl as [x [Hx Hf]]; auto.
  - specialize (H a (or_introl eq_refl)). lia.
  - eauto.
Qed.

Lemma zsum_in_pos : forall A (f : A -> Z) l x, (forall x, In x l -> 0 <= f x) -> In x l -> 0 < f x ->
  0 < zsum (map f l).
Proof.
  induction l; simpl; intros; [tauto|].
  assert (0 <= zsum (map f l)) by (apply zsum_map_nonneg; auto).
  destruct H0 as [->|H0]; [lia|].
  specialize (IHl x (fun y h => H y (or_intror h)) H0 H1). specialize (H a (or_introl eq_refl)). lia.
Qed.

(** ** zrange *)
Lemma in_zrange : forall a b x, In x (zrange a b) <-> a <= x < b.
Proof.
  intros. unfold zrange. rewrite in_map_iff. split.
  - intros [i [<- Hi]]. apply in_seq in Hi. lia.
  - intros H. exists (Z.to_nat (x - a)). split; [lia|]. apply in_seq. lia.
Qed.

Lemma zrange_nodup : forall a b, NoDup (zrange a b).
Proof.
  intros. unfold zrange. apply FinFun.Injective_map_NoDup.
  - intros x y. lia.
  - apply seq_NoDup.
Qed.

Lemma zrange_nil : forall a b, b <= a -> zrange a b = [].
Proof. intros. unfold zrange. replace (Z.to_nat (b - a)) with O by lia. auto. Qed.

Lemma zrange_cons : forall a b, a < b -> zrange a b = a :: zrange (a + 1) b.
Proof.
  intros. unfold zrange. replace (Z.to_nat (b - a)) with (S (Z.to_nat (b - (a + 1)))) by lia.
  simpl. f_equal; [lia|]. rewrite <- seq_shift, map_map. apply map_ext. intros. lia.
Qed.

Lemma zrange_length : forall a b, length (zrange a b) = Z.to_nat (b - a).
Proof. intros. unfold zrange. now rewrite map_length, seq_length. Qed.

(** ** max, min *)
Lemma fold_max_spec : forall l x, (forall y, In y (x :: l) -> y <= fold_left Z.max l x)
  /\ In (fold_left Z.max l x) (x :: l).
Proof.
  induction l as [|z l IH]; intros x; simpl.
  - split; [intros y [->|[]]; lia | auto].
  - destruct (IH (Z.max x z)) as [H1 H2]. split.
    + intros y [->|[->|Hy]].
      * specialize (H1 _ (or_introl eq_refl)). lia.
      * specialize (H1 _ (or_introl eq_refl)). lia.
      * apply H1. right. auto.
    + destruct H2 as [H2|H2]; [|auto]. rewrite <- H2. destruct (Z.max_spec x z) as [[_ E]|[_ E]]; rewrite E; auto.
Qed.

Lemma fold_min_spec : forall l x, (forall y, In y (x :: l) -> fold_left Z.min l x <= y)
  /\ In (fold_left Z.min l x) (x :: l).
Proof.
  induction l as [|z l IH]; intros x; simpl.
  - split; [intros y [->|[]]; lia | auto].
  - destruct (IH (Z.min x z)) as [H1 H2]. split.
    + intros y [->|[->|Hy]].
      * specialize (H1 _ (or_introl eq_refl)). lia.
      * specialize (H1 _ (or_introl eq_refl)). lia.
      * apply H1. right. auto.
    + destruct H2 as [H2|H2]; [|auto]. rewrite <- H2. destruct (Z.min_spec x z) as [[_ E]|[_ E]]; rewrite E; auto.
Qed.

Lemma pymax_ok : forall l m, pymax l = Ok m <-> In m l /\ (forall y, In y l -> y <= m).
Proof.
  intros [|x l] m; simpl.
  - split; [discriminate | tauto].
  - destruct (fold_max_spec l x) as [H1 H2]. split.
    + intros E. injection E as <-. auto.
    + intros [H3 H4]. f_equal. specialize (H1 m H3). specialize (H4 _ H2). lia.
Qed.

Lemma pymin_ok : forall l m, pymin l = Ok m <-> In m l /\ (forall y, In y l -> m <= y).
Proof.
  intros [|x l] m; simpl.
  - split; [discriminate | tauto].
  - destruct (fold_min_spec l x) as [H1 H2]. split.
    + intros E. injection E as <-. auto.
    + intros [H3 H4]. f_equal. specialize (H1 m H3). specialize (H4 _ H2). lia.
Qed.

Lemma pymax_raise : forall l e, pymax l = Raise e <-> l = [] /\ e = ValueError.
Proof. intros [|x l] e; simpl; split; try discriminate; intuition congruence. Qed.
Lemma pymin_raise : forall l e, pymin l = Raise e <-> l = [] /\ e = ValueError.
Proof. intros [|x l] e; simpl; split; try discriminate; intuition congruence. Qed.

Lemma pymax_some : forall l, l <> [] -> exists m, pymax l = Ok m.
Proof. intros [|x l] H; [congruence|]. simpl. eauto. Qed.
Lemma pymin_some : forall l, l <> [] -> exists m, pymin l = Ok m.
Proof. intros [|x l] H; [congruence|]. simpl. eauto. Qed.

(** ** zsort *)
Lemma zinsert_perm : forall x l, Permutation (zinsert x l) (x :: l).
Proof.
  induction l as [|y l IH]; simpl; auto. destruct (x <=? y); auto.
  rewrite IH. apply perm_swap.
Qed.

Lemma zsort_perm : forall l, Permutation (zsort l) l.
Proof. induction l; simpl; auto. rewrite zinsert_perm. auto. Qed.

Notation zsorted := (Sorted Z.le).

Lemma zinsert_sorted : forall x l, zsorted l -> zsorted (zinsert x l).
Proof.
  induction l as [|y l IH]; simpl; intros H.
  - repeat constructor.
  - destruct (x <=? y) eqn:E.
    + constructor; auto. constructor. lia.
    + inversion H; subst. constructor; auto. destruct l as [|z l]; simpl.
      * constructor. lia.
      * destruct (x <=? z) eqn:E2; constructor; [lia|]. inversion H3; auto.
Qed.

Lemma zsort_sorted : forall l, zsorted (zsort l).
Proof. induction l; simpl; [constructor | now apply zinsert_sorted]. Qed.

Lemma zsorted_strong : forall l, zsorted l -> StronglySorted Z.le l.
Proof. intros. apply Sorted_StronglySorted; auto. intros x y z. lia. Qed.

Lemma sorted_perm_eq : forall a b, zsorted a -> zsorted b -> Permutation a b -> a = b.
Proof.
  intros a b Ha Hb. apply zsorted_strong in Ha. apply zsorted_strong in Hb. revert b Hb.
  induction Ha as [|x a Ha IH Hx]; intros b Hb P.
  - apply Permutation_nil in P. auto.
  - destruct b as [|y b]; [apply Permutation_sym, Permutation_nil in P; discriminate|].
    inversion Hb as [|? ? Hb' Hy]; subst.
    assert (x = y).
    { rewrite Forall_forall in Hx, Hy.
      assert (In x (y :: b)) by (eapply Permutation_in; [apply P | left; auto]).
      assert (In y (x :: a)) by (eapply Permutation_in; [apply Permutation_sym, P | left; auto]).
      destruct H as [->|H]; auto. destruct H0 as [->|H0]; auto.
      specialize (Hx _ H0). specialize (Hy _ H). lia. }
    subst. f_equal. apply IH; auto. eapply Permutation_cons_inv; eauto.
Qed.

Lemma zsort_id : forall l, zsorted l -> zsort l = l.
Proof. intros. apply sorted_perm_eq; auto using zsort_sorted, zsort_perm. Qed.

Lemma zsort_perm_eq : forall a b, Permutation a b -> zsort a = zsort b.
Proof.
  intros. apply sorted_perm_eq; auto using zsort_sorted. rewrite !zsort_perm. auto.
Qed.

Lemma zsum_zsort : forall l, zsum (zsort l) = zsum l.
Proof. intros. apply zsum_perm, zsort_perm. Qed.

(** ** str(int), int(str) *)
Lemma digits_val_acc : forall u p, Z.pos (Pos.of_uint_acc u p) = digits_val (Z.pos p) (text_of_uint u).
Proof.
  unfold digits_val. induction u; intros p; cbn [Pos.of_uint_acc text_of_uint fold_left]; auto;
    rewrite IHu; f_equal; cbn [digit_val]; vm_compute digit_val; lia.
Qed.

Lemma digits_val_uint : forall u, digits_val 0 (text_of_uint u) = Z.of_N (Pos.of_uint u).
Proof.
  induction u; cbn [Pos.of_uint text_of_uint]; auto;
    try (rewrite <- IHu; reflexivity);
    change (Z.of_N (N.pos (Pos.of_uint_acc u ?p))) with (Z.pos (Pos.of_uint_acc u p));
    simpl Z.of_N; rewrite digits_val_acc; reflexivity.
Qed.

Lemma text_of_uint_digits : forall u, forallb is_digit (text_of_uint u) = true.
Proof. induction u; simpl; auto. Qed.

Lemma text_of_uint_all_digits : forall u, u <> Nil -> all_digits (text_of_uint u) = true.
Proof.
  intros u H. pose proof (text_of_uint_digits u) as D.
  destruct u; simpl in *; auto; congruence.
Qed.

Lemma to_int_uint_nonnil : forall z u, (Z.to_int z = Pos u \/ Z.to_int z = Neg u) -> u <> Nil.
Proof.
  intros z u [H|H]; destruct z; simpl in H; try discriminate; injection H as <-; try discriminate;
    apply DecimalPos.Unsigned.to_uint_nonnil.
Qed.

Lemma digit_not_sign : forall c s, is_digit c = true ->
  int_of_text (c :: s) = if all_digits (c :: s) then Ok (digits_val 0 (c :: s)) else Raise ValueError.
Proof.
  intros c s H. unfold int_of_text.
  destruct c as [[|] [|] [|] [|] [|] [|] [|] [|]]; try reflexivity; discriminate.
Qed.

Lemma int_of_digits : forall s, all_digits s = true -> int_of_text s = Ok (digits_val 0 s).
Proof.
  intros [|c s] H; [discriminate|]. rewrite digit_not_sign, H; auto.
  simpl in H. apply andb_true_iff in H. tauto.
Qed.

Lemma int_of_text_of_Z : forall z, int_of_text (text_of_Z z) = Ok z.
Proof.
  intros. unfold text_of_Z. pose proof (DecimalZ.of_to z) as E. destruct (Z.to_int z) as [u|u] eqn:Ei.
  - rewrite int_of_digits by (apply text_of_uint_all_digits; eapply to_int_uint_nonnil; eauto).
    rewrite digits_val_uint. f_equal. exact E.
  - simpl int_of_text. rewrite text_of_uint_all_digits by (eapply to_int_uint_nonnil; eauto).
    rewrite digits_val_uint. f_equal. exact E.
Qed.

Lemma text_of_Z_inj : forall a b, text_of_Z a = text_of_Z b -> a = b.
Proof.
  intros a b E. assert (H : @Ok Z a = Ok b) by (rewrite <- !int_of_text_of_Z; now f_equal). congruence.
Qed.

(** The characters of a printed int: digits and "-" *)
Definition int_char (c : ascii) : bool := is_digit c || Ascii.eqb c "-".

Lemma text_of_Z_chars : forall z, forallb int_char (text_of_Z z) = true.
Proof.
  intros. unfold text_of_Z.
  assert (H : forall u, forallb int_char (text_of_uint u) = true).
  { intros. pose proof (text_of_uint_digits u) as D. rewrite forallb_forall in *. intros c Hc.
    unfold int_char. now rewrite (D c Hc). }
  destruct (Z.to_int z); simpl; auto.
Qed.

Lemma text_of_Z_not_in : forall z c, int_char c = false -> ~ In c (text_of_Z z).
Proof.
  intros z c H Hi. pose proof (text_of_Z_chars z) as D. rewrite forallb_forall in D.
  rewrite (D c Hi) in H. discriminate.
Qed.

Lemma text_of_Z_nonnil : forall z, text_of_Z z <> [].
Proof.
  intros z E. assert (H := int_of_text_of_Z z). rewrite E in H. discriminate.
Qed.

Lemma text_of_Z_nonneg_digits : forall z, 0 <= z -> all_digits (text_of_Z z) = true.
Proof.
  intros z H. unfold text_of_Z. destruct (Z.to_int z) as [u|u] eqn:E.
  - apply text_of_uint_all_digits. eapply to_int_uint_nonnil; eauto.
  - destruct z; simpl in E; try discriminate. lia.
Qed.

(** ** split and join *)
Lemma split_on_none : forall p s, forallb (fun c => negb (p c)) s = true -> split_on p s = [s].
Proof.
  induction s as [|c s IH]; simpl; auto. intros H. apply andb_true_iff in H. destruct H as [H1 H2].
  apply negb_true_iff in H1. rewrite H1, IH; auto.
Qed.

Lemma split_on_nonnil : forall p s, split_on p s <> [].
Proof.
  destruct s as [|c s]; simpl; [congruence|]. destruct (p c); [congruence|].
  destruct (split_on p s); congruence.
Qed.

Lemma split_on_app : forall p s c s', forallb (fun c => negb (p c)) s = true -> p c = true ->
  split_on p (s ++ c :: s') = s :: split_on p s'.
Proof.
  induction s as [|d s IH]; simpl; intros c s' H Hc.
  - now rewrite Hc.
  - apply andb_true_iff in H. destruct H as [H1 H2]. apply negb_true_iff in H1.
    rewrite H1, IH; auto.
Qed.

Lemma split_join : forall p c l, p c = true -> l <> [] ->
  (forall s, In s l -> forallb (fun c => negb (p c)) s = true) -> split_on p (join [c] l) = l.
Proof.
  induction l as [|s l IH]; intros Hc Hn H; [congruence|].
  destruct l as [|s2 l].
  - simpl. apply split_on_none. apply H. left; auto.
  - change (join [c] (s :: s2 :: l)) with (s ++ c :: join [c] (s2 :: l)).
    rewrite split_on_app; auto.
    + rewrite IH; auto; [congruence|]. intros. apply H. right. auto.
    + apply H. left. auto.
Qed.

Lemma join_nil_iff : forall sep l, sep <> [] -> (forall s, In s l -> s <> []) -> join sep l = [] -> l = [].
Proof.
  intros sep [|s [|s2 l]] Hs H E; auto.
  - simpl in E. exfalso. eapply H; [left; eauto | auto].
  - simpl in E. apply app_eq_nil in E. exfalso. eapply H; [left; eauto | tauto].
Qed.

(** ** Dictionaries *)
Fixpoint wsum {K} (P : K -> bool) (l : list (K * Z)) : Z :=
  match l with
  | [] => 0
  | (k, v) :: l' => (if P k then v else 0) + wsum P l'
  end.

Lemma wsum_app : forall K (P : K -> bool) a b, wsum P (a ++ b) = wsum P a + wsum P b.
Proof. induction a as [|[k v] a IH]; simpl; intros; [lia|]. rewrite IH. lia. Qed.

Lemma wsum_zsum : forall K (P : K -> bool) l,
  wsum P l = zsum (map (fun kv => if P (fst kv) then snd kv else 0) l).
Proof. induction l as [|[k v] l IH]; simpl; auto. now rewrite IH. Qed.

Lemma wsum_true : forall K (l : list (K * Z)), wsum (fun _ => true) l = zsum (map snd l).
Proof. induction l as [|[k v] l IH]; simpl; auto. now rewrite IH. Qed.

Lemma wsum_ext_in : forall K (P Q : K -> bool) l, (forall k, In k (map fst l) -> P k = Q k) ->
  wsum P l = wsum Q l.
Proof.
  induction l as [|[k v] l IH]; simpl; intros H; auto. rewrite IH, (H k); auto.
Qed.

Lemma wsum_none : forall K (P : K -> bool) l, (forall k, In k (map fst l) -> P k = false) -> wsum P l = 0.
Proof.
  induction l as [|[k v] l IH]; simpl; intros H; auto. rewrite IH, (H k); auto.
Qed.

Lemma wsum_map_key : forall K L (f : K -> L) (P : L -> bool) l,
  wsum P (map (fun kv => (f (fst kv), snd kv)) l) = wsum (fun k => P (f k)) l.
Proof. induction l as [|[k v] l IH]; simpl; auto. now rewrite IH. Qed.

Lemma wsum_nonneg : forall K (P : K -> bool) l, (forall kv, In kv l -> 0 <= snd kv) -> 0 <= wsum P l.
Proof.
  intros. rewrite wsum_zsum. apply zsum_map_nonneg. intros x Hx. destruct (P (fst x)); auto. lia.
Qed.

Lemma wsum_perm : forall K (P : K -> bool) a b, Permutation a b -> wsum P a = wsum P b.
Proof. intros. rewrite !wsum_zsum. apply zsum_perm, Permutation_map. auto. Qed.

Section DictFacts.
  Context {K : Type} (km : K -> K -> bool).

  Lemma wsum_safe_add : forall (P : K -> bool) d k v,
    (forall k', In k' (map fst d) -> km k' k = true -> P k' = P k) ->
    wsum P (safe_add km d k v) = wsum P d + (if P k then v else 0).
  Proof.
    induction d as [|[k' v'] d IH]; simpl; intros k v H; [destruct (P k); lia|].
    destruct (km k' k) eqn:E; simpl.
    - rewrite (H k'); auto. destruct (P k); lia.
    - rewrite IH; auto. lia.
  Qed.

  Lemma safe_add_keys_in : forall d k v x, In x (map fst (safe_add km d k v)) -> In x (map fst d) \/ x = k.
  Proof.
    induction d as [|[k' v'] d IH]; simpl; intros k v x H; [intuition|].
    destruct (km k' k); simpl in H; destruct H as [H|H]; auto.
    apply IH in H. tauto.
  Qed.

  Lemma safe_add_keys_keep : forall d k v x, In x (map fst d) -> In x (map fst (safe_add km d k v)).
  Proof.
    induction d as [|[k' v'] d IH]; simpl; intros k v x H; [tauto|].
    destruct (km k' k); simpl; intuition.
  Qed.

  Lemma safe_add_keys_new : forall d k v, exists x, In x (map fst (safe_add km d k v)) /\ (x = k \/ km x k = true).
  Proof.
    induction d as [|[k' v'] d IH]; simpl; intros k v.
    - exists k. auto.
    - destruct (km k' k) eqn:E; simpl.
      + exists k'. auto.
      + destruct (IH k v) as [x [H1 H2]]. exists x. auto.
  Qed.

  (** no later key is matched by an earlier one *)
  Inductive unmatched : list (K * Z) -> Prop :=
  | um_nil : unmatched []
  | um_cons : forall k v d, (forall x, In x (map fst d) -> km k x = false) -> unmatched d -> unmatched ((k, v) :: d).

  Lemma safe_add_unmatched : forall d k v, unmatched d -> unmatched (safe_add km d k v).
  Proof.
    induction 1 as [|k' v' d H Hd IH]; simpl.
    - constructor; [simpl; tauto | constructor].
    - destruct (km k' k) eqn:E.
      + constructor; auto.
      + constructor; auto. intros x Hx. apply safe_add_keys_in in Hx. destruct Hx as [Hx| ->]; auto.
  Qed.

  Lemma safe_add_all_cons : forall k v l d,
    safe_add_all km ((k, v) :: l) d = safe_add_all km l (safe_add km d k v).
  Proof. reflexivity. Qed.

  Lemma safe_add_all_app : forall l1 l2 d, safe_add_all km (l1 ++ l2) d = safe_add_all km l2 (safe_add_all km l1 d).
  Proof. intros. unfold safe_add_all. apply fold_left_app. Qed.

  Lemma wsum_safe_add_all : forall (P : K -> bool) l d,
    (forall k k', In k (map fst d ++ map fst l) -> In k' (map fst l) -> km k k' = true -> P k = P k') ->
    wsum P (safe_add_all km l d) = wsum P d + wsum P l.
  Proof.
    induction l as [|[k v] l IH]; intros d H.
    - simpl. lia.
    - rewrite safe_add_all_cons, IH.
      + rewrite wsum_safe_add.
        * simpl. lia.
        * intros k' Hk'. apply H; [apply in_or_app; auto | left; auto].
      + intros k1 k2 H1 H2. apply H; [|right; auto].
        apply in_app_or in H1. apply in_or_app. simpl. destruct H1 as [H1|H1]; auto.
        apply safe_add_keys_in in H1. intuition.
  Qed.

  Lemma safe_add_all_unmatched : forall l d, unmatched d -> unmatched (safe_add_all km l d).
  Proof.
    induction l as [|[k v] l IH]; intros d H; auto. rewrite safe_add_all_cons. apply IH, safe_add_unmatched, H.
  Qed.

  Lemma safe_add_all_keys_in : forall l d x, In x (map fst (safe_add_all km l d)) ->
    In x (map fst d) \/ In x (map fst l).
  Proof.
    induction l as [|[k v] l IH]; intros d x H; auto. rewrite safe_add_all_cons in H.
    apply IH in H. destruct H as [H|H]; simpl; auto. apply safe_add_keys_in in H. intuition.
  Qed.

  Lemma safe_add_all_keys_keep : forall l d x, In x (map fst d) -> In x (map fst (safe_add_all km l d)).
  Proof.
    induction l as [|[k v] l IH]; intros d x H; auto. rewrite safe_add_all_cons.
    apply IH, safe_add_keys_keep, H.
  Qed.

  Lemma safe_add_all_keys_new : forall l d k, In k (map fst l) ->
    exists x, In x (map fst (safe_add_all km l d)) /\ (x = k \/ km x k = true).
  Proof.
    induction l as [|[k v] l IH]; intros d k0 H; [destruct H|]. rewrite safe_add_all_cons. destruct H as [<-|H].
    - destruct (safe_add_keys_new d k v) as [x [H1 H2]]. exists x. split; auto. now apply safe_add_all_keys_keep.
    - apply IH; auto.
  Qed.

  (** a dictionary that already has no matching keys is rebuilt unchanged *)
  Lemma safe_add_new : forall d k v, (forall x, In x (map fst d) -> km x k = false) ->
    safe_add km d k v = d ++ [(k, v)].
  Proof.
    induction d as [|[k' v'] d IH]; simpl; intros k v H; auto. rewrite H, IH; auto.
  Qed.

  Lemma safe_add_all_id : forall l d,
    unmatched (d ++ l) -> safe_add_all km l d = d ++ l.
  Proof.
    induction l as [|[k v] l IH]; intros d H.
    - now rewrite app_nil_r.
    - rewrite safe_add_all_cons, safe_add_new.
      + rewrite IH; rewrite <- app_assoc; auto.
      + revert H. clear. induction d as [|[k' v'] d IH]; simpl; intros H x Hx; [tauto|].
        inversion H; subst. destruct Hx as [<-|Hx].
        * apply H2. rewrite map_app. apply in_or_app. right. left. auto.
        * eauto.
  Qed.

  Lemma safe_add_vals_nonneg : forall d k v, (forall kv, In kv d -> 0 <= snd kv) -> 0 <= v ->
    forall kv, In kv (safe_add km d k v) -> 0 <= snd kv.
  Proof.
    induction d as [|[k' v'] d IH]; simpl; intros k v Hd Hv kv H.
    - destruct H as [<-|[]]. simpl. lia.
    - destruct (km k' k).
      + destruct H as [<-|H]; [|auto]. simpl. specialize (Hd _ (or_introl eq_refl)). simpl in Hd. lia.
      + destruct H as [<-|H]; [apply (Hd _ (or_introl eq_refl))|]. eapply IH; eauto.
  Qed.

  Lemma safe_add_all_vals_nonneg : forall l d, (forall kv, In kv d -> 0 <= snd kv) -> (forall kv, In kv l -> 0 <= snd kv) ->
    forall kv, In kv (safe_add_all km l d) -> 0 <= snd kv.
  Proof.
    induction l as [|[k v] l IH]; intros d Hd Hl; auto. rewrite safe_add_all_cons. apply IH.
    - apply safe_add_vals_nonneg; auto. apply (Hl (k, v)). left. auto.
    - intros. apply Hl. right. auto.
  Qed.
End DictFacts.

(** Keys compared by an equality test *)
Section EqDict.
  Context {K : Type} (km : K -> K -> bool) (km_eq : forall a b, km a b = true <-> a = b).

  Lemma unmatched_nodup : forall d, unmatched km d -> NoDup (map fst d).
  Proof.
    induction 1; simpl; constructor; auto. intros Hi. apply H in Hi.
    assert (km k k = true) by (now apply km_eq). congruence.
  Qed.

  Lemma nodup_unmatched : forall d, NoDup (map fst d) -> unmatched km d.
  Proof.
    induction d as [|[k v] d IH]; simpl; intros H; constructor; inversion H; subst; auto.
    intros x Hx. destruct (km k x) eqn:E; auto. apply km_eq in E. subst. tauto.
  Qed.

  Lemma dget_nodup : forall (d : list (K * Z)) k v, NoDup (map fst d) -> (dget km d k = Some v <-> In (k, v) d).
  Proof.
    induction d as [|[k' v'] d IH]; simpl; intros k v H; [split; [discriminate|tauto]|].
    inversion H as [|? ? Hn Hd]; subst. destruct (km k' k) eqn:E.
    - apply km_eq in E. subst. split; [intros Ev; injection Ev as ->; auto|].
      intros [Ev|Hi]; [congruence|]. exfalso. apply Hn. apply (in_map fst) in Hi. auto.
    - rewrite IH by auto. split; auto. intros [Ev|Hi]; auto. injection Ev as -> ->.
      assert (km k k = true) by (now apply km_eq). congruence.
  Qed.

  Lemma dget_wsum : forall (d : list (K * Z)) k, NoDup (map fst d) ->
    match dget km d k with Some v => v | None => 0 end = wsum (fun k' => km k' k) d.
  Proof.
    induction d as [|[k' v'] d IH]; simpl; intros k H; auto.
    inversion H as [|? ? Hn Hd]; subst. destruct (km k' k) eqn:E.
    - apply km_eq in E. subst. rewrite wsum_none; [lia|].
      intros x Hx. destruct (km x k) eqn:E; auto. apply km_eq in E. subst. tauto.
    - rewrite IH; auto.
  Qed.
End EqDict.

Section EqDict2.
  Context {K V : Type} (km : K -> K -> bool) (km_eq : forall a b, km a b = true <-> a = b).

  Lemma dget_none : forall (d : list (K * V)) k, dget km d k = None <-> ~ In k (map fst d).
  Proof.
    induction d as [|[k' v'] d IH]; simpl; intros k; [tauto|].
    destruct (km k' k) eqn:E.
    - apply km_eq in E. split; [discriminate | tauto].
    - rewrite IH. split; [|tauto]. intros H [->|H2]; [|tauto].
      assert (km k k = true) by (now apply km_eq). congruence.
  Qed.

  Lemma dget_some_in : forall (d : list (K * V)) k v, dget km d k = Some v -> In (k, v) d.
  Proof.
    induction d as [|[k' v'] d IH]; simpl; intros k v H; [discriminate|].
    destruct (km k' k) eqn:E; auto. apply km_eq in E. subst. left. congruence.
  Qed.

  Lemma dmem_in : forall (d : list (K * V)) k, dmem km d k = true <-> In k (map fst d).
  Proof.
    intros. unfold dmem. destruct (dget km d k) eqn:E.
    - split; auto. intros _. apply dget_some_in in E. apply (in_map fst) in E. auto.
    - apply dget_none in E. split; [discriminate | tauto].
  Qed.

  Lemma dget_dset_same : forall (d : list (K * V)) k v, dget km (dset km d k v) k = Some v.
  Proof.
    induction d as [|[k' v'] d IH]; simpl; intros k v.
    - now rewrite (proj2 (km_eq k k) eq_refl).
    - destruct (km k' k) eqn:E; simpl; rewrite E; auto.
  Qed.

  Lemma dget_dset_other : forall (d : list (K * V)) k v k', k' <> k -> dget km (dset km d k v) k' = dget km d k'.
  Proof.
    induction d as [|[k0 v0] d IH]; simpl; intros k v k' H.
    - destruct (km k k') eqn:E; auto. apply km_eq in E. congruence.
    - destruct (km k0 k) eqn:E; simpl.
      + apply km_eq in E. subst. destruct (km k k') eqn:E; auto. apply km_eq in E. congruence.
      + destruct (km k0 k') eqn:E2; auto.
  Qed.

  Lemma dset_keys : forall (d : list (K * V)) k v x, In x (map fst (dset km d k v)) <-> In x (map fst d) \/ x = k.
  Proof.
    induction d as [|[k0 v0] d IH]; simpl; intros k v x; [intuition|].
    destruct (km k0 k) eqn:E; simpl.
    - apply km_eq in E. subst. intuition.
    - rewrite IH. intuition.
  Qed.

  Lemma dset_vals : forall (d : list (K * V)) k v x w, In (x, w) (dset km d k v) -> In (x, w) d \/ (w = v /\ x = k).
  Proof.
    induction d as [|[k0 v0] d IH]; simpl; intros k v x w H.
    - destruct H as [H|[]]. injection H as -> ->. auto.
    - destruct (km k0 k) eqn:E; simpl in H.
      + apply km_eq in E. subst. destruct H as [H|H]; auto. injection H as -> ->. auto.
      + destruct H as [H|H]; auto. apply IH in H. tauto.
  Qed.

  Lemma dset_nodup : forall (d : list (K * V)) k v, NoDup (map fst d) -> NoDup (map fst (dset km d k v)).
  Proof.
    induction d as [|[k0 v0] d IH]; simpl; intros k v H.
    - constructor; [tauto | constructor].
    - inversion H; subst. destruct (km k0 k) eqn:E; simpl; constructor; auto.
      intros Hi. apply dset_keys in Hi. destruct Hi as [Hi| ->]; auto.
      assert (km k k = true) by (now apply km_eq). congruence.
  Qed.
End EqDict2.

Lemma Zeqb_iff : forall a b, (a =? b) = true <-> a = b.
Proof. apply Z.eqb_eq. Qed.

(** Integer dictionaries *)
Definition zget (m : list (Z * Z)) (v : Z) : Z := match dget Z.eqb m v with Some c => c | None => 0 end.

Lemma zget_wsum : forall m v, NoDup (map fst m) -> zget m v = wsum (fun x => x =? v) m.
Proof. intros. apply (dget_wsum Z.eqb Zeqb_iff). auto. Qed.

Lemma zdict_nodup : forall l, NoDup (map fst (safe_add_all Z.eqb l [])).
Proof.
  intros. apply (unmatched_nodup Z.eqb Zeqb_iff). apply safe_add_all_unmatched. constructor.
Qed.

Lemma zdict_wsum : forall P l, wsum P (safe_add_all Z.eqb l []) = wsum P l.
Proof.
  intros. rewrite wsum_safe_add_all; [reflexivity|]. intros k k' _ _ E. apply Z.eqb_eq in E. now subst.
Qed.

Lemma zdict_keys : forall l x, In x (map fst (safe_add_all Z.eqb l [])) <-> In x (map fst l).
Proof.
  intros. split.
  - intros H. apply safe_add_all_keys_in in H. destruct H as [H|H]; [destruct H | auto].
  - intros H. destruct (safe_add_all_keys_new Z.eqb l [] x H) as [y [H1 H2]].
    destruct H2 as [->|H2]; auto. apply Z.eqb_eq in H2. now subst.
Qed.

Lemma zdict_get : forall l v, zget (safe_add_all Z.eqb l []) v = wsum (fun x => x =? v) l.
Proof. intros. rewrite zget_wsum by apply zdict_nodup. apply zdict_wsum. Qed.

(** ** pairs *)
Lemma in_pairs : forall A B (l1 : list A) (l2 : list B) a b, In (a, b) (pairs l1 l2) <-> In a l1 /\ In b l2.
Proof.
  intros. unfold pairs. rewrite in_flat_map. split.
  - intros [x [Hx H]]. apply in_map_iff in H. destruct H as [y [E Hy]]. injection E as -> ->. auto.
  - intros [H1 H2]. exists a. split; auto. apply in_map. auto.
Qed.

Lemma pairs_zsum : forall A B (f : A -> B -> Z) l1 l2,
  zsum (map (fun ab => f (fst ab) (snd ab)) (pairs l1 l2)) = zsum (map (fun a => zsum (map (f a) l2)) l1).
Proof.
  intros. unfold pairs. rewrite zsum_flat_map. f_equal. apply map_ext. intros. now rewrite map_map.
Qed.
