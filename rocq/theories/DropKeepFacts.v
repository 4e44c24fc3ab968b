(** * DropKeepFacts: lemmas about the keep/drop part of DiceModel.v *)
From Coq Require Import Permutation Sorting.
From Verif Require Import Py PyFacts PyFloat Constraint ConstraintFacts Distribution DistFacts DiceModel SpecDice DiceFacts.

(** ** Sorting *)
Lemma zsorted_cons : forall x l, zsorted (x :: l) <-> zsorted l /\ forall y, In y l -> x <= y.
Proof.
  intros x l. split.
  - intros H. split; [now inversion H|]. apply zsorted_strong in H. inversion H; subst. now apply Forall_forall.
  - intros [H1 H2]. constructor; auto. destruct l; constructor. apply H2. left. auto.
Qed.

Lemma zsorted_app : forall a b, zsorted (a ++ b) <-> zsorted a /\ zsorted b /\ forall x y, In x a -> In y b -> x <= y.
Proof.
  induction a as [|x a IH]; intros b.
  - simpl. split; [intros H; split; [constructor | split; [auto | intros x y []]] | tauto].
  - simpl app. rewrite !zsorted_cons, IH. split.
    + intros [[H1 [H2 H3]] H4]. split; [split; auto; intros; apply H4, in_or_app; auto|].
      split; auto. intros x' y [<-|Hx] Hy; auto. apply H4, in_or_app. auto.
    + intros [[H1 H2] [H3 H4]]. split; [split; [|split]; auto; intros; apply H4; simpl; auto|].
      intros y Hy. apply in_app_or in Hy. destruct Hy; auto. apply H4; simpl; auto.
Qed.

Lemma zsorted_filter : forall f l, zsorted l -> zsorted (filter f l).
Proof.
  induction l as [|x l IH]; simpl; auto. intros H. apply zsorted_cons in H. destruct H as [H1 H2].
  destruct (f x); auto. apply zsorted_cons. split; auto. intros y Hy. apply filter_In in Hy. apply H2. tauto.
Qed.

Lemma filter_split_perm : forall A (f : A -> bool) l, Permutation l (filter f l ++ filter (fun x => negb (f x)) l).
Proof.
  induction l as [|x l IH]; simpl; auto. destruct (f x); simpl.
  - now constructor.
  - apply Permutation_cons_app. auto.
Qed.

(** A sorted list split at a threshold (either way of counting equal elements) *)
Lemma sorted_split : forall f s x, zsorted s ->
  (forall a b, f a = true -> f b = false -> a <= x /\ x <= b) ->
  s = filter f s ++ filter (fun y => negb (f y)) s /\
  ((forall a, f a = true -> a <= x) -> (forall b, f b = false -> x <= b) ->
   zinsert x s = filter f s ++ x :: filter (fun y => negb (f y)) s).
Proof.
  intros f s x S F. split.
  - apply sorted_perm_eq; auto; [|apply filter_split_perm].
    apply zsorted_app. split; [|split]; auto using zsorted_filter.
    intros a b Ha Hb. apply filter_In in Ha. apply filter_In in Hb. destruct Ha as [_ Ha]. destruct Hb as [_ Hb].
    apply negb_true_iff in Hb. destruct (F a b); auto. lia.
  - intros F1 F2. apply sorted_perm_eq.
    + now apply zinsert_sorted.
    + apply zsorted_app. split; [|split]; auto using zsorted_filter.
      * apply zsorted_cons. split; auto using zsorted_filter. intros y Hy. apply filter_In in Hy.
        destruct Hy as [_ Hy]. apply negb_true_iff in Hy. auto.
      * intros a b Ha [<-|Hb]; apply filter_In in Ha; destruct Ha as [_ Ha]; auto.
        apply filter_In in Hb. destruct Hb as [_ Hb]. apply negb_true_iff in Hb. destruct (F a b); auto. lia.
    + rewrite zinsert_perm. apply Permutation_cons_app. apply filter_split_perm.
Qed.

Lemma filter_all_length : forall A (f : A -> bool) l, (forall x, In x l -> f x = true) -> length (filter f l) = length l.
Proof. induction l; simpl; auto. intros H. rewrite H by auto. simpl. f_equal. auto. Qed.

Lemma filter_perm_length : forall A (f : A -> bool) a b, Permutation a b -> length (filter f a) = length (filter f b).
Proof.
  induction 1; simpl; auto.
  - destruct (f x); simpl; auto.
  - destruct (f x), (f y); simpl; auto.
  - congruence.
Qed.

Lemma last_n_app : forall k (a b : list Z), (k <= length b)%nat -> skipn (length (a ++ b) - k) (a ++ b) = skipn (length b - k) b.
Proof.
  intros k a b H. rewrite skipn_app, app_length.
  replace (length a + length b - k - length a)%nat with (length b - k)%nat by lia.
  rewrite skipn_all2 by lia. reflexivity.
Qed.

(** dropping the smallest of the kept dice plus a new one *)
Lemma keep_step : forall x l t, (forall y, In y l -> x <= y) ->
  skipn (length (x :: l ++ t) - length l) (zsort (x :: l ++ t)) = skipn (length (l ++ t) - length l) (zsort (l ++ t)).
Proof.
  intros x l t H. change (zsort (x :: l ++ t)) with (zinsert x (zsort (l ++ t))).
  set (s := zsort (l ++ t)). assert (S : zsorted s) by apply zsort_sorted.
  assert (P : Permutation s (l ++ t)) by apply zsort_perm.
  destruct (sorted_split (fun y => y <? x) s x S) as [E1 E2].
  { intros a b Ha Hb. lia. }
  rewrite E2 by (intros; lia). set (A := filter (fun y => y <? x) s) in *. set (B := filter (fun y => negb (y <? x)) s) in *.
  assert (LB : (length l <= length B)%nat).
  { subst B. rewrite (filter_perm_length _ _ _ _ P), filter_app, app_length, (filter_all_length _ _ l); [lia|].
    intros y Hy. apply H in Hy. lia. }
  assert (L1 : length (x :: l ++ t) = length (A ++ x :: B)).
  { rewrite <- E2 by (intros; lia). simpl. rewrite (Permutation_length (zinsert_perm x s)). simpl. now rewrite (Permutation_length P). }
  assert (L2 : length (l ++ t) = length (A ++ B)) by (rewrite <- E1; symmetry; now apply Permutation_length).
  rewrite L1, L2. rewrite E1. fold A B. replace (A ++ x :: B) with ((A ++ [x]) ++ B) by (rewrite <- app_assoc; reflexivity).
  rewrite !last_n_app by auto. reflexivity.
Qed.

(** dropping the largest of the kept dice plus a new one *)
Lemma drop_step : forall x l t, (forall y, In y l -> y <= x) ->
  firstn (length l) (zsort (x :: l ++ t)) = firstn (length l) (zsort (l ++ t)).
Proof.
  intros x l t H. change (zsort (x :: l ++ t)) with (zinsert x (zsort (l ++ t))).
  set (s := zsort (l ++ t)). assert (S : zsorted s) by apply zsort_sorted.
  assert (P : Permutation s (l ++ t)) by apply zsort_perm.
  destruct (sorted_split (fun y => y <=? x) s x S) as [E1 E2].
  { intros a b Ha Hb. lia. }
  rewrite E2 by (intros; lia). rewrite E1 at 3. set (A := filter (fun y => y <=? x) s) in *.
  assert (LA : (length l <= length A)%nat).
  { subst A. rewrite (filter_perm_length _ _ _ _ P), filter_app, app_length, (filter_all_length _ _ l); [lia|].
    intros y Hy. apply H in Hy. lia. }
  rewrite !firstn_app. replace (length l - length A)%nat with O by lia. reflexivity.
Qed.

(** ** The running selections of the code *)
Definition g_build (l : list Z) (v : Z) : list Z := zsort (l ++ [v]).
Definition g_update (keep : bool) (l : list Z) (v : Z) : list Z :=
  let l' := zsort (l ++ [v]) in if keep then tl l' else removelast l'.

Lemma g_build_fold : forall t l, fold_left g_build t (zsort l) = zsort (l ++ t).
Proof.
  induction t as [|v t IH]; intros l; simpl; [now rewrite app_nil_r|].
  change (g_build (zsort l) v) with (zsort (zsort l ++ [v])). rewrite IH.
  apply zsort_perm_eq. rewrite <- app_assoc. apply Permutation_app_tail. apply zsort_perm.
Qed.

Lemma zsort_snoc_decomp_min : forall l v, exists x l', zsort (l ++ [v]) = x :: l' /\ (forall y, In y l' -> x <= y) /\
  length l' = length l /\ Permutation (l ++ [v]) (x :: l').
Proof.
  intros l v. assert (S := zsort_sorted (l ++ [v])). assert (P := zsort_perm (l ++ [v])).
  destruct (zsort (l ++ [v])) as [|x l'] eqn:E.
  - apply Permutation_length in P. rewrite app_length in P. simpl in P. lia.
  - exists x, l'. apply zsorted_cons in S. repeat split; try tauto.
    + apply Permutation_length in P. rewrite app_length in P. simpl in P. lia.
    + now symmetry.
Qed.

Lemma zsort_snoc_decomp_max : forall l v, exists x l', zsort (l ++ [v]) = l' ++ [x] /\ (forall y, In y l' -> y <= x) /\
  length l' = length l /\ Permutation (l ++ [v]) (x :: l').
Proof.
  intros l v. assert (S := zsort_sorted (l ++ [v])). assert (P := zsort_perm (l ++ [v])).
  destruct (exists_last (l := zsort (l ++ [v]))) as [l' [x E]].
  - intros E. rewrite E in P. apply Permutation_length in P. rewrite app_length in P. simpl in P. lia.
  - exists x, l'. rewrite E in *. apply zsorted_app in S. repeat split; auto.
    + intros y Hy. apply S; simpl; auto.
    + apply Permutation_length in P. rewrite !app_length in P. simpl in P. lia.
    + rewrite <- P, Permutation_app_comm. reflexivity.
Qed.

Lemma g_keep_fold : forall t l, zsorted l -> fold_left (g_update true) t l = skipn (length (l ++ t) - length l) (zsort (l ++ t)).
Proof.
  induction t as [|v t IH]; intros l S.
  - simpl. rewrite app_nil_r, Nat.sub_diag. simpl. symmetry. now apply zsort_id.
  - cbn [fold_left]. destruct (zsort_snoc_decomp_min l v) as [x [l' [E [Hx [Hl P]]]]].
    assert (E' : g_update true l v = l') by (unfold g_update; rewrite E; reflexivity). rewrite E', IH.
    + rewrite <- (keep_step x l' t Hx), Hl.
      assert (P' : Permutation (x :: l' ++ t) (l ++ v :: t)).
      { change (x :: l' ++ t) with ((x :: l') ++ t). rewrite <- P, <- app_assoc. reflexivity. }
      rewrite (Permutation_length P'), (zsort_perm_eq _ _ P'). reflexivity.
    + assert (S' := zsort_sorted (l ++ [v])). rewrite E in S'. apply zsorted_cons in S'. tauto.
Qed.

Lemma g_drop_fold : forall t l, zsorted l -> fold_left (g_update false) t l = firstn (length l) (zsort (l ++ t)).
Proof.
  induction t as [|v t IH]; intros l S.
  - simpl. rewrite app_nil_r, zsort_id by auto. now rewrite firstn_all.
  - cbn [fold_left]. destruct (zsort_snoc_decomp_max l v) as [x [l' [E [Hx [Hl P]]]]].
    assert (E' : g_update false l v = l') by (unfold g_update; rewrite E; apply removelast_last). rewrite E', IH.
    + rewrite <- (drop_step x l' t Hx), Hl.
      assert (P' : Permutation (x :: l' ++ t) (l ++ v :: t)).
      { change (x :: l' ++ t) with ((x :: l') ++ t). rewrite <- P, <- app_assoc. reflexivity. }
      rewrite (zsort_perm_eq _ _ P'). reflexivity.
    + assert (S' := zsort_sorted (l ++ [v])). rewrite E in S'. apply zsorted_app in S'. tauto.
Qed.

(** ** String keys *)
Lemma ints_of_texts_str : forall l, ints_of_texts (map text_of_Z l) = Ok l.
Proof. induction l; simpl; auto. now rewrite int_of_text_of_Z, IHl. Qed.

Lemma key_roundtrip : forall l, string_key_to_list (int_list_to_string l) = Ok (zsort l).
Proof.
  intros l. unfold int_list_to_string. set (s := zsort l). unfold string_key_to_list.
  destruct s as [|z s'] eqn:E; [reflexivity|]. rewrite <- E.
  assert (N : join $"|" (map text_of_Z s) <> []).
  { intros H. apply join_nil_iff in H; [|discriminate|].
    - rewrite E in H. discriminate.
    - intros t Ht. apply in_map_iff in Ht. destruct Ht as [y [<- _]]. apply text_of_Z_nonnil. }
  assert (Sp : split_on (is_ch "|") (join $"|" (map text_of_Z s)) = map text_of_Z s).
  { apply split_join; [reflexivity | rewrite E; discriminate |].
    intros t Ht. apply in_map_iff in Ht. destruct Ht as [y [<- _]]. apply forallb_forall. intros c Hc.
    apply negb_true_iff. unfold is_ch. destruct (Ascii.eqb "|" c) eqn:Ec; auto. apply Ascii.eqb_eq in Ec. subst c.
    exfalso. revert Hc. now apply text_of_Z_not_in. }
  replace (z :: s') with s by auto.
  destruct (join $"|" (map text_of_Z s)) eqn:Ej; [congruence|]. rewrite Sp. apply ints_of_texts_str.
Qed.

Definition decode (k : text) : list Z := match string_key_to_list k with Ok l => l | Raise _ => [] end.
Definition canon (k : text) : Prop := string_key_to_list k = Ok (decode k) /\ zsorted (decode k).

Lemma canon_enc : forall l, canon (int_list_to_string l) /\ decode (int_list_to_string l) = zsort l.
Proof.
  intros l. unfold canon, decode. rewrite key_roundtrip. repeat split; auto. apply zsort_sorted.
Qed.

(** ** Passes over the string-keyed dictionaries *)
Definition ksum (F : list Z -> Z) (cur : list (text * Z)) : Z := zsum (map (fun kc => snd kc * F (decode (fst kc))) cur).
Definition kcanon (cur : list (text * Z)) : Prop := forall k, In k (map fst cur) -> canon k.
Definition kin (cur : list (text * Z)) (l : list Z) : Prop := exists k, In k (map fst cur) /\ decode k = l.

Lemma ksum_safe_add : forall F d k v, ksum F (safe_add text_eqb d k v) = ksum F d + v * F (decode k).
Proof.
  unfold ksum. induction d as [|[k' v'] d IH]; simpl; intros k v; [lia|].
  destruct (text_eqb k' k) eqn:E; simpl.
  - apply text_eqb_eq in E. subst. lia.
  - rewrite IH. lia.
Qed.

Lemma tkeys_safe_add : forall d k (v : Z) x, In x (map fst (safe_add text_eqb d k v)) <-> In x (map fst d) \/ x = k.
Proof.
  induction d as [|[k' v'] d IH]; simpl; intros k v x; [intuition|].
  destruct (text_eqb k' k) eqn:E; simpl.
  - apply text_eqb_eq in E. subst. intuition.
  - rewrite IH. tauto.
Qed.

Section Pass.
  Context (g : list Z -> Z -> list Z) (upd : text -> Z -> res text).
  Context (g_sorted : forall l v, zsorted (g l v)).
  Context (upd_g : forall k v, canon k -> upd k v = Ok (int_list_to_string (g (decode k) v))).

  Lemma dk_pass_spec : forall ps acc, (forall p, In p ps -> canon (fst (snd p))) -> kcanon acc ->
    exists r, dk_pass upd ps acc = Ok r /\ kcanon r /\
      (forall F, ksum F r = ksum F acc + zsum (map (fun p : (Z * Z) * (text * Z) =>
                    snd (snd p) * snd (fst p) * F (g (decode (fst (snd p))) (fst (fst p)))) ps)) /\
      (forall l, kin r l <-> kin acc l \/ exists p, In p ps /\ l = g (decode (fst (snd p))) (fst (fst p))) /\
      ((forall p, In p ps -> 0 <= snd (fst p) /\ 0 <= snd (snd p)) -> (forall kc, In kc acc -> 0 <= snd kc) -> forall kc, In kc r -> 0 <= snd kc).
  Proof.
    induction ps as [|[[face count] [k c]] ps IH]; intros acc Hps Hacc.
    - exists acc. split; auto. split; auto. split; [intros F; simpl; lia|]. split; auto.
      intros l. split; auto. intros [H|[p [[] _]]]. auto.
    - assert (Hk : canon k) by (apply (Hps _ (or_introl eq_refl))).
      cbn [dk_pass]. rewrite upd_g by auto. cbn [rbind].
      set (k' := int_list_to_string (g (decode k) face)).
      destruct (canon_enc (g (decode k) face)) as [Ck' Dk']. fold k' in Ck', Dk'. rewrite zsort_id in Dk' by auto.
      destruct (IH (safe_add text_eqb acc k' (c * count))) as [r [E [Cr [Sr [Kr Nr]]]]].
      { intros p Hp. apply Hps. right. auto. }
      { intros x Hx. apply tkeys_safe_add in Hx. destruct Hx as [Hx| ->]; auto. }
      exists r. split; auto. split; auto. split; [|split].
      + intros F. rewrite Sr, ksum_safe_add, Dk'. cbn [map fst snd]. rewrite zsum_cons. lia.
      + intros l. rewrite Kr. unfold kin. split.
        * intros [[x [Hx <-]]|[p [Hp ->]]].
          -- apply tkeys_safe_add in Hx. destruct Hx as [Hx| ->]; [left; eauto|]. right.
             exists ((face, count), (k, c)). split; [left; auto | auto].
          -- right. exists p. split; [right; auto | auto].
        * intros [[x [Hx <-]]|[p [[<-|Hp] ->]]].
          -- left. exists x. split; auto. apply tkeys_safe_add. auto.
          -- left. exists k'. split; [apply tkeys_safe_add; auto | auto].
          -- right. eauto.
      + intros Hp Ha. apply Nr.
        * intros p Hp'. apply Hp. right. auto.
        * apply safe_add_vals_nonneg; auto. destruct (Hp _ (or_introl eq_refl)). simpl in *. nia.
  Qed.

  Lemma kin_pairs : forall (m : list (Z * Z)) cur l, (exists p, In p (pairs m cur) /\ l = g (decode (fst (snd p))) (fst (fst p))) <->
    exists v l0, In v (map fst m) /\ kin cur l0 /\ l = g l0 v.
  Proof.
    intros m cur l. split.
    - intros [[[v c] [k c']] [Hp ->]]. apply in_pairs in Hp. destruct Hp as [H1 H2]. simpl.
      apply (in_map fst) in H1. apply (in_map fst) in H2. exists v, (decode k). repeat split; auto. exists k. auto.
    - intros [v [l0 [Hv [[k [Hk <-]] ->]]]]. apply in_map_iff in Hv. apply in_map_iff in Hk.
      destruct Hv as [vc [<- Hv]]. destruct Hk as [kc [<- Hk]]. exists (vc, kc). split; auto. apply in_pairs. auto.
  Qed.

  Lemma dk_passes_spec : forall m, natural_counts m -> forall n cur, kcanon cur -> (forall kc, In kc cur -> 0 <= snd kc) ->
    exists r, dk_passes upd n m cur = Ok r /\ kcanon r /\ (forall kc, In kc r -> 0 <= snd kc) /\
      (forall F, ksum F r = lsum (fun t => ksum (fun l => F (fold_left g t l)) cur) (tuples n (faces m))) /\
      (forall l, kin r l <-> exists t l0, length t = n /\ (forall x, In x t -> In x (map fst m)) /\ kin cur l0 /\ l = fold_left g t l0).
  Proof.
    intros m N. induction n as [|n IH]; intros cur C P.
    - exists cur. simpl. split; auto. split; auto. split; auto. split.
      + intros F. unfold lsum. cbn [tuples map fold_left]. rewrite zsum_cons. simpl (zsum []). rewrite Z.add_0_r. reflexivity.
      + intros l. split.
        * intros H. exists [], l. repeat split; auto. intros x [].
        * intros [t [l0 [Ht [_ [H ->]]]]]. destruct t; [auto | discriminate].
    - cbn [dk_passes].
      destruct (dk_pass_spec (pairs m cur) []) as [cur' [E [C' [S' [K' N']]]]].
      { intros [vc kc] Hp. apply in_pairs in Hp. apply C. apply in_map. tauto. }
      { intros k []. }
      rewrite E. cbn [rbind].
      destruct (IH cur' C') as [r [Er [Cr [Nr [Sr Kr]]]]].
      { apply N'; [|intros kc []]. intros [[v c] kc] Hp. apply in_pairs in Hp. destruct Hp as [H1 H2]. split.
        - apply (N v c). auto.
        - apply P. auto. }
      exists r. split; auto. split; auto. split; auto. split.
      + intros F. rewrite Sr, lsum_tuples.
        transitivity (lsum (fun t => lsum (fun x => ksum (fun l => F (fold_left g (x :: t) l)) cur) (faces m)) (tuples n (faces m))).
        * apply lsum_ext. intros t _. rewrite S'. unfold ksum at 1. cbn [map zsum fold_right]. rewrite Z.add_0_l.
          rewrite (lsum_faces _ m N).
          rewrite (pairs_zsum _ _ (fun a b => snd b * snd a * F (fold_left g t (g (decode (fst b)) (fst a))))).
          apply zsum_map_ext_in. intros [v c] _. cbn [fst snd]. unfold ksum. rewrite <- zsum_map_mul_l.
          apply zsum_map_ext_in. intros [k c'] _. cbn [fst snd fold_left]. lia.
        * unfold lsum. apply zsum_map_swap.
      + intros l. rewrite Kr. split.
        * intros [t [l0 [Ht [Hx [H0 ->]]]]]. rewrite K' in H0. destruct H0 as [[k [[] _]]|H0].
          apply kin_pairs in H0. destruct H0 as [v [l1 [Hv [H1 ->]]]]. exists (v :: t), l1.
          repeat split; auto; [simpl; auto | intros x [<-|H]; auto].
        * intros [[|v t] [l0 [Ht [Hx [H0 ->]]]]]; [discriminate|]. exists t, (g l0 v). repeat split; auto.
          -- intros x H. apply Hx. right. auto.
          -- rewrite K'. right. apply kin_pairs. exists v, l0. repeat split; auto. apply Hx. left. auto.
  Qed.
End Pass.

Lemma build_key_g : forall k v, canon k -> build_key k v = Ok (int_list_to_string (g_build (decode k) v)).
Proof. intros k v [E _]. unfold build_key. rewrite E. reflexivity. Qed.

Lemma update_key_g : forall keep k v, canon k -> update_key keep k v = Ok (int_list_to_string (g_update keep (decode k) v)).
Proof. intros keep k v [E _]. unfold update_key. rewrite E. reflexivity. Qed.

Lemma g_build_sorted : forall l v, zsorted (g_build l v).
Proof. intros. apply zsort_sorted. Qed.

Lemma g_update_sorted : forall keep l v, zsorted (g_update keep l v).
Proof.
  intros [|] l v; unfold g_update.
  - destruct (zsort_snoc_decomp_min l v) as [x [l' [E _]]]. rewrite E. simpl.
    assert (S := zsort_sorted (l ++ [v])). rewrite E in S. apply zsorted_cons in S. tauto.
  - destruct (zsort_snoc_decomp_max l v) as [x [l' [E _]]]. rewrite E, removelast_last.
    assert (S := zsort_sorted (l ++ [v])). rewrite E in S. apply zsorted_app in S. tauto.
Qed.

Lemma collapse_spec : forall cur acc, kcanon cur -> exists r, collapse_outcomes cur acc = Ok r /\
  (forall F, zsum (map (fun vc => snd vc * F (fst vc)) r) =
             zsum (map (fun vc => snd vc * F (fst vc)) acc) + ksum (fun l => F (zsum l)) cur) /\
  (forall v, In v (map fst r) <-> In v (map fst acc) \/ exists l, kin cur l /\ zsum l = v) /\
  ((forall vc, In vc acc -> 0 <= snd vc) -> (forall kc, In kc cur -> 0 <= snd kc) -> natural_counts r).
Proof.
  induction cur as [|[k c] cur IH]; intros acc C.
  - exists acc. simpl. split; auto. split; [intros; unfold ksum; simpl; lia|]. split.
    + intros v. split; auto. intros [H|[l [[x [[] _]] _]]]. auto.
    + intros H _ v c Hv. apply H in Hv. auto.
  - assert (Ck : canon k) by (apply C; left; auto). destruct Ck as [Ek Sk]. cbn [collapse_outcomes]. rewrite Ek. cbn [rbind].
    destruct (IH (safe_add Z.eqb acc (zsum (decode k)) c)) as [r [E [S [K N]]]]; [intros x Hx; apply C; right; auto|].
    exists r. split; auto. split; [|split].
    + intros F. rewrite S. change (safe_add Z.eqb acc (zsum (decode k)) c) with (safe_add_all Z.eqb [(zsum (decode k), c)] acc).
      rewrite zsaa_sum. unfold ksum. cbn [map fst snd]. rewrite !zsum_cons. simpl (zsum []). lia.
    + intros v. rewrite K. clear - K. assert (H : In v (map fst (safe_add Z.eqb acc (zsum (decode k)) c)) <-> In v (map fst acc) \/ v = zsum (decode k)).
      { split.
        - apply safe_add_keys_in.
        - intros [H| ->]; [now apply safe_add_keys_keep|].
          destruct (safe_add_keys_new Z.eqb acc (zsum (decode k)) c) as [x [H1 [->|H2]]]; auto.
          apply Z.eqb_eq in H2. now subst. }
      rewrite H. unfold kin. simpl. split.
      * intros [[H1| ->]|[l [[x [Hx <-]] <-]]]; auto.
        -- right. exists (decode k). split; auto. exists k. auto.
        -- right. exists (decode x). split; auto. exists x. auto.
      * intros [H1|[l [[x [[<-|Hx] <-]] <-]]]; auto. right. exists (decode x). split; auto. exists x. auto.
    + intros Ha Hc. apply N.
      * apply safe_add_vals_nonneg; auto. apply (Hc (k, c)). left. auto.
      * intros kc Hkc. apply Hc. right. auto.
Qed.

(** ** Tuples in two groups *)
Lemma lsum_tuples_app : forall (F : list Z -> Z) a b fs,
  lsum F (tuples (a + b) fs) = lsum (fun t1 => lsum (fun t2 => F (t1 ++ t2)) (tuples b fs)) (tuples a fs).
Proof.
  intros F a. revert F. induction a as [|a IH]; intros F b fs.
  - simpl. unfold lsum at 2. simpl. rewrite Z.add_0_r. reflexivity.
  - cbn [plus]. rewrite lsum_tuples. rewrite lsum_tuples. apply lsum_ext. intros x _. rewrite (IH (fun t => F (x :: t))). reflexivity.
Qed.

(** ** The selections as scores of the specification *)
Lemma insert_desc_perm : forall x l, Permutation (insert_desc x l) (x :: l).
Proof.
  induction l as [|y l IH]; simpl; auto. destruct (y <=? x); auto.
  rewrite IH. constructor.
Qed.

Lemma sort_desc_perm : forall l, Permutation (sort_desc l) l.
Proof. induction l; simpl; auto. rewrite insert_desc_perm. now constructor. Qed.

Lemma insert_desc_sorted : forall x l, zsorted (rev l) -> zsorted (rev (insert_desc x l)).
Proof.
  induction l as [|y l IH]; simpl; intros H.
  - repeat constructor.
  - destruct (y <=? x) eqn:E.
    + simpl. apply zsorted_app. split; auto. split; [repeat constructor|].
      intros a b Ha [<-|[]]. apply zsorted_app in H. apply in_app_or in Ha. destruct Ha as [Ha|[<-|[]]]; [|lia].
      assert (a <= y) by (apply H; simpl; auto). lia.
    + simpl. apply zsorted_app in H. destruct H as [H1 [H2 H3]]. apply zsorted_app. split; [auto|]. split; [repeat constructor|].
      intros a b Ha [<-|[]]. apply in_rev in Ha. apply (Permutation_in _ (insert_desc_perm x l)) in Ha.
      destruct Ha as [<-|Ha]; [lia|]. apply H3; simpl; auto. now apply in_rev in Ha.
Qed.

Lemma sort_desc_rev : forall l, sort_desc l = rev (zsort l).
Proof.
  intros l. rewrite <- (rev_involutive (sort_desc l)). f_equal. apply sorted_perm_eq.
  - induction l; simpl; [constructor|]. now apply insert_desc_sorted.
  - apply zsort_sorted.
  - rewrite <- Permutation_rev. transitivity l; [apply sort_desc_perm | symmetry; apply zsort_perm].
Qed.

Lemma keep_score : forall k t, (k <= length t)%nat -> zsum (skipn (length t - k) (zsort t)) = keep_highest k t.
Proof.
  intros k t H. unfold keep_highest. change total with zsum. rewrite sort_desc_rev, firstn_rev.
  rewrite (Permutation_length (zsort_perm t)). apply zsum_perm, Permutation_rev.
Qed.

Lemma drop_score : forall k t, (k <= length t)%nat -> zsum (firstn (length t - k) (zsort t)) = drop_highest k t.
Proof.
  intros k t H. unfold drop_highest. change total with zsum. rewrite sort_desc_rev.
  rewrite skipn_rev, (Permutation_length (zsort_perm t)). apply zsum_perm, Permutation_rev.
Qed.

Definition dk_score (dk : dropkeep) (t : list Z) : Z :=
  if dk_keep dk then keep_highest (Z.to_nat (dk_k dk)) t else drop_highest (Z.to_nat (dk_k dk)) t.

(** ** The distribution of keep/drop dice *)
Definition dk_full (dk : dropkeep) : Prop := 0 < dk_k dk < dk_num dk.

Lemma dk_outcome_map_spec : forall dk, natural_counts (dk_map dk) -> dk_full dk ->
  let n := Z.to_nat (dk_num dk) in
  exists m, dk_outcome_map dk = Ok m /\ natural_counts m /\
    (forall F, zsum (map (fun vc => snd vc * F (fst vc)) m) = lsum (fun t => F (dk_score dk t)) (tuples n (faces (dk_map dk)))) /\
    (forall v, In v (map fst m) <-> exists t, length t = n /\ (forall x, In x t -> In x (map fst (dk_map dk))) /\ dk_score dk t = v).
Proof.
  intros dk N [F1 F2] n. set (sel := Z.to_nat (dk_selected dk)).
  set (rem := Z.to_nat (if dk_keep dk then dk_num dk - dk_k dk else dk_k dk)).
  assert (En : n = (sel + rem)%nat) by (subst n sel rem; unfold dk_selected; destruct (dk_keep dk); lia).
  unfold dk_outcome_map, build_dice_dict, compute_iterations.
  assert (C0 : kcanon [([], 1)]).
  { intros k [<-|[]]. split; [reflexivity | constructor]. }
  destruct (dk_passes_spec g_build build_key g_build_sorted build_key_g (dk_map dk) N sel [([], 1)] C0)
    as [cur [E [C [P [S K]]]]]; [intros kc [<-|[]]; simpl; lia|].
  fold sel. rewrite E. cbn [rbind].
  destruct (dk_passes_spec (g_update (dk_keep dk)) (update_key (dk_keep dk)) (g_update_sorted _) (update_key_g _) (dk_map dk) N
              rem cur C P) as [cur' [E' [C' [P' [S' K']]]]].
  fold rem. rewrite E'. cbn [rbind].
  destruct (collapse_spec cur' [] C') as [m [Em [Sm [Km Nm]]]].
  exists m. split; auto. split; [apply Nm; [intros vc []|auto]|].
  assert (SC : forall t1 t2, length t1 = sel -> length t2 = rem ->
    zsum (fold_left (g_update (dk_keep dk)) t2 (fold_left g_build t1 [])) = dk_score dk (t1 ++ t2)).
  { intros t1 t2 L1 L2. change [] with (zsort []). rewrite g_build_fold. simpl app.
    assert (PS : Permutation (zsort t1 ++ t2) (t1 ++ t2)) by (apply Permutation_app_tail, zsort_perm).
    unfold dk_score. destruct (dk_keep dk) eqn:EK.
    - rewrite g_keep_fold by apply zsort_sorted. rewrite (zsort_perm_eq _ _ PS), (Permutation_length PS), (Permutation_length (zsort_perm t1)), L1.
      rewrite <- keep_score by (rewrite app_length; subst sel rem; unfold dk_selected in *; rewrite EK in *; lia).
      do 3 f_equal. subst sel. unfold dk_selected. rewrite EK. reflexivity.
    - rewrite g_drop_fold by apply zsort_sorted. rewrite (zsort_perm_eq _ _ PS), (Permutation_length (zsort_perm t1)), L1.
      rewrite <- drop_score by (rewrite app_length; subst sel rem; unfold dk_selected in *; rewrite EK in *; lia).
      do 2 f_equal. rewrite app_length, L1, L2. subst sel rem. unfold dk_selected. rewrite EK. lia. }
  split.
  - intros F. rewrite Sm. simpl (zsum (map _ [])). rewrite Z.add_0_l, S'. rewrite En, lsum_tuples_app.
    transitivity (lsum (fun t2 => lsum (fun t1 => F (dk_score dk (t1 ++ t2))) (tuples sel (faces (dk_map dk)))) (tuples rem (faces (dk_map dk)))).
    + apply lsum_ext. intros t2 Ht2. rewrite S. apply lsum_ext. intros t1 Ht1.
      apply in_tuples in Ht1. apply in_tuples in Ht2. unfold ksum. cbn [map fst snd]. change (decode []) with (@nil Z). rewrite zsum_cons, (SC t1 t2) by tauto. simpl (zsum []). ring.
    + unfold lsum. apply zsum_map_swap.
  - intros v. rewrite Km. split.
    + intros [[]|[l [Hl <-]]]. apply K' in Hl. destruct Hl as [t2 [l1 [L2 [H2 [Hl1 ->]]]]].
      apply K in Hl1. destruct Hl1 as [t1 [l0 [L1 [H1 [Hl0 ->]]]]]. destruct Hl0 as [k [[<-|[]] <-]].
      exists (t1 ++ t2). split; [rewrite app_length; lia|]. split.
      * intros x Hx. apply in_app_or in Hx. destruct Hx; auto.
      * symmetry. apply SC; auto.
    + intros [t [Lt [Ht <-]]]. right. exists (fold_left (g_update (dk_keep dk)) (skipn sel t) (fold_left g_build (firstn sel t) [])).
      assert (L1 : length (firstn sel t) = sel) by (rewrite firstn_length; lia).
      assert (L2 : length (skipn sel t) = rem) by (rewrite skipn_length; lia).
      split.
      * apply K'. exists (skipn sel t), (fold_left g_build (firstn sel t) []). repeat split; auto.
        -- intros x Hx. apply Ht. rewrite <- (firstn_skipn sel t). apply in_or_app. auto.
        -- apply K. exists (firstn sel t), []. repeat split; auto.
           ++ intros x Hx. apply Ht. rewrite <- (firstn_skipn sel t). apply in_or_app. auto.
           ++ exists []. split; [left; auto | reflexivity].
      * rewrite SC by auto. now rewrite firstn_skipn.
Qed.

Lemma dk_dist_spec : forall R dk, natural_counts (dk_map dk) -> dk_full dk ->
  let n := Z.to_nat (dk_num dk) in
  exists dd, dk_dist_full R dk = Ok dd /\ dinv R dd /\ plain R dd /\
    (forall h f, cntf R h dd f = lsum (fun t => f (dk_score dk t)) (tuples n (faces (dk_map dk)))) /\
    (forall v, listed R dd v <-> exists t, length t = n /\ (forall x, In x t -> In x (map fst (dk_map dk))) /\ dk_score dk t = v).
Proof.
  intros R dk N F n. destruct (dk_outcome_map_spec dk N F) as [m [E [Nm [S K]]]].
  destruct (mk_dist_ints_plain R m Nm) as [dd [Ed [Dd [Pd [Cd Ld]]]]].
  exists dd. unfold dk_dist_full. rewrite E. simpl. split; auto. split; auto. split; auto. split.
  - intros h f. rewrite Cd. apply S.
  - intros v. rewrite Ld. apply K.
Qed.
