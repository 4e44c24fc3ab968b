(** * DiceProofs: the lemmas behind PropsDice.v *)
From Coq Require Import Permutation.
From Verif Require Import Py PyFacts PyFloat Constraint ConstraintFacts Distribution DistFacts DiceModel SpecDice DiceFacts DropKeepFacts
  Regex RegexFacts SpecNotation NotationFacts Expr SpecOps.

(** ** Counting does not depend on the order of the faces *)
Lemma lsum_perm : forall A (f : A -> Z) a b, Permutation a b -> lsum f a = lsum f b.
Proof. intros A f a b H. apply zsum_perm. now apply Permutation_map. Qed.

Lemma lsum_tuples_perm : forall n fs gs F, Permutation fs gs -> lsum F (tuples n fs) = lsum F (tuples n gs).
Proof.
  induction n as [|n IH]; intros fs gs F P; [reflexivity|]. rewrite !lsum_tuples, (lsum_perm _ _ _ _ P).
  apply lsum_ext. intros x _. now apply IH.
Qed.

Lemma ways_perm : forall score n fs gs v, Permutation fs gs -> ways score n fs v = ways score n gs v.
Proof. intros. rewrite !ways_lsum. now apply lsum_tuples_perm. Qed.

(** ** Notation *)
Lemma zrange_seq : forall n, 0 <= n -> zrange 1 (n + 1) = map Z.of_nat (seq 1 (Z.to_nat n)).
Proof.
  intros n H. unfold zrange. replace (n + 1 - 1) with n by lia. rewrite <- seq_shift, map_map. apply map_ext. intros. lia.
Qed.

Lemma die_notation_map : forall s fs, die_notation s fs -> exists m, get_single_dice_outcome_map s = Ok m /\
  natural_counts m /\ NoDup (map fst m) /\ Permutation (faces m) fs.
Proof.
  intros s fs H. assert (G : exists m, get_single_dice_outcome_map s = Ok m /\ Permutation (faces m) fs).
  { destruct H as [s H| | |s es H].
    - rewrite (numbered_die_spec s H). eexists. split; [reflexivity|]. rewrite faces_unit, zrange_seq; auto.
      apply int_of_is_digits in H. tauto.
    - eexists. split; [reflexivity|]. apply Permutation_refl.
    - eexists. split; [reflexivity|]. apply Permutation_refl.
    - destruct (custom_die_spec s es H) as [m [E [_ [_ [P _]]]]]. eauto. }
  destruct G as [m [E P]]. exists m. destruct (single_map_natural s m E). auto.
Qed.

Lemma die_notation_dk_free : forall s fs, die_notation s fs -> forall c, In c s -> is_dk c = false.
Proof.
  assert (Hd : forall c, is_digit c = true -> is_dk c = false).
  { intros c H. unfold is_dk. rewrite !is_ch_digit; auto. }
  intros s fs H c Hc. destruct H as [s [_ H]| | |s es H].
  - apply Hd. rewrite forallb_forall in H. auto.
  - destruct Hc as [<-|[]]. reflexivity.
  - destruct Hc as [<-|[]]. reflexivity.
  - destruct H as [Ne [H [body [-> [B1 [B2 F]]]]]]. apply in_app_or in Hc. destruct Hc as [[<-|[]]|Hc]; [reflexivity|].
    apply in_app_or in Hc. destruct Hc as [Hc|[<-|[]]]; [|reflexivity].
    destruct (is_space c) eqn:Es.
    + destruct (is_dk c) eqn:Ed; auto. unfold is_dk, is_ch in Ed. apply orb_true_iff in Ed.
      destruct Ed as [Ed|Ed]; apply Ascii.eqb_eq in Ed; subst c; discriminate.
    + assert (Hin : In c (join $"," (map entry_text es))) by (rewrite <- F; apply filter_In; rewrite Es; auto).
      clear - Hin H Hd. induction es as [|e es IH]; [destruct Hin|].
      assert (He : In c (entry_text e) -> is_dk c = false).
      { intros He. apply entry_text_chars in He; [|apply H; left; auto]. destruct He as [He|[-> | ->]]; auto. }
      destruct es as [|e' es]; [auto|]. change (join $"," (map entry_text (e :: e' :: es)))
        with (entry_text e ++ $"," ++ join $"," (map entry_text (e' :: es))) in Hin.
      apply in_app_or in Hin. destruct Hin as [Hin|Hin]; auto. apply in_app_or in Hin. destruct Hin as [[<-|[]]|Hin]; [reflexivity|].
      apply IH; auto. intros e0 He0. apply H. right. auto.
Qed.

Lemma split_on_free : forall p s, (forall c, In c s -> p c = false) -> split_on p s = [s].
Proof. intros p s H. apply split_on_none, forallb_forall. intros c Hc. now rewrite H. Qed.

Lemma split_on_parts : forall p s x, In x (split_on p s) -> forallb (fun c => negb (p c)) x = true.
Proof.
  induction s as [|c s IH]; simpl; intros x H.
  - destruct H as [<-|[]]. reflexivity.
  - destruct (p c) eqn:E.
    + destruct H as [<-|H]; auto.
    + destruct (split_on p s) as [|w ws] eqn:Es; [now apply split_on_nonnil in Es|].
      destruct H as [<-|H]; [simpl; rewrite E; simpl|]; apply IH; simpl; auto.
Qed.

Lemma count_notation_num : forall t n l, count_notation t n -> number_of_dice (t :: l) = Ok n /\ 0 <= n /\ (forall c, In c t -> is_digit c = true).
Proof.
  intros t n l [[-> ->]|[H ->]].
  - repeat split; [lia | intros c []].
  - destruct (int_of_is_digits t H) as [E P]. destruct H as [N D]. split; [|split; auto].
    + unfold number_of_dice. simpl. destruct t; [congruence | auto].
    + rewrite forallb_forall in D. auto.
Qed.

Lemma mk_dice_text : forall ct n sides fs, count_notation ct n -> die_notation sides fs -> exists d,
  mk_dice (ct ++ $"d" ++ sides) = Ok d /\ dice_num d = n /\ natural_counts (dice_map d) /\ Permutation (faces (dice_map d)) fs /\
  get_single_dice_outcome_map sides = Ok (dice_map d).
Proof.
  intros ct n sides fs Hc Hd. destruct (die_notation_map sides fs Hd) as [m [E [N [_ P]]]].
  destruct (count_notation_num ct n [sides] Hc) as [En [_ Dc]].
  exists {| dice_form := ct ++ $"d" ++ sides; dice_map := m; dice_num := n |}. split; auto.
  unfold mk_dice. cbn [app list_ascii_of_string]. rewrite split_on_app_gen by reflexivity.
  rewrite (split_on_free _ ct) by (intros c Hi; apply is_ch_digit; auto).
  rewrite (split_on_free _ sides).
  2:{ intros c Hi. apply (die_notation_dk_free sides fs Hd) in Hi. unfold is_dk in Hi. apply orb_false_iff in Hi. tauto. }
  cbn [app index nth_error rbind]. rewrite E. cbn [rbind]. rewrite En. reflexivity.
Qed.

Lemma mk_dropkeep_text : forall ct n sides fs (keep : bool) kt, count_notation ct n -> die_notation sides fs -> is_digits kt ->
  exists dk, mk_dropkeep (ct ++ $"d" ++ sides ++ (if keep then $"k" else $"d") ++ kt) = Ok dk /\
    dk_num dk = n /\ dk_k dk = decimal kt /\ dk_keep dk = keep /\ natural_counts (dk_map dk) /\ Permutation (faces (dk_map dk)) fs /\
    get_single_dice_outcome_map sides = Ok (dk_map dk).
Proof.
  intros ct n sides fs keep kt Hc Hd Hk. destruct (die_notation_map sides fs Hd) as [m [E [N [_ P]]]].
  destruct (count_notation_num ct n [sides; kt] Hc) as [En [Hn0 Dc]]. destruct (int_of_is_digits kt Hk) as [Ek _].
  assert (Dk : forall c, In c kt -> is_digit c = true) by (destruct Hk as [_ Hk]; rewrite forallb_forall in Hk; auto).
  assert (Hd' : forall c, is_digit c = true -> is_dk c = false) by (intros c H; unfold is_dk; rewrite !is_ch_digit; auto).
  set (op := if keep then "k"%char else "d"%char).
  replace (if keep then $"k" else $"d") with [op] by (destruct keep; reflexivity). cbn [app list_ascii_of_string].
  unfold mk_dropkeep.
  assert (S : split_on is_dk (ct ++ "d"%char :: sides ++ op :: kt) = [ct; sides; kt]).
  { rewrite split_on_app_gen by reflexivity. rewrite split_on_app_gen by (unfold op; destruct keep; reflexivity).
    rewrite (split_on_free _ ct), (split_on_free _ sides), (split_on_free _ kt); auto.
    exact (die_notation_dk_free sides fs Hd). }
  rewrite S, En. cbn [index nth_error rbind]. rewrite E. cbn [rbind]. rewrite Ek. cbn [rbind].
  assert (K : existsb (is_ch "k") (ct ++ "d"%char :: sides ++ op :: kt) = keep).
  { rewrite existsb_app. cbn [existsb]. rewrite existsb_app. cbn [existsb].
    assert (F : forall t, (forall c, In c t -> is_dk c = false) -> existsb (is_ch "k") t = false).
    { intros t Ht. apply not_true_iff_false. rewrite existsb_exists. intros [c [H1 H2]]. apply Ht in H1. unfold is_dk in H1.
      rewrite H2, orb_true_r in H1. discriminate. }
    rewrite (F ct), (F sides), (F kt); auto; [unfold op; destruct keep; reflexivity|]. exact (die_notation_dk_free sides fs Hd). }
  rewrite K.
  assert (M : exists d, mk_dice (text_of_Z n ++ $"d" ++ sides) = Ok d).
  { destruct (mk_dice_text (text_of_Z n) n sides fs) as [d [Ed _]]; eauto. right. split.
    - apply is_digits_all. apply text_of_Z_nonneg_digits. auto.
    - assert (H := int_of_text_of_Z n). rewrite int_of_digits in H by (apply text_of_Z_nonneg_digits; auto). apply Ok_inj in H. now rewrite decimal_val. }
  destruct M as [d Ed]. rewrite Ed. cbn [rmap].
  destruct keep; destruct (n <=? decimal kt); try destruct (decimal kt =? 0); cbn [rbind]; eexists; (split; [reflexivity|]);
    cbn [dk_num dk_k dk_keep dk_map]; auto 10.
Qed.

(** ** What mk_dropkeep stores *)
Lemma mk_dropkeep_inv : forall form dk, mk_dropkeep form = Ok dk ->
  natural_counts (dk_map dk) /\
  (if dk_keep dk then
     (dk_num dk <= dk_k dk -> exists d, dk_simple dk = Some (SDice d) /\ dice_map d = dk_map dk /\ dice_num d = dk_num dk) /\
     (dk_k dk < dk_num dk -> dk_k dk = 0 -> dk_simple dk = Some (SInt $"0")) /\
     (dk_k dk < dk_num dk -> dk_k dk <> 0 -> dk_simple dk = None)
   else
     (dk_num dk <= dk_k dk -> dk_simple dk = Some (SInt $"0")) /\
     (dk_k dk < dk_num dk -> dk_k dk = 0 -> exists d, dk_simple dk = Some (SDice d) /\ dice_map d = dk_map dk /\ dice_num d = dk_num dk) /\
     (dk_k dk < dk_num dk -> dk_k dk <> 0 -> dk_simple dk = None)).
Proof.
  intros form dk H. unfold mk_dropkeep in H.
  destruct (number_of_dice (split_on is_dk form)) as [n|] eqn:En; [|discriminate]. cbn [rbind] in H.
  destruct (index (split_on is_dk form) 1) as [sides|] eqn:Es; [|discriminate]. cbn [rbind] in H.
  destruct (get_single_dice_outcome_map sides) as [m|] eqn:Em; [|discriminate]. cbn [rbind] in H.
  destruct (rbind (index (split_on is_dk form) 2) int_of_text) as [k|] eqn:Ek; [|discriminate]. cbn [rbind] in H.
  set (keep := existsb (is_ch "k") form) in *.
  assert (P : forall d, mk_dice (text_of_Z n ++ $"d" ++ sides) = Ok d -> dice_map d = m /\ dice_num d = n).
  { intros d Hd. unfold mk_dice in Hd. cbn [app list_ascii_of_string] in Hd. rewrite split_on_app_gen in Hd by reflexivity.
    rewrite (split_on_free _ (text_of_Z n)) in Hd.
    2:{ intros c Hc. apply Ascii.eqb_neq. intros <-. revert Hc. now apply text_of_Z_not_in. }
    assert (Hs : split_on (is_ch "d") sides = [sides]).
    { apply split_on_free. intros c Hc. unfold index in Es. destruct (nth_error (split_on is_dk form) 1) as [x|] eqn:Ex; [|discriminate].
      apply Ok_inj in Es. subst x. apply nth_error_In in Ex. apply split_on_parts in Ex.
      rewrite forallb_forall in Ex. apply Ex in Hc. unfold is_dk in Hc. apply negb_true_iff, orb_false_iff in Hc. tauto. }
    rewrite Hs in Hd. cbn [app index nth_error rbind] in Hd. rewrite Em in Hd. cbn [rbind] in Hd.
    unfold number_of_dice in Hd. cbn [index nth_error rbind] in Hd. rewrite int_of_text_of_Z in Hd.
    destruct (text_of_Z n) eqn:Et; [now apply text_of_Z_nonnil in Et|]. cbn [rbind] in Hd. apply Ok_inj in Hd. subst d. auto. }
  destruct (single_map_natural sides m Em) as [N _].
  destruct keep; destruct (n <=? k) eqn:L; try destruct (k =? 0) eqn:Z0; cbn [rbind] in H;
    try (destruct (mk_dice (text_of_Z n ++ $"d" ++ sides)) as [d|] eqn:Ed; [|discriminate]; cbn [rmap rbind] in H;
         destruct (P d eq_refl)); apply Ok_inj in H; subst dk; cbn [dk_map dk_keep dk_num dk_k dk_simple];
    (split; [exact N|]); repeat split; intros; try lia; eauto.
Qed.

Section WithRuntime.
  Context (R : Runtime).

  (** ** C01 *)
  Lemma dice_counts : forall s d, natural_counts (dice_map d) -> 1 <= dice_num d ->
    let n := Z.to_nat (dice_num d) in
    exists dd, dist_of R (EDice d) s = (s, Ok dd) /\
      (forall v, reported R dd v = ways total n (faces (dice_map d)) v) /\
      (forall v, listed R dd v <-> exists t, In t (tuples n (map fst (dice_map d))) /\ total t = v).
  Proof.
    intros s d N H n. destruct (dice_dist_spec R d N) as [dd [E [D [P [C L]]]]].
    rewrite Z.max_r in C, L by lia. exists dd. cbn [dist_of]. unfold lift. rewrite E. split; auto. split.
    - intros v. rewrite (reported_plain R (fun _ => 0) dd v P), C, ways_lsum. reflexivity.
    - intros v. rewrite L. split; intros [t Ht].
      + exists t. rewrite in_tuples. tauto.
      + exists t. rewrite in_tuples in Ht. tauto.
  Qed.

  Lemma zero_dice_counts : forall s d, natural_counts (dice_map d) -> dice_num d = 0 ->
    exists dd, dist_of R (EDice d) s = (s, Ok dd) /\ forall v, reported R dd v = ways total 1 (faces (dice_map d)) v.
  Proof.
    intros s d N H. destruct (dice_dist_spec R d N) as [dd [E [D [P [C L]]]]]. rewrite H in C. simpl in C.
    exists dd. cbn [dist_of]. unfold lift. rewrite E. split; auto. intros v.
    now rewrite (reported_plain R (fun _ => 0) dd v P), C, ways_lsum.
  Qed.

  Lemma dice_text_counts : forall s ct n sides fs, count_notation ct n -> 1 <= n -> die_notation sides fs ->
    exists d dd, mk_dice (ct ++ $"d" ++ sides) = Ok d /\ dist_of R (EDice d) s = (s, Ok dd) /\
      forall v, reported R dd v = ways total (Z.to_nat n) fs v.
  Proof.
    intros s ct n sides fs Hc Hn Hd. destruct (mk_dice_text ct n sides fs Hc Hd) as [d [E [En [N [P _]]]]].
    destruct (dice_counts s d N) as [dd [Ed [C _]]]; [lia|]. exists d, dd. split; auto. split; auto.
    intros v. rewrite C, En. now apply ways_perm.
  Qed.

  (** ** C02, C03 *)
  Lemma dropkeep_counts : forall s form dk, mk_dropkeep form = Ok dk -> 0 < dk_k dk < dk_num dk ->
    let n := Z.to_nat (dk_num dk) in
    exists dd, dist_of R (EDropKeep dk) s = (s, Ok dd) /\
      (forall v, reported R dd v = ways (dk_score dk) n (faces (dk_map dk)) v) /\
      (forall v, listed R dd v <-> exists t, In t (tuples n (map fst (dk_map dk))) /\ dk_score dk t = v).
  Proof.
    intros s form dk E F n. destruct (mk_dropkeep_inv form dk E) as [N H].
    assert (S : dk_simple dk = None) by (destruct (dk_keep dk); destruct H as [_ [_ H]]; apply H; lia).
    destruct (dk_dist_spec R dk N F) as [dd [Ed [D [P [C L]]]]]. exists dd. cbn [dist_of]. rewrite S. unfold lift. rewrite Ed.
    split; auto. split.
    - intros v. now rewrite (reported_plain R (fun _ => 0) dd v P), C, ways_lsum.
    - intros v. rewrite L. split; intros [t Ht].
      + exists t. rewrite in_tuples. tauto.
      + exists t. rewrite in_tuples in Ht. tauto.
  Qed.

  Lemma keep_counts : forall s form dk, mk_dropkeep form = Ok dk -> dk_keep dk = true -> 0 < dk_k dk < dk_num dk ->
    let n := Z.to_nat (dk_num dk) in let k := Z.to_nat (dk_k dk) in
    exists dd, dist_of R (EDropKeep dk) s = (s, Ok dd) /\
      (forall v, reported R dd v = ways (keep_highest k) n (faces (dk_map dk)) v) /\
      (forall v, listed R dd v <-> exists t, In t (tuples n (map fst (dk_map dk))) /\ keep_highest k t = v).
  Proof.
    intros s form dk E K F n k. destruct (dropkeep_counts s form dk E F) as [dd [Ed [C L]]]. exists dd.
    unfold dk_score in C, L. rewrite K in C, L. auto.
  Qed.

  Lemma drop_counts : forall s form dk, mk_dropkeep form = Ok dk -> dk_keep dk = false -> 0 < dk_k dk < dk_num dk ->
    let n := Z.to_nat (dk_num dk) in let k := Z.to_nat (dk_k dk) in
    exists dd, dist_of R (EDropKeep dk) s = (s, Ok dd) /\
      (forall v, reported R dd v = ways (drop_highest k) n (faces (dk_map dk)) v) /\
      (forall v, listed R dd v <-> exists t, In t (tuples n (map fst (dk_map dk))) /\ drop_highest k t = v).
  Proof.
    intros s form dk E K F n k. destruct (dropkeep_counts s form dk E F) as [dd [Ed [C L]]]. exists dd.
    unfold dk_score in C, L. rewrite K in C, L. auto.
  Qed.

  Lemma dropkeep_text_counts : forall s ct n sides fs (keep : bool) kt, count_notation ct n -> die_notation sides fs -> is_digits kt ->
    0 < decimal kt < n ->
    exists dk dd, mk_dropkeep (ct ++ $"d" ++ sides ++ (if keep then $"k" else $"d") ++ kt) = Ok dk /\
      dist_of R (EDropKeep dk) s = (s, Ok dd) /\
      forall v, reported R dd v = ways (if keep then keep_highest (Z.to_nat (decimal kt)) else drop_highest (Z.to_nat (decimal kt)))
                                       (Z.to_nat n) fs v.
  Proof.
    intros s ct n sides fs keep kt Hc Hd Hk Hn. destruct (mk_dropkeep_text ct n sides fs keep kt Hc Hd Hk) as [dk [E [En [Ek [Kp [N [P _]]]]]]].
    destruct (dropkeep_counts s _ dk E) as [dd [Ed [C _]]]; [lia|]. exists dk, dd. split; auto. split; auto.
    intros v. rewrite C, En. rewrite (ways_perm _ _ _ _ _ P). unfold dk_score. rewrite Kp, Ek. destruct keep; reflexivity.
  Qed.

  Lemma keep_text_counts : forall s ct n sides fs kt, count_notation ct n -> die_notation sides fs -> is_digits kt -> 0 < decimal kt < n ->
    exists dk dd, mk_dropkeep (ct ++ $"d" ++ sides ++ $"k" ++ kt) = Ok dk /\ dist_of R (EDropKeep dk) s = (s, Ok dd) /\
      forall v, reported R dd v = ways (keep_highest (Z.to_nat (decimal kt))) (Z.to_nat n) fs v.
  Proof. intros s ct n sides fs kt. exact (dropkeep_text_counts s ct n sides fs true kt). Qed.

  Lemma drop_text_counts : forall s ct n sides fs kt, count_notation ct n -> die_notation sides fs -> is_digits kt -> 0 < decimal kt < n ->
    exists dk dd, mk_dropkeep (ct ++ $"d" ++ sides ++ $"d" ++ kt) = Ok dk /\ dist_of R (EDropKeep dk) s = (s, Ok dd) /\
      forall v, reported R dd v = ways (drop_highest (Z.to_nat (decimal kt))) (Z.to_nat n) fs v.
  Proof. intros s ct n sides fs kt. exact (dropkeep_text_counts s ct n sides fs false kt). Qed.

  (** ** C04 *)
  Lemma dropkeep_plain : forall form dk, mk_dropkeep form = Ok dk ->
    (dk_keep dk = true /\ dk_num dk <= dk_k dk) \/ (dk_keep dk = false /\ dk_k dk = 0 /\ 0 < dk_num dk) ->
    exists d, dice_map d = dk_map dk /\ dice_num d = dk_num dk /\ same_operations R (EDropKeep dk) (EDice d).
  Proof.
    intros form dk E H. destruct (mk_dropkeep_inv form dk E) as [_ I].
    assert (S : exists d, dk_simple dk = Some (SDice d) /\ dice_map d = dk_map dk /\ dice_num d = dk_num dk).
    { destruct H as [[K H]|[K H]]; rewrite K in I; apply I; lia. }
    destruct S as [d [S [S1 S2]]]. exists d. split; auto. split; auto.
    repeat split; intros; cbn [roll_of ext_of cost_of dist_of]; now rewrite S.
  Qed.

  Lemma dropkeep_zero : forall form dk, mk_dropkeep form = Ok dk ->
    (dk_keep dk = true /\ dk_k dk = 0 /\ 0 < dk_num dk) \/ (dk_keep dk = false /\ dk_num dk <= dk_k dk) ->
    same_operations R (EDropKeep dk) (EInt $"0").
  Proof.
    intros form dk E H. destruct (mk_dropkeep_inv form dk E) as [_ I].
    assert (S : dk_simple dk = Some (SInt $"0")).
    { destruct H as [[K H]|[K H]]; rewrite K in I; apply I; lia. }
    repeat split; intros; cbn [roll_of ext_of cost_of dist_of]; now rewrite S.
  Qed.

  (** the constant 0 itself *)
  Lemma constant_counts : forall s t z, int_of_text t = Ok z -> exists dd, dist_of R (EInt t) s = (s, Ok dd) /\
    (forall v, reported R dd v = if v =? z then 1 else 0) /\ (forall v, listed R dd v <-> v = z) /\
    roll_of R (EInt t) s = [(1, (s, Ok z))] /\ (forall mx, ext_of R mx (EInt t) s = (s, Ok z)) /\ cost_of R (EInt t) s = (s, Ok 2).
  Proof.
    intros s t z E. destruct (mk_dist_ints_plain R [(z, 1)]) as [dd [Ed [D [P [C L]]]]].
    { intros v c [H|[]]. inversion H. lia. }
    exists dd. cbn [dist_of roll_of ext_of cost_of]. unfold lift, wlift, ret. rewrite E. cbn [rbind]. rewrite Ed. split; auto.
    split; [|split; [|auto]].
    - intros v. rewrite (reported_plain R (fun _ => 0) dd v P), C. simpl. rewrite Z.eqb_sym. destruct (v =? z); reflexivity.
    - intros v. rewrite L. simpl. intuition.
  Qed.
End WithRuntime.

(** ** C25 *)
Lemma notation_means : forall s fs, die_notation s fs -> exists m, get_single_dice_outcome_map s = Ok m /\
  NoDup (map fst m) /\ natural_counts m /\ Permutation (faces m) fs.
Proof. intros s fs H. destruct (die_notation_map s fs H) as [m [E [N [D P]]]]. eauto 6. Qed.

Lemma same_faces_same_die : forall R st ct n s1 s2 fs1 fs2, count_notation ct n -> 1 <= n -> die_notation s1 fs1 -> die_notation s2 fs2 ->
  Permutation fs1 fs2 ->
  exists d1 d2 dd1 dd2, mk_dice (ct ++ $"d" ++ s1) = Ok d1 /\ mk_dice (ct ++ $"d" ++ s2) = Ok d2 /\
    dist_of R (EDice d1) st = (st, Ok dd1) /\ dist_of R (EDice d2) st = (st, Ok dd2) /\
    forall v, reported R dd1 v = reported R dd2 v.
Proof.
  intros R st ct n s1 s2 fs1 fs2 Hc Hn H1 H2 P.
  destruct (dice_text_counts R st ct n s1 fs1 Hc Hn H1) as [d1 [dd1 [A1 [B1 C1]]]].
  destruct (dice_text_counts R st ct n s2 fs2 Hc Hn H2) as [d2 [dd2 [A2 [B2 C2]]]].
  exists d1, d2, dd1, dd2. repeat split; auto. intros v. rewrite C1, C2. now apply ways_perm.
Qed.
