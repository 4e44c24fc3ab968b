(** * ConstraintFacts: lemmas about Constraint.v *)
From Coq Require Import Permutation.
From Verif Require Import Py PyFacts Constraint.

(** ** Splitting texts at a character *)
Lemma first_split : forall (c : ascii) a b x y, ~ In c a -> ~ In c b -> a ++ c :: x = b ++ c :: y -> a = b /\ x = y.
Proof.
  induction a as [|d a IH]; destruct b as [|e b]; simpl; intros x y Ha Hb E.
  - injection E as ->. auto.
  - injection E as -> _. tauto.
  - injection E as <- _. tauto.
  - injection E as -> E. apply IH in E; try tauto. destruct E as [-> ->]. auto.
Qed.

Lemma last_split : forall (c : ascii) a b x y, ~ In c x -> ~ In c y -> a ++ c :: x = b ++ c :: y -> a = b /\ x = y.
Proof.
  intros c a b x y Hx Hy E. apply (f_equal (@rev ascii)) in E. rewrite !rev_app_distr in E. simpl in E.
  rewrite <- !app_assoc in E. simpl in E. apply first_split in E.
  - destruct E as [E1 E2]. split; apply rev_inj || idtac.
    + rewrite <- (rev_involutive a), <- (rev_involutive b). now f_equal.
    + rewrite <- (rev_involutive x), <- (rev_involutive y). now f_equal.
  - now rewrite <- in_rev.
  - now rewrite <- in_rev.
Qed.

(** ** Printed int sets *)
Lemma comma_not_int : forall z, ~ In ","%char (text_of_Z z).
Proof. intros. apply text_of_Z_not_in. reflexivity. Qed.

Definition zlist_str (l : list Z) : text :=
  match l with [] => $"set()" | l => $"{" ++ join $", " (map text_of_Z l) ++ $"}" end.

Lemma join_ints_inj : forall l1 l2, l1 <> [] -> l2 <> [] ->
  join $", " (map text_of_Z l1) = join $", " (map text_of_Z l2) -> l1 = l2.
Proof.
  induction l1 as [|a l1 IH]; intros [|b l2] H1 H2 E; try congruence.
  destruct l1 as [|a2 l1]; destruct l2 as [|b2 l2].
  - simpl in E. apply text_of_Z_inj in E. now subst.
  - exfalso. change (text_of_Z a = text_of_Z b ++ ","%char :: " "%char :: join $", " (map text_of_Z (b2 :: l2))) in E.
    apply (comma_not_int a). rewrite E. apply in_or_app. right. left. auto.
  - exfalso. change (text_of_Z a ++ ","%char :: " "%char :: join $", " (map text_of_Z (a2 :: l1)) = text_of_Z b) in E.
    apply (comma_not_int b). rewrite <- E. apply in_or_app. right. left. auto.
  - change (text_of_Z a ++ ","%char :: " "%char :: join $", " (map text_of_Z (a2 :: l1))
          = text_of_Z b ++ ","%char :: " "%char :: join $", " (map text_of_Z (b2 :: l2))) in E.
    apply first_split in E; try apply comma_not_int. destruct E as [E1 E2].
    apply text_of_Z_inj in E1. subst. f_equal. apply IH; try congruence.
Qed.

Lemma join_ints_chars : forall c l, int_char c = false -> c <> ","%char -> c <> " "%char ->
  ~ In c (join $", " (map text_of_Z l)).
Proof.
  intros c l H1 H2 H3. induction l as [|a l IH]; [intros []|].
  destruct l as [|b l].
  - simpl. now apply text_of_Z_not_in.
  - change (join $", " (map text_of_Z (a :: b :: l))) with
      (text_of_Z a ++ ","%char :: " "%char :: join $", " (map text_of_Z (b :: l))).
    intros Hi. apply in_app_or in Hi. destruct Hi as [Hi|[Hi|[Hi|Hi]]]; auto; try congruence.
    now apply text_of_Z_not_in in Hi.
Qed.

Lemma zlist_str_prefix : forall l1 l2 x y, zlist_str l1 ++ x = zlist_str l2 ++ y -> l1 = l2 /\ x = y.
Proof.
  intros [|a l1] [|b l2] x y E.
  - simpl in E. injection E as ->. auto.
  - simpl in E. discriminate.
  - simpl in E. discriminate.
  - cbn [zlist_str] in E. rewrite <- !app_assoc in E.
    apply app_inv_head in E.
    change ($"}" ++ ?t) with ("}"%char :: t) in E.
    apply first_split in E; try (apply join_ints_chars; [reflexivity | discriminate | discriminate]).
    destruct E as [E ->]. split; auto. apply join_ints_inj in E; auto; congruence.
Qed.

Lemma zlist_str_inj : forall l1 l2, zlist_str l1 = zlist_str l2 -> l1 = l2.
Proof.
  intros. apply (zlist_str_prefix l1 l2 [] []). now rewrite !app_nil_r.
Qed.

Lemma zlist_str_no_v : forall l, ~ In "v"%char (zlist_str l).
Proof.
  intros [|a l] H.
  - simpl in H. repeat (destruct H as [H|H]; [discriminate|]). destruct H.
  - cbn [zlist_str] in H. apply in_app_or in H. destruct H as [[H|[]]|H]; [discriminate|].
    apply in_app_or in H. destruct H as [H|[H|[]]]; [|discriminate].
    revert H. apply join_ints_chars; [reflexivity | discriminate | discriminate].
Qed.

(** ** Printed constraints *)
Section Printed.
  Context {Zs : ZSets}.
  Notation con := (constraint Zs).

  Lemma z_str_eq : forall s, z_str s = zlist_str (z_iter Zs s).
  Proof. intros. unfold z_str, zlist_str. destruct (z_iter Zs s); auto. Qed.

  (** equal up to the layout of the value sets: same class, name and listed values *)
  Definition same_c (a b : con) : Prop :=
    match a, b with
    | CNull, CNull | CImpossible, CImpossible => True
    | CVar n vs, CVar n' vs' => n = n' /\ z_iter Zs vs = z_iter Zs vs'
    | _, _ => False
    end.

  Lemma same_c_refl : forall a, same_c a a.
  Proof. destruct a; simpl; auto. Qed.
  Lemma same_c_sym : forall a b, same_c a b -> same_c b a.
  Proof. destruct a, b; simpl; intuition. Qed.
  Lemma same_c_trans : forall a b c, same_c a b -> same_c b c -> same_c a c.
  Proof. destruct a, b, c; simpl; intuition congruence. Qed.

  Lemma c_str_inj : forall a b : con, c_str a = c_str b -> same_c a b.
  Proof.
    intros [| |n vs] [| |n' vs']; cbn [c_str same_c]; intros E; auto;
      try (exfalso; vm_compute in E; discriminate);
      try (exfalso; simpl in E; discriminate).
    apply app_inv_head in E. rewrite !z_str_eq in E.
    change ($", values=" ++ ?x) with ($", " ++ "v"%char :: ($"alues=" ++ x)) in E.
    rewrite !app_assoc in E. apply last_split in E.
    - destruct E as [E1 E2]. apply app_inv_tail in E1. apply app_inv_head in E2.
      apply zlist_str_inj in E2. auto.
    - intros H. apply in_app_or in H. destruct H as [H|H]; [|now apply zlist_str_no_v in H].
      simpl in H. repeat (destruct H as [H|H]; [discriminate|]). destruct H.
    - intros H. apply in_app_or in H. destruct H as [H|H]; [|now apply zlist_str_no_v in H].
      simpl in H. repeat (destruct H as [H|H]; [discriminate|]). destruct H.
  Qed.

  Lemma same_c_str : forall a b : con, same_c a b -> c_str a = c_str b.
  Proof.
    intros [| |n vs] [| |n' vs']; simpl; try tauto. intros [-> E]. rewrite !z_str_eq, E. auto.
  Qed.

  Lemma c_eqb_same : forall a b : con, c_eqb a b = true <-> same_c a b.
  Proof.
    intros. unfold c_eqb. rewrite text_eqb_eq. split; [apply c_str_inj | apply same_c_str].
  Qed.

  Lemma c_eqb_refl : forall a : con, c_eqb a a = true.
  Proof. intros. apply c_eqb_same, same_c_refl. Qed.

  Lemma c_in_same : forall (c : con) l, c_in c l = true <-> exists d, In d l /\ same_c d c.
  Proof.
    intros. unfold c_in. rewrite existsb_exists. split; intros [d [H1 H2]]; exists d; split; auto; now apply c_eqb_same.
  Qed.

  Lemma c_in_In : forall (c : con) l, In c l -> c_in c l = true.
  Proof. intros. apply c_in_same. exists c. split; auto. apply same_c_refl. Qed.
End Printed.

Section Facts.
  Context (R : Runtime).
  Notation Zs := (rt_z R).
  Notation Cs := (rt_c R).
  Notation con := (constraint Zs).
  Notation iter := (cs_iter Cs).

  Lemma iter_nodup : forall s, NoDup (iter s).
  Proof.
    intros s. assert (H : forall l1 l2, iter s = l1 ++ l2 -> NoDup l2).
    { intros l1 l2. revert l1. induction l2 as [|c l2 IH]; intros l1 E; constructor.
      - intros Hi. destruct (cs_nodup Zs Cs s l1 c l2 E) as [_ H]. rewrite (c_in_In c l2 Hi) in H. discriminate.
      - apply (IH (l1 ++ [c])). now rewrite <- app_assoc. }
    apply (H []). auto.
  Qed.

  Lemma iter_same_eq : forall s a b, In a (iter s) -> In b (iter s) -> same_c a b -> a = b.
  Proof.
    intros s a b Ha Hb H. apply in_split in Ha. destruct Ha as [l1 [l2 E]].
    destruct (cs_nodup Zs Cs s l1 a l2 E) as [H1 H2]. rewrite E in Hb.
    apply in_app_or in Hb. destruct Hb as [Hb|[Hb|Hb]]; auto.
    - assert (c_in a l1 = true) by (apply c_in_same; exists b; split; auto; now apply same_c_sym). congruence.
    - assert (c_in a l2 = true) by (apply c_in_same; exists b; split; auto; now apply same_c_sym). congruence.
  Qed.

  (** ** What merging two constraints gives *)
  Definition merges (c new m : con) : Prop :=
    (c_can_merge R c new = true /\ c_merge R c new = Ok m) \/ (c_can_merge R new c = true /\ c_merge R new c = Ok m).

  Lemma can_merge_ok : forall a b, c_can_merge R a b = true -> exists m, c_merge R a b = Ok m.
  Proof.
    intros [| |n vs] b H; simpl in *; eauto.
    destruct b as [| |n' vs']; try discriminate. rewrite H. simpl.
    destruct (z_iter (rt_z R) (z_inter (rt_z R) vs vs')); eauto.
  Qed.

  Definition unmergeable (a b : con) : Prop := c_can_merge R a b = false /\ c_can_merge R b a = false.

  Lemma merge_loop_spec : forall new s cs,
    (merge_loop R new s cs = Ok None /\ (forall c, In c cs -> unmergeable c new)) \/
    (exists c m, In c cs /\ merges c new m /\
       merge_loop R new s cs = Ok (Some (cs_sing Cs m, cs_remove Cs c (cs_copy Cs s)))).
  Proof.
    induction cs as [|c cs IH]; simpl.
    - left. split; auto. intros c [].
    - destruct (c_can_merge R c new) eqn:E1.
      + right. destruct (can_merge_ok _ _ E1) as [m Em]. exists c, m. rewrite Em. simpl.
        split; auto. split; auto. left. auto.
      + destruct (c_can_merge R new c) eqn:E2.
        * right. destruct (can_merge_ok _ _ E2) as [m Em]. exists c, m. rewrite Em. simpl.
          split; auto. split; auto. right. auto.
        * destruct IH as [[H1 H2]|[c' [m [H1 [H2 H3]]]]].
          -- left. split; auto. intros c' [->|H]; auto. split; auto.
          -- right. exists c', m. auto.
  Qed.

  Lemma merge_new_spec : forall new s,
    (merge_new_constraint R new s = Ok (cs_empty Cs, cs_add Cs new s) /\ (forall c, In c (iter s) -> unmergeable c new)) \/
    (exists c m, In c (iter s) /\ merges c new m /\
       merge_new_constraint R new s = Ok (cs_sing Cs m, cs_remove Cs c (cs_copy Cs s))).
  Proof.
    intros. unfold merge_new_constraint.
    destruct (merge_loop_spec new s (iter s)) as [[H1 H2]|[c [m [H1 [H2 H3]]]]].
    - left. rewrite H1. simpl. auto.
    - right. exists c, m. rewrite H3. simpl. auto.
  Qed.

  (** ** Termination *)
  Lemma same_members_length : forall a b, (forall c, In c (iter a) <-> In c (iter b)) -> length (iter a) = length (iter b).
  Proof.
    intros. apply Permutation_length, NoDup_Permutation; auto using iter_nodup.
  Qed.

  Lemma copy_length : forall s, length (iter (cs_copy Cs s)) = length (iter s).
  Proof. intros. apply same_members_length. intros. apply cs_copy_spec. Qed.

  Lemma in_remove_copy : forall c s x,
    In c (iter s) -> (In x (iter (cs_remove Cs c (cs_copy Cs s))) <-> In x (iter s) /\ x <> c).
  Proof.
    intros c s x Hc. rewrite cs_remove_spec, cs_copy_spec.
    split; intros [H1 H2]; split; auto.
    - intros ->. now rewrite c_eqb_refl in H2.
    - destruct (c_eqb x c) eqn:E; auto. apply c_eqb_same in E. exfalso. apply H2. eapply iter_same_eq; eauto.
  Qed.

  Lemma remove_length : forall c s, In c (iter s) -> S (length (iter (cs_remove Cs c (cs_copy Cs s)))) = length (iter s).
  Proof.
    intros c s Hc.
    assert (P : Permutation (c :: iter (cs_remove Cs c (cs_copy Cs s))) (iter s)).
    { apply NoDup_Permutation; auto using iter_nodup.
      - constructor; [|apply iter_nodup]. rewrite in_remove_copy; auto. tauto.
      - intros x. simpl. rewrite in_remove_copy; auto. split.
        + intros [->|H]; tauto.
        + intros H. destruct (c_eqb c x) eqn:E.
          * apply c_eqb_same in E. left. eapply iter_same_eq; eauto.
          * right. split; auto. intros ->. now rewrite c_eqb_refl in E. }
    apply Permutation_length in P. auto.
  Qed.

  Lemma add_length : forall c s, (length (iter (cs_add Cs c s)) <= S (length (iter s)))%nat.
  Proof.
    intros. change (S (length (iter s))) with (length (c :: iter s)).
    apply NoDup_incl_length; [apply iter_nodup|]. intros x Hx. apply cs_add_spec in Hx. simpl. intuition.
  Qed.

  Lemma merge_while_ok : forall fuel todo clean, (2 * length todo + length (iter clean) < fuel)%nat ->
    exists r, merge_while R fuel todo clean = Ok r.
  Proof.
    induction fuel as [|fuel IH]; intros todo clean H; [lia|].
    simpl. destruct todo as [|c todo]; [eauto|].
    destruct (merge_new_spec c clean) as [[E _]|[d [m [Hd [_ E]]]]]; rewrite E.
    - apply IH. rewrite cs_empty_spec. simpl. pose proof (add_length c clean). simpl in H. lia.
    - apply IH. rewrite cs_sing_spec. simpl. pose proof (remove_length d clean Hd). simpl in H. lia.
  Qed.

  Lemma merge_set_ok : forall new s, exists r, merge_new_constraints_set R new s = Ok r.
  Proof.
    intros. unfold merge_new_constraints_set. apply merge_while_ok.
    rewrite rev_length. lia.
  Qed.

  Lemma add_constraint_ok : forall s c, exists r, add_constraint R s c = Ok r.
  Proof. intros. apply merge_set_ok. Qed.

  Lemma add_all_ok : forall l s, exists r, add_all R s l = Ok r.
  Proof.
    induction l as [|c l IH]; intros s; simpl; eauto.
    destruct (add_constraint_ok s c) as [r E]. rewrite E. simpl. apply IH.
  Qed.

  (** ** What merging preserves *)

  (** A property of constraints that a merged constraint has exactly when both parts have it *)
  Definition good (P : con -> Prop) : Prop :=
    (forall a b, same_c a b -> P a -> P b) /\
    (forall c new m, merges c new m -> (P m <-> P c /\ P new)).

  Definition all (P : con -> Prop) (s : cset Cs) : Prop := forall c, In c (iter s) -> P c.

  Lemma all_add : forall P c s, good P -> (all P (cs_add Cs c s) <-> P c /\ all P s).
  Proof.
    intros P c s [G _]. unfold all. split.
    - intros H. split.
      + destruct (c_in c (iter s)) eqn:E.
        * apply c_in_same in E. destruct E as [d [Hd Hs]]. apply (G d c); auto. apply H. apply cs_add_spec. auto.
        * apply H, cs_add_spec. auto.
      + intros x Hx. apply H, cs_add_spec. auto.
    - intros [H1 H2] x Hx. apply cs_add_spec in Hx. destruct Hx as [Hx|[-> _]]; auto.
  Qed.

  Lemma all_remove : forall (P : con -> Prop) c s, In c (iter s) ->
    (all P s <-> P c /\ all P (cs_remove Cs c (cs_copy Cs s))).
  Proof.
    intros P c s Hc. unfold all. split.
    - intros H. split; auto. intros x Hx. apply in_remove_copy in Hx; auto. now apply H.
    - intros [H1 H2] x Hx. destruct (c_eqb x c) eqn:E.
      + apply c_eqb_same in E. replace x with c; auto. symmetry. eapply iter_same_eq; eauto.
      + apply H2, in_remove_copy; auto. split; auto. intros ->. now rewrite c_eqb_refl in E.
  Qed.

  Lemma all_sing : forall (P : con -> Prop) c, all P (cs_sing Cs c) <-> P c.
  Proof. intros. unfold all. rewrite cs_sing_spec. simpl. split; intros; auto. destruct H0 as [<-|[]]; auto. Qed.

  Lemma all_empty : forall (P : con -> Prop), all P (cs_empty Cs).
  Proof. intros P c. rewrite cs_empty_spec. intros []. Qed.

  Lemma merge_while_good : forall P, good P -> forall fuel todo clean r, merge_while R fuel todo clean = Ok r ->
    (all P r <-> Forall P todo /\ all P clean).
  Proof.
    intros P G. induction fuel as [|fuel IH]; intros todo clean r E; [discriminate|].
    simpl in E. destruct todo as [|c todo].
    - injection E as <-. intuition.
    - rewrite Forall_cons_iff.
      destruct (merge_new_spec c clean) as [[E2 _]|[d [m [Hd [Hm E2]]]]]; rewrite E2 in E.
      + rewrite cs_empty_spec in E. simpl in E. apply IH in E. rewrite E, all_add; auto. tauto.
      + rewrite cs_sing_spec in E. simpl in E. apply IH in E. rewrite E, Forall_cons_iff.
        rewrite (all_remove P d clean Hd). destruct G as [_ G]. rewrite (G _ _ _ Hm). tauto.
  Qed.

  Lemma all_forall_rev_copy : forall P s, Forall P (rev (iter (cs_copy Cs s))) <-> all P s.
  Proof.
    intros. rewrite Forall_forall. unfold all. split; intros H c Hc.
    - apply H. rewrite <- in_rev. now apply cs_copy_spec.
    - apply H. rewrite <- in_rev in Hc. now rewrite cs_copy_spec in Hc.
  Qed.

  Lemma merge_set_good : forall P new s r, good P -> merge_new_constraints_set R new s = Ok r ->
    (all P r <-> all P new /\ all P s).
  Proof.
    intros P new s r G E. unfold merge_new_constraints_set in E. apply (merge_while_good P G) in E.
    rewrite E, all_forall_rev_copy.
    assert (H : all P (cs_copy Cs s) <-> all P s).
    { unfold all. split; intros H c Hc; apply H; now apply cs_copy_spec. }
    tauto.
  Qed.

  Lemma add_constraint_good : forall P s c r, good P -> add_constraint R s c = Ok r -> (all P r <-> P c /\ all P s).
  Proof.
    intros P s c r G E. unfold add_constraint, merge_new_constraints in E.
    rewrite (merge_set_good P _ _ _ G E). rewrite all_sing. tauto.
  Qed.

  Lemma add_all_good : forall P, good P -> forall l s r, add_all R s l = Ok r -> (all P r <-> Forall P l /\ all P s).
  Proof.
    intros P G. induction l as [|c l IH]; intros s r E; simpl in E.
    - injection E as <-. intuition.
    - destruct (add_constraint R s c) as [s'|] eqn:E2; [|discriminate]. simpl in E.
      rewrite (IH _ _ E), (add_constraint_good P _ _ _ G E2), Forall_cons_iff. tauto.
  Qed.

  Lemma good_false : good (fun _ => False).
  Proof. split; tauto. Qed.

  Lemma nonempty_false : forall s, iter s <> [] <-> ~ all (fun _ => False) s.
  Proof.
    intros. unfold all. split.
    - intros H H2. destruct (iter s) as [|c l]; [congruence|]. apply (H2 c). left; auto.
    - intros H H2. apply H. rewrite H2. intros c [].
  Qed.

  Lemma new_set_ok : forall s, iter s <> [] -> exists r, new_constraint_set R s = Ok r.
  Proof.
    intros s H. unfold new_constraint_set. destruct (iter s) as [|c l] eqn:E; [congruence|].
    apply add_all_ok.
  Qed.

  Lemma new_set_spec : forall s r, new_constraint_set R s = Ok r -> iter s <> [] /\ add_all R (cs_empty Cs) (iter s) = Ok r.
  Proof.
    intros s r E. unfold new_constraint_set in E. destruct (iter s); [discriminate|]. split; auto. congruence.
  Qed.

  Lemma all_Forall : forall P s, all P s <-> Forall P (iter s).
  Proof. intros. unfold all. now rewrite Forall_forall. Qed.

  Lemma new_set_good : forall P s r, good P -> new_constraint_set R s = Ok r -> (all P r <-> all P s).
  Proof.
    intros P s r G E. apply new_set_spec in E. destruct E as [_ E].
    rewrite (add_all_good P G _ _ _ E), <- all_Forall. pose proof (all_empty P). tauto.
  Qed.

  Lemma all_union : forall P a b, good P -> (all P (cs_union Cs a (cs_copy Cs b)) <-> all P a /\ all P b).
  Proof.
    intros P a b [G _]. unfold all. split.
    - intros H. split; intros c Hc.
      + apply H, cs_union_spec. auto.
      + destruct (c_in c (iter a)) eqn:E.
        * apply c_in_same in E. destruct E as [d [Hd Hs]]. apply (G d c); auto. apply H, cs_union_spec. auto.
        * apply H, cs_union_spec. right. split; auto. now apply cs_copy_spec.
    - intros [H1 H2] c Hc. apply cs_union_spec in Hc. destruct Hc as [Hc|[Hc _]]; auto. apply H2. now rewrite cs_copy_spec in Hc.
  Qed.

  Lemma combine_ok : forall a b, iter a <> [] \/ iter b <> [] -> exists r, combine_sets R a b = Ok r.
  Proof.
    intros a b H. apply new_set_ok. rewrite nonempty_false. rewrite all_union by apply good_false.
    rewrite !nonempty_false in H. tauto.
  Qed.

  Lemma combine_good : forall P a b r, good P -> combine_sets R a b = Ok r -> (all P r <-> all P a /\ all P b).
  Proof.
    intros P a b r G E. unfold combine_sets in E. rewrite (new_set_good P _ _ G E). now apply all_union.
  Qed.

  Lemma combine_nonempty : forall a b r, combine_sets R a b = Ok r -> iter r <> [].
  Proof.
    intros a b r E. pose proof E as E2. apply new_set_spec in E2. destruct E2 as [H _].
    apply nonempty_false. rewrite (new_set_good _ _ _ good_false E). now apply nonempty_false.
  Qed.

  Lemma new_set_nonempty : forall s r, new_constraint_set R s = Ok r -> iter r <> [].
  Proof.
    intros s r E. pose proof E as E2. apply new_set_spec in E2. destruct E2 as [H _].
    apply nonempty_false. rewrite (new_set_good _ _ _ good_false E). now apply nonempty_false.
  Qed.

  Lemma add_constraint_nonempty : forall s c r, add_constraint R s c = Ok r -> iter r <> [].
  Proof.
    intros s c r E. apply nonempty_false. rewrite (add_constraint_good _ _ _ _ good_false E). tauto.
  Qed.

  (** A property that a merged constraint inherits from its parts *)
  Definition inherited (Q : con -> Prop) : Prop := forall c new m, merges c new m -> Q c -> Q new -> Q m.

  Lemma merge_while_inherits : forall Q, inherited Q -> forall fuel todo clean r, merge_while R fuel todo clean = Ok r ->
    Forall Q todo -> all Q clean -> all Q r.
  Proof.
    intros Q G. induction fuel as [|fuel IH]; intros todo clean r E H1 H2; [discriminate|].
    simpl in E. destruct todo as [|c todo].
    - injection E as <-. auto.
    - apply Forall_cons_iff in H1. destruct H1 as [H0 H1].
      destruct (merge_new_spec c clean) as [[E2 _]|[d [m [Hd [Hm E2]]]]]; rewrite E2 in E.
      + rewrite cs_empty_spec in E. simpl in E. apply IH in E; auto.
        intros x Hx. apply cs_add_spec in Hx. destruct Hx as [Hx|[-> _]]; auto.
      + rewrite cs_sing_spec in E. simpl in E. apply IH in E; auto.
        * constructor; auto. eapply G; eauto.
        * apply (all_remove Q d clean Hd) in H2. tauto.
  Qed.

  Lemma merge_set_inherits : forall Q new s r, inherited Q -> merge_new_constraints_set R new s = Ok r ->
    all Q new -> all Q s -> all Q r.
  Proof.
    intros Q new s r G E H1 H2. unfold merge_new_constraints_set in E. eapply merge_while_inherits; eauto.
    - now apply all_forall_rev_copy.
    - intros c Hc. apply H2. now rewrite cs_copy_spec in Hc.
  Qed.

  Lemma add_constraint_inherits : forall Q s c r, inherited Q -> add_constraint R s c = Ok r -> Q c -> all Q s -> all Q r.
  Proof.
    intros Q s c r G E Hc Hs. eapply merge_set_inherits; eauto. now apply all_sing.
  Qed.

  Lemma add_all_inherits : forall Q, inherited Q -> forall l s r, add_all R s l = Ok r -> Forall Q l -> all Q s -> all Q r.
  Proof.
    intros Q G. induction l as [|c l IH]; intros s r E H1 H2; simpl in E.
    - injection E as <-. auto.
    - apply Forall_cons_iff in H1. destruct (add_constraint R s c) as [s'|] eqn:E2; [|discriminate]. simpl in E.
      eapply IH; eauto; [tauto|]. eapply add_constraint_inherits; eauto. tauto.
  Qed.

  Lemma new_set_inherits : forall Q s r, inherited Q -> new_constraint_set R s = Ok r -> all Q s -> all Q r.
  Proof.
    intros Q s r G E H. apply new_set_spec in E. destruct E as [_ E]. eapply add_all_inherits; eauto.
    - now apply all_Forall.
    - apply all_empty.
  Qed.

  Lemma combine_inherits : forall Q a b r, inherited Q -> combine_sets R a b = Ok r -> all Q a -> all Q b -> all Q r.
  Proof.
    intros Q a b r G E H1 H2. eapply new_set_inherits; eauto.
    intros c Hc. apply cs_union_spec in Hc. destruct Hc as [Hc|[Hc _]]; auto. apply H2. now rewrite cs_copy_spec in Hc.
  Qed.

  (** ** Normal form: the members cannot be merged any further *)
  Definition normal (s : cset Cs) : Prop := forall a b, In a (iter s) -> In b (iter s) -> a <> b -> unmergeable a b.

  Lemma normal_empty : normal (cs_empty Cs).
  Proof. intros a b. rewrite cs_empty_spec. intros []. Qed.

  Lemma unmergeable_sym : forall a b, unmergeable a b -> unmergeable b a.
  Proof. unfold unmergeable. tauto. Qed.

  Lemma merge_while_normal : forall fuel todo clean r, merge_while R fuel todo clean = Ok r -> normal clean -> normal r.
  Proof.
    induction fuel as [|fuel IH]; intros todo clean r E H; [discriminate|].
    simpl in E. destruct todo as [|c todo].
    - injection E as <-. auto.
    - destruct (merge_new_spec c clean) as [[E2 Hu]|[d [m [Hd [Hm E2]]]]]; rewrite E2 in E; apply IH in E; auto.
      + intros a b Ha Hb Hab. apply cs_add_spec in Ha. apply cs_add_spec in Hb.
        destruct Ha as [Ha|[-> _]]; destruct Hb as [Hb|[-> _]]; auto; [|congruence].
        now apply unmergeable_sym, Hu.
      + intros a b Ha Hb. apply in_remove_copy in Ha; auto. apply in_remove_copy in Hb; auto. now apply H.
  Qed.

  Lemma add_constraint_normal : forall s c r, add_constraint R s c = Ok r -> normal s -> normal r.
  Proof.
    intros s c r E H. unfold add_constraint, merge_new_constraints, merge_new_constraints_set in E.
    eapply merge_while_normal; eauto. intros a b Ha Hb. rewrite cs_copy_spec in Ha. rewrite cs_copy_spec in Hb. now apply H.
  Qed.

  Lemma add_all_normal : forall l s r, add_all R s l = Ok r -> normal s -> normal r.
  Proof.
    induction l as [|c l IH]; intros s r E H; simpl in E.
    - injection E as <-. auto.
    - destruct (add_constraint R s c) as [s'|] eqn:E2; [|discriminate]. simpl in E.
      eapply IH; eauto. eapply add_constraint_normal; eauto.
  Qed.

  Lemma new_set_normal : forall s r, new_constraint_set R s = Ok r -> normal r.
  Proof.
    intros s r E. apply new_set_spec in E. destruct E as [_ E]. eapply add_all_normal; eauto using normal_empty.
  Qed.

  Lemma combine_normal : forall a b r, combine_sets R a b = Ok r -> normal r.
  Proof. intros a b r E. eapply new_set_normal; eauto. Qed.

  Lemma deepcopy_normal : forall s, normal s -> normal (cs_deepcopy Cs s).
  Proof. intros s H a b Ha Hb. rewrite cs_deepcopy_spec in Ha. rewrite cs_deepcopy_spec in Hb. now apply H. Qed.

  (** ** Satisfaction by a total assignment of the variables *)
  Definition sat_c (h : text -> Z) (c : con) : Prop :=
    match c with
    | CNull => True
    | CImpossible => False
    | CVar n vs => In (h n) (z_iter Zs vs)
    end.
  Definition sat (h : text -> Z) (s : cset Cs) : Prop := all (sat_c h) s.

  Lemma merges_shape : forall c new m, merges c new m ->
    (c = CNull /\ m = new) \/ (new = CNull /\ m = c) \/ (c = CImpossible /\ m = CImpossible) \/
    (new = CImpossible /\ m = CImpossible) \/
    (exists n vs vs' i, c = CVar n vs /\ new = CVar n vs' /\ (i = z_inter Zs vs vs' \/ i = z_inter Zs vs' vs) /\
       ((z_iter Zs i = [] /\ m = CImpossible) \/ (z_iter Zs i <> [] /\ m = CVar n i))).
  Proof.
    intros c new m [[H1 H2]|[H1 H2]].
    - destruct c as [| |n vs]; simpl in H1, H2; try (injection H2 as <-; intuition; fail).
      destruct new as [| |n' vs']; try discriminate. rewrite H1 in H2. simpl in H2.
      apply text_eqb_eq in H1. subst n'. right. right. right. right.
      exists n, vs, vs', (z_inter Zs vs vs'). split; auto. split; auto. split; auto.
      destruct (z_iter Zs (z_inter Zs vs vs')) as [|z l] eqn:E; injection H2 as <-;
        [left | right]; split; auto; congruence.
    - destruct new as [| |n vs]; simpl in H1, H2; try (injection H2 as <-; intuition; fail).
      destruct c as [| |n' vs']; try discriminate. rewrite H1 in H2. simpl in H2.
      apply text_eqb_eq in H1. subst n'. right. right. right. right.
      exists n, vs', vs, (z_inter Zs vs vs'). split; auto. split; auto. split; auto.
      destruct (z_iter Zs (z_inter Zs vs vs')) as [|z l] eqn:E; injection H2 as <-;
        [left | right]; split; auto; congruence.
  Qed.

  Lemma same_sat : forall h a b, same_c a b -> sat_c h a -> sat_c h b.
  Proof.
    intros h [| |n vs] [| |n' vs']; simpl; try tauto. intros [-> E]. rewrite E. auto.
  Qed.

  Lemma sat_good : forall h, good (sat_c h).
  Proof.
    intros h. split; [apply same_sat|].
    intros c new m H. apply merges_shape in H.
    destruct H as [[-> ->]|[[-> ->]|[[-> ->]|[[-> ->]|[n [vs [vs' [i [-> [-> [Hi H]]]]]]]]]]]; simpl; try tauto.
    assert (Hin : In (h n) (z_iter Zs i) <-> In (h n) (z_iter Zs vs) /\ In (h n) (z_iter Zs vs')).
    { destruct Hi as [->| ->]; rewrite z_inter_spec; tauto. }
    destruct H as [[E ->]|[E ->]]; simpl; rewrite <- Hin; [rewrite E; simpl; tauto | tauto].
  Qed.

  Lemma sat_add : forall h s c r, add_constraint R s c = Ok r -> (sat h r <-> sat_c h c /\ sat h s).
  Proof. intros h s c r E. apply (add_constraint_good _ _ _ _ (sat_good h) E). Qed.

  Lemma sat_combine : forall h a b r, combine_sets R a b = Ok r -> (sat h r <-> sat h a /\ sat h b).
  Proof. intros h a b r E. apply (combine_good _ _ _ _ (sat_good h) E). Qed.

  Lemma sat_deepcopy : forall h s, sat h (cs_deepcopy Cs s) <-> sat h s.
  Proof. intros. unfold sat, all. setoid_rewrite cs_deepcopy_spec. tauto. Qed.

  Definition sat_cb (h : text -> Z) (c : con) : bool :=
    match c with
    | CNull => true
    | CImpossible => false
    | CVar n vs => existsb (Z.eqb (h n)) (z_iter Zs vs)
    end.
  Definition satb (h : text -> Z) (s : cset Cs) : bool := forallb (sat_cb h) (iter s).

  Lemma sat_cb_iff : forall h c, sat_cb h c = true <-> sat_c h c.
  Proof.
    intros h [| |n vs]; simpl; try (split; congruence || tauto).
    rewrite existsb_exists. split.
    - intros [x [Hx E]]. apply Z.eqb_eq in E. now subst.
    - intros H. exists (h n). split; auto. apply Z.eqb_refl.
  Qed.

  Lemma satb_iff : forall h s, satb h s = true <-> sat h s.
  Proof.
    intros. unfold satb, sat, all. rewrite forallb_forall. split; intros H c Hc; now apply sat_cb_iff, H.
  Qed.

  (** Possible exactly when satisfiable *)
  Lemma sat_possible : forall h s, sat h s -> cset_is_possible R s = true.
  Proof.
    intros h s H. unfold cset_is_possible. apply forallb_forall. intros c Hc. specialize (H c Hc).
    destruct c as [| |n vs]; simpl in *; auto. destruct (z_iter Zs vs); simpl in *; tauto.
  Qed.

  Definition values_of (l : list con) (n : text) : list Z :=
    flat_map (fun c => match c with CVar n' vs => if text_eqb n' n then z_iter Zs vs else [] | _ => [] end) l.

  Lemma possible_sat : forall s, normal s -> cset_is_possible R s = true -> exists h, sat h s.
  Proof.
    intros s N P. unfold cset_is_possible in P. rewrite forallb_forall in P.
    exists (fun n => hd 0 (values_of (iter s) n)). intros c Hc. pose proof (P c Hc) as Pc.
    destruct c as [| |n vs]; simpl in *; auto; [discriminate|].
    assert (Hne : z_iter Zs vs <> []) by (fold Zs in Pc; destruct (z_iter Zs vs); [discriminate | congruence]).
    assert (H : forall l1, (forall d, In d l1 -> In d (iter s)) -> In (CVar n vs) l1 ->
              values_of l1 n <> [] /\ forall x, In x (values_of l1 n) -> In x (z_iter Zs vs)).
    { induction l1 as [|d l1 IH]; intros Hs Hi; [destruct Hi|].
      assert (Hd : match d with CVar n' vs' => if text_eqb n' n then z_iter Zs vs' else [] | _ => [] end
                   = if c_eqb d (CVar n vs) then z_iter Zs vs else []).
      { destruct (c_eqb d (CVar n vs)) eqn:E.
        - apply c_eqb_same in E. destruct d; simpl in E; try tauto. destruct E as [-> E]. now rewrite text_eqb_refl.
        - destruct d as [| |n' vs']; auto. destruct (text_eqb n' n) eqn:En; auto. exfalso.
          assert (U : unmergeable (CVar n' vs') (CVar n vs)).
          { apply N; [apply Hs; left; auto | auto |]. intros Heq. rewrite Heq, c_eqb_refl in E. discriminate. }
          destruct U as [_ U]. simpl in U. congruence. }
      unfold values_of. simpl. rewrite Hd. fold (values_of l1 n).
      destruct (c_eqb d (CVar n vs)) eqn:E.
      - split.
        + intros H0. apply app_eq_nil in H0. tauto.
        + intros x Hx. apply in_app_or in Hx. destruct Hx as [Hx|Hx]; auto.
          revert Hx. unfold values_of. rewrite in_flat_map. intros [d' [Hd' Hx]].
          destruct d' as [| |n' vs']; try destruct Hx. destruct (text_eqb n' n) eqn:En; [|destruct Hx].
          destruct (c_eqb (CVar n' vs') (CVar n vs)) eqn:E2.
          * apply c_eqb_same in E2. simpl in E2. destruct E2 as [_ E2]. rewrite <- E2. auto.
          * exfalso. assert (U : unmergeable (CVar n' vs') (CVar n vs)).
            { apply N; [apply Hs; right; auto | auto |]. intros Heq. rewrite Heq, c_eqb_refl in E2. discriminate. }
            destruct U as [_ U]. simpl in U. congruence.
      - destruct Hi as [->|Hi]; [now rewrite c_eqb_refl in E|]. simpl. apply IH; auto. intros. apply Hs. right; auto. }
    destruct (H (iter s) (fun d h => h) Hc) as [H1 H2].
    destruct (values_of (iter s) n) as [|x l]; [congruence|]. simpl. apply H2. left. auto.
  Qed.

  (** The variables that a set mentions *)
  Definition c_names (c : con) : list text := match c with CVar n _ => [n] | _ => [] end.
  Definition names (s : cset Cs) : list text := flat_map c_names (iter s).

  Lemma in_names : forall s n, In n (names s) <-> exists c, In c (iter s) /\ In n (c_names c).
  Proof. intros. unfold names. apply in_flat_map. Qed.

  Lemma names_inherited : forall (N : text -> Prop), inherited (fun c => forall n, In n (c_names c) -> N n).
  Proof.
    intros N c new m H Hc Hn. apply merges_shape in H.
    destruct H as [[-> ->]|[[-> ->]|[[-> ->]|[[-> ->]|[n [vs [vs' [i [-> [-> [Hi H]]]]]]]]]]]; auto.
    destruct H as [[E ->]|[E ->]]; simpl in *; [tauto|auto].
  Qed.

  Lemma names_all : forall s (N : text -> Prop), all (fun c => forall n, In n (c_names c) -> N n) s <-> (forall n, In n (names s) -> N n).
  Proof.
    intros. unfold all. split.
    - intros H n Hn. apply in_names in Hn. destruct Hn as [c [Hc Hn]]. eapply H; eauto.
    - intros H c Hc n Hn. apply H. apply in_names. eauto.
  Qed.

  Lemma names_add : forall s c r n, add_constraint R s c = Ok r -> In n (names r) -> In n (c_names c) \/ In n (names s).
  Proof.
    intros s c r n E Hn.
    assert (H : all (fun c' => forall n, In n (c_names c') -> In n (c_names c) \/ In n (names s)) r).
    { refine (add_constraint_inherits _ s c r (names_inherited (fun n => In n (c_names c) \/ In n (names s))) E _ _).
      - auto.
      - intros d Hd n' Hn'. right. apply in_names. eauto. }
    apply in_names in Hn. destruct Hn as [d [Hd Hn]]. eapply H; eauto.
  Qed.

  Lemma names_combine : forall a b r n, combine_sets R a b = Ok r -> In n (names r) -> In n (names a) \/ In n (names b).
  Proof.
    intros a b r n E Hn.
    assert (H : all (fun c' => forall n, In n (c_names c') -> In n (names a) \/ In n (names b)) r).
    { refine (combine_inherits _ a b r (names_inherited (fun n => In n (names a) \/ In n (names b))) E _ _).
      - intros d Hd n' Hn'. left. apply in_names. eauto.
      - intros d Hd n' Hn'. right. apply in_names. eauto. }
    apply in_names in Hn. destruct Hn as [d [Hd Hn]]. eapply H; eauto.
  Qed.

  Lemma names_deepcopy : forall s n, In n (names (cs_deepcopy Cs s)) <-> In n (names s).
  Proof. intros. rewrite !in_names. setoid_rewrite cs_deepcopy_spec. tauto. Qed.

  Lemma sat_ext : forall s h h', (forall n, In n (names s) -> h n = h' n) -> sat h s -> sat h' s.
  Proof.
    intros s h h' H Hs c Hc. specialize (Hs c Hc). destruct c as [| |n vs]; simpl in *; auto.
    rewrite <- H; auto. apply in_names. exists (CVar n vs). simpl. auto.
  Qed.

  Lemma create_ok : exists s, create_constraint_set R = Ok s.
  Proof. unfold create_constraint_set. apply new_set_ok. rewrite cs_sing_spec. congruence. Qed.

  Lemma create_sat : forall s h, create_constraint_set R = Ok s -> sat h s.
  Proof.
    intros s h E. unfold create_constraint_set in E. apply (new_set_good _ _ _ (sat_good h) E). apply all_sing. simpl. auto.
  Qed.

  Lemma create_names : forall s n, create_constraint_set R = Ok s -> ~ In n (names s).
  Proof.
    intros s n E. assert (H : all (fun c' => forall n, In n (c_names c') -> False) s).
    { refine (new_set_inherits _ _ s (names_inherited (fun _ => False)) E _).
      apply all_sing. simpl. auto. }
    intros Hn. apply in_names in Hn. destruct Hn as [c [Hc Hn]]. eapply H; eauto.
  Qed.

  Lemma create_normal : forall s, create_constraint_set R = Ok s -> normal s.
  Proof. intros s E. eapply new_set_normal; eauto. Qed.

  Lemma create_nonempty : forall s, create_constraint_set R = Ok s -> iter s <> [].
  Proof. intros s E. eapply new_set_nonempty; eauto. Qed.

  (** ** Printed sets *)
  Definition name_ok (n : text) : Prop := ~ In ","%char n.
  Definition con_ok (c : con) : Prop := forall n, In n (c_names c) -> name_ok n.

  Lemma c_str_prefix : forall a b x y, con_ok a -> con_ok b -> c_str a ++ x = c_str b ++ y -> same_c a b /\ x = y.
  Proof.
    intros [| |n vs] [| |n' vs'] x y Ha Hb E; cbn [c_str same_c] in *;
      try (exfalso; simpl in E; discriminate).
    - apply app_inv_head in E. auto.
    - apply app_inv_head in E. auto.
    - rewrite <- !app_assoc in E. apply app_inv_head in E.
      change ($", values=" ++ ?x) with (","%char :: ($" values=" ++ x)) in E.
      apply first_split in E; [|apply Ha; left; auto | apply Hb; left; auto].
      destruct E as [-> E]. apply app_inv_head in E. rewrite !z_str_eq in E.
      apply zlist_str_prefix in E. tauto.
  Qed.

  Lemma join_strs_inj : forall l1 l2 x y, l1 <> [] -> l2 <> [] -> Forall con_ok l1 -> Forall con_ok l2 ->
    join $", " (map c_str l1) ++ "}"%char :: x = join $", " (map c_str l2) ++ "}"%char :: y ->
    Forall2 same_c l1 l2 /\ x = y.
  Proof.
    induction l1 as [|a l1 IH]; intros [|b l2] x y N1 N2 H1 H2 E; try congruence.
    apply Forall_cons_iff in H1. apply Forall_cons_iff in H2. destruct H1 as [Ha H1]. destruct H2 as [Hb H2].
    destruct l1 as [|a2 l1]; destruct l2 as [|b2 l2].
    - simpl in E. apply c_str_prefix in E; auto. destruct E as [E1 E2]. injection E2 as ->. auto.
    - exfalso. change (join $", " (map c_str (b :: b2 :: l2))) with
        (c_str b ++ $", " ++ join $", " (map c_str (b2 :: l2))) in E.
      rewrite <- app_assoc in E. simpl map in E. simpl join in E at 1. apply c_str_prefix in E; auto.
      destruct E as [_ E]. discriminate.
    - exfalso. change (join $", " (map c_str (a :: a2 :: l1))) with
        (c_str a ++ $", " ++ join $", " (map c_str (a2 :: l1))) in E.
      rewrite <- app_assoc in E. simpl map in E at 2. simpl join in E at 2. apply c_str_prefix in E; auto.
      destruct E as [_ E]. discriminate.
    - change (join $", " (map c_str (a :: a2 :: l1))) with
        (c_str a ++ $", " ++ join $", " (map c_str (a2 :: l1))) in E.
      change (join $", " (map c_str (b :: b2 :: l2))) with
        (c_str b ++ $", " ++ join $", " (map c_str (b2 :: l2))) in E.
      rewrite <- !app_assoc in E. apply c_str_prefix in E; auto. destruct E as [Es E].
      apply app_inv_head in E. apply IH in E; auto; try congruence. destruct E as [E ->]. auto.
  Qed.

  Definition set_ok (s : cset Cs) : Prop := forall n, In n (names s) -> name_ok n.

  Lemma set_ok_forall : forall s, set_ok s <-> Forall con_ok (iter s).
  Proof.
    intros. rewrite Forall_forall. unfold set_ok. split.
    - intros H c Hc n Hn. apply H, in_names. eauto.
    - intros H n Hn. apply in_names in Hn. destruct Hn as [c [Hc Hn]]. eapply H; eauto.
  Qed.

  Lemma cset_str_inj : forall a b, set_ok a -> set_ok b -> cset_str R a = cset_str R b ->
    Forall2 same_c (iter a) (iter b).
  Proof.
    intros a b Ha Hb E. apply set_ok_forall in Ha. apply set_ok_forall in Hb.
    unfold cset_str in E. apply app_inv_head in E.
    destruct (iter a) as [|c l] eqn:Ea; destruct (iter b) as [|d l'] eqn:Eb.
    - constructor.
    - simpl in E. discriminate.
    - simpl in E. discriminate.
    - apply app_inv_head in E. apply join_strs_inj in E; auto; try congruence. tauto.
  Qed.

  Lemma same_sat_sets : forall h a b, Forall2 same_c (iter a) (iter b) -> (sat h a <-> sat h b).
  Proof.
    intros h a b F. unfold sat. rewrite !all_Forall. induction F as [|c d l l' Hs F IH].
    - split; auto.
    - rewrite !Forall_cons_iff, IH. split; intros [H1 H2]; split; auto.
      + eapply same_sat; eauto.
      + eapply same_sat; [apply same_c_sym|]; eauto.
  Qed.

  Lemma cset_eqb_sat : forall h a b, set_ok a -> set_ok b -> cset_eqb R a b = true -> (sat h a <-> sat h b).
  Proof.
    intros h a b Ha Hb E. apply text_eqb_eq in E. apply same_sat_sets, cset_str_inj; auto.
  Qed.
End Facts.
