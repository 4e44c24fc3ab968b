(** * Instances: two concrete runtimes, so that the laws of [Runtime] are known to be consistent and the
    model can be executed.  Sets keep their members in insertion order, or in the reverse of it. *)
From Verif Require Import Py PyFacts Constraint.

Lemma c_eqb_refl : forall Z (c : constraint Z), c_eqb c c = true.
Proof. intros. apply text_eqb_refl. Qed.

Lemma c_eqb_sym : forall Z (a b : constraint Z), c_eqb a b = c_eqb b a.
Proof.
  intros. unfold c_eqb. apply eq_true_iff_eq. rewrite !text_eqb_eq. split; congruence.
Qed.

Lemma c_eqb_trans : forall Z (a b c : constraint Z), c_eqb a b = true -> c_eqb b c = true -> c_eqb a c = true.
Proof. unfold c_eqb. intros Z a b c. rewrite !text_eqb_eq. congruence. Qed.

Definition flip_list {A} (flip : bool) (l : list A) : list A := if flip then rev l else l.

Lemma in_flip : forall A flip (l : list A) x, In x (flip_list flip l) <-> In x l.
Proof. intros. destruct flip; simpl; [symmetry; apply in_rev | tauto]. Qed.

(** Sets of ints *)
Definition list_zsets (flip : bool) : ZSets.
Proof.
  refine {| zset := list Z;
            z_iter := fun s => flip_list flip (nodup Z.eq_dec s);
            z_of := fun l => l;
            z_inter := fun a b => filter (fun x => existsb (Z.eqb x) b) a |}.
  - abstract (intros s; destruct flip; simpl; [apply NoDup_rev, NoDup_nodup | apply NoDup_nodup]).
  - abstract (intros l x; rewrite in_flip; apply nodup_In).
  - abstract (intros a b x; rewrite !in_flip, !nodup_In, filter_In, existsb_exists;
      split; intros [H1 H2]; split; auto;
      [ destruct H2 as [y [Hy E]]; apply Z.eqb_eq in E; now subst
      | exists x; split; auto; apply Z.eqb_refl ]).
Defined.

(** Sets of constraints *)
Section Dedupe.
  Context {Zs : ZSets}.
  Notation con := (constraint Zs).

  (** the first of each class of equal constraints *)
  Fixpoint dedupe_acc (seen l : list con) : list con :=
    match l with
    | [] => []
    | c :: l' => if c_in c seen then dedupe_acc seen l' else c :: dedupe_acc (seen ++ [c]) l'
    end.
  Definition dedupe (l : list con) : list con := dedupe_acc [] l.

  Lemma c_in_true : forall (c : con) l, c_in c l = true <-> exists d, In d l /\ c_eqb d c = true.
  Proof. intros. unfold c_in. apply existsb_exists. Qed.

  Lemma c_in_false : forall (c : con) l, c_in c l = false <-> forall d, In d l -> c_eqb d c = false.
  Proof.
    intros. split.
    - intros H d Hd. destruct (c_eqb d c) eqn:E; auto.
      assert (c_in c l = true) by (apply c_in_true; eauto). congruence.
    - intros H. destruct (c_in c l) eqn:E; auto. apply c_in_true in E. destruct E as [d [Hd E]].
      rewrite (H d Hd) in E. discriminate.
  Qed.

  (** no two members at different places are equal *)
  Definition distinct (l : list con) : Prop :=
    forall l1 c l2, l = l1 ++ c :: l2 -> c_in c l1 = false /\ c_in c l2 = false.

  Inductive dist_list : list con -> Prop :=
  | dl_nil : dist_list []
  | dl_cons : forall c l, c_in c l = false -> dist_list l -> dist_list (c :: l).

  Lemma dist_list_distinct : forall l, dist_list l -> distinct l.
  Proof.
    induction 1 as [|c l Hc Hl IH]; intros l1 d l2 E.
    - destruct l1; discriminate.
    - destruct l1 as [|e l1]; simpl in E; injection E as -> ->.
      + split; auto.
      + destruct (IH l1 d l2 eq_refl) as [H1 H2]. split; auto.
        simpl. rewrite H1, orb_false_r. apply c_in_false with (d := d) in Hc.
        * rewrite c_eqb_sym. auto.
        * apply in_or_app. right. left. auto.
  Qed.

  Lemma dist_list_app : forall l c, dist_list l -> c_in c l = false -> dist_list (l ++ [c]).
  Proof.
    induction 1 as [|d l Hd Hl IH]; intros Hc; simpl.
    - constructor; [auto | constructor].
    - simpl in Hc. apply orb_false_iff in Hc. destruct Hc as [H1 H2]. constructor; auto.
      apply c_in_false. intros e He. apply in_app_or in He. destruct He as [He|[<-|[]]].
      + apply c_in_false with (l := l); auto.
      + rewrite c_eqb_sym. auto.
  Qed.

  Lemma dist_list_rev : forall l, dist_list l -> dist_list (rev l).
  Proof.
    induction 1; simpl; [constructor|]. apply dist_list_app; auto.
    apply c_in_false. intros d Hd. apply in_rev in Hd. apply c_in_false with (l := l); auto.
  Qed.

  Lemma dedupe_acc_spec : forall l seen,
    dist_list (dedupe_acc seen l) /\ (forall c, In c (dedupe_acc seen l) -> c_in c seen = false).
  Proof.
    induction l as [|c l IH]; intros seen; simpl.
    - split; [constructor | intros ? []].
    - destruct (c_in c seen) eqn:E; auto.
      destruct (IH (seen ++ [c])) as [H1 H2].
      assert (H3 : forall d, In d (dedupe_acc (seen ++ [c]) l) -> c_in d seen = false /\ c_eqb c d = false).
      { intros d Hd. specialize (H2 d Hd). pose proof (proj1 (c_in_false _ _) H2) as H4. split.
        - apply c_in_false. intros e He. apply H4. apply in_or_app. auto.
        - apply H4. apply in_or_app. right. left. auto. }
      split.
      + constructor; auto. apply c_in_false. intros d Hd. rewrite c_eqb_sym. now apply H3.
      + intros d [<-|Hd]; auto. now apply H3.
  Qed.

  Lemma dedupe_dist : forall l, dist_list (dedupe l).
  Proof. intros. apply dedupe_acc_spec. Qed.

  Lemma dedupe_acc_id : forall l seen, dist_list l -> (forall c, In c l -> c_in c seen = false) ->
    dedupe_acc seen l = l.
  Proof.
    induction l as [|c l IH]; intros seen HD H; simpl; auto.
    rewrite (H c (or_introl eq_refl)). f_equal. inversion HD; subst. apply IH; auto.
    intros d Hd. apply c_in_false. intros e He. apply in_app_or in He. destruct He as [He|[<-|[]]].
    - apply (proj1 (c_in_false _ _) (H d (or_intror Hd))); auto.
    - rewrite c_eqb_sym. apply (proj1 (c_in_false c l) H2); auto.
  Qed.

  Lemma dedupe_id : forall l, dist_list l -> dedupe l = l.
  Proof. intros. apply dedupe_acc_id; auto. Qed.

  Lemma filter_dist : forall f l, dist_list l -> dist_list (filter f l).
  Proof.
    induction 1; simpl; [constructor|]. destruct (f c); auto. constructor; auto.
    apply c_in_false. intros d Hd. apply filter_In in Hd. apply c_in_false with (l := l); tauto.
  Qed.

  Lemma app_dist : forall a b, dist_list a -> dist_list b -> (forall c, In c b -> c_in c a = false) ->
    dist_list (a ++ b).
  Proof.
    induction 1 as [|c a Hc Ha IH]; intros Hb H; simpl; auto. constructor.
    - apply c_in_false. intros d Hd. apply in_app_or in Hd. destruct Hd as [Hd|Hd].
      + apply c_in_false with (l := a); auto.
      + specialize (H d Hd). simpl in H. apply orb_false_iff in H. rewrite c_eqb_sym. tauto.
    - apply IH; auto. intros d Hd. specialize (H d Hd). simpl in H. apply orb_false_iff in H. tauto.
  Qed.
End Dedupe.

Section Laws.
  Context {Zs : ZSets} (flip : bool).
  Notation con := (constraint Zs).
  Notation it := (fun s : list con => flip_list flip (dedupe s)).

  Lemma c_in_flip : forall (c : con) l, c_in c (flip_list flip l) = c_in c l.
  Proof.
    intros. apply eq_true_iff_eq. rewrite !c_in_true. split; intros [d [Hd E]]; exists d; rewrite in_flip in *; auto.
  Qed.

  Lemma list_add_spec : forall (x : con) s c,
    In c (it (let s' := dedupe s in if c_in x s' then s' else s' ++ [x])) <->
    In c (it s) \/ (c = x /\ c_in x (it s) = false).
  Proof.
    intros x s c. cbn beta zeta. rewrite !in_flip, c_in_flip. destruct (c_in x (dedupe s)) eqn:Ex.
    + rewrite dedupe_id by apply dedupe_dist. intuition congruence.
    + rewrite dedupe_id by (apply dist_list_app; auto using dedupe_dist).
      rewrite in_app_iff. simpl. intuition.
  Qed.

  Lemma list_remove_spec : forall (x : con) s c,
    In c (it (filter (fun d => negb (c_eqb d x)) (dedupe s))) <-> In c (it s) /\ c_eqb c x = false.
  Proof.
    intros x s c. rewrite !in_flip, dedupe_id by (apply filter_dist, dedupe_dist).
    rewrite filter_In, negb_true_iff. tauto.
  Qed.

  Lemma list_union_spec : forall (a b : list con) c,
    In c (it (let a' := dedupe a in a' ++ filter (fun c => negb (c_in c a')) (dedupe b))) <->
    In c (it a) \/ (In c (it b) /\ c_in c (it a) = false).
  Proof.
    intros a b c. cbn beta zeta. rewrite !in_flip, c_in_flip, dedupe_id.
    + rewrite in_app_iff, filter_In, negb_true_iff. tauto.
    + apply app_dist; auto using dedupe_dist, filter_dist.
      intros d Hd. apply filter_In in Hd. rewrite negb_true_iff in Hd. tauto.
  Qed.
End Laws.

Definition list_csets (flip : bool) (Zs : ZSets) : CSets Zs.
Proof.
  refine {| cset := list (constraint Zs);
            cs_iter := fun s => flip_list flip (dedupe s);
            cs_empty := [];
            cs_sing := fun c => [c];
            cs_copy := fun s => s;
            cs_deepcopy := fun s => s;
            cs_add := fun c s => let s' := dedupe s in if c_in c s' then s' else s' ++ [c];
            cs_remove := fun c s => filter (fun d => negb (c_eqb d c)) (dedupe s);
            cs_union := fun a b => let a' := dedupe a in a' ++ filter (fun c => negb (c_in c a')) (dedupe b) |}.
  - abstract (intros s; apply dist_list_distinct; destruct flip; simpl; [apply dist_list_rev|]; apply dedupe_dist).
  - abstract (now destruct flip).
  - abstract (intros c; now destruct flip).
  - abstract tauto.
  - abstract tauto.
  - exact (list_add_spec flip).
  - exact (list_remove_spec flip).
  - exact (list_union_spec flip).
Defined.

(** A string hash *)
Definition poly_hash (s : text) : Z := fold_left (fun h c => (h * 31 + Z.of_N (code c)) mod 1000003) s 7.

Definition rt_fwd : Runtime :=
  {| rt_z := list_zsets false; rt_c := list_csets false (list_zsets false); rt_hash := poly_hash |}.
Definition rt_rev : Runtime :=
  {| rt_z := list_zsets true; rt_c := list_csets true (list_zsets true); rt_hash := fun _ => 0 |}.
