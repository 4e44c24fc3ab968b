(** * StateFacts: the state of an interpreter; storing variables keeps its invariant *)
From Verif Require Import Py PyFacts PyFloat Constraint ConstraintFacts Distribution DistFacts SpecDice DiceFacts DiceModel
  DropKeepFacts NotationFacts DiceProofs Expr TagFacts SpecProgram ExprFacts.

Lemma text_eqb_iff : forall a b, text_eqb a b = true <-> a = b.
Proof. exact text_eqb_eq. Qed.

Section Facts.
  Context (R : Runtime).
  Notation dist := (dist R).
  Notation state := (state R).

  Lemma get_safe_add_same : forall (l : list (text * Z)) n, dget text_eqb (safe_add text_eqb l n 1) n =
    Some (match dget text_eqb l n with Some k => k | None => 0 end + 1).
  Proof.
    induction l as [|[k v] l IH]; intros n; simpl.
    - now rewrite text_eqb_refl.
    - destruct (text_eqb k n) eqn:E; simpl; rewrite E; auto.
  Qed.

  Lemma get_safe_add_other : forall (l : list (text * Z)) n m, m <> n -> dget text_eqb (safe_add text_eqb l n 1) m = dget text_eqb l m.
  Proof.
    induction l as [|[k v] l IH]; intros n m H; simpl.
    - apply not_eq_sym, text_eqb_neq in H. now rewrite H.
    - destruct (text_eqb k n) eqn:E; simpl; destruct (text_eqb k m) eqn:E2; auto.
      apply text_eqb_eq in E, E2. congruence.
  Qed.

  Definition bumped (s : state) (n : text) : state :=
    {| st_var := st_var s; st_const := st_const s; st_times := bump (st_times s) n |}.

  Lemma times_bumped_same : forall s n, times_of R (bumped s n) n = times_of R s n + 1.
  Proof. intros. unfold times_of, bumped, bump. simpl. now rewrite get_safe_add_same. Qed.
  Lemma times_bumped_other : forall s n m, m <> n -> times_of R (bumped s n) m = times_of R s m.
  Proof. intros. unfold times_of, bumped, bump. simpl. now rewrite get_safe_add_other. Qed.

  Lemma times_ext : forall s s', st_times s = st_times s' -> forall n, times_of R s n = times_of R s' n.
  Proof. intros. unfold times_of. now rewrite H. Qed.

  Lemma later_bumped : forall s n, later R s (bumped s n).
  Proof.
    intros s n m. destruct (text_eq_dec m n) as [->|H]; [rewrite times_bumped_same | rewrite times_bumped_other by auto]; lia.
  Qed.

  Definition next_instance (s : state) (n : text) : text := instance_name n (times_of R s n + 1).

  Lemma next_not_issued : forall s n, ~ issued R s (next_instance s n).
  Proof.
    intros s n [n' [k [E [_ H]]]]. apply instance_name_inj in E. destruct E as [<- <-]. lia.
  Qed.

  Lemma next_issued : forall s n, name_ok n -> 0 <= times_of R s n -> issued R (bumped s n) (next_instance s n).
  Proof.
    intros s n N H. exists n, (times_of R s n + 1). rewrite times_bumped_same. repeat split; auto; lia.
  Qed.

  (** storing a variable *)
  Lemma set_var_spec : forall s n d, sinv R s -> dwf R s d -> name_ok n ->
    exists d', set_var R n d s = ({| st_var := dset text_eqb (st_var s) n d'; st_const := st_const s; st_times := bump (st_times s) n |}, Ok tt) /\
      d_map d' = tag_all R (next_instance s n) (d_map d) /\ d_count d' = d_count d /\ dwf R (bumped s n) d'.
  Proof.
    intros s n d I W N.
    destruct (tag_dist_spec R (next_instance s n) d) as [d' [E [M [C D]]]].
    { now apply instance_name_ok. }
    { intros H. apply (next_not_issued s n). now apply (proj2 W). }
    { apply W. }
    exists d'. split; [|split; [auto | split; auto]].
    - unfold set_var. fold (bumped s n). rewrite times_bumped_same. unfold next_instance in E. rewrite E. reflexivity.
    - split; auto. intros m Hm. apply (tag_dnames R _ d d' m M) in Hm. destruct Hm as [->|Hm].
      + apply next_issued; auto. apply si_times. auto.
      + apply (issued_later R s); [apply later_bumped | now apply (proj2 W)].
  Qed.

  Lemma sinv_store : forall s n d', sinv R s -> dwf R (bumped s n) d' ->
    sinv R {| st_var := dset text_eqb (st_var s) n d'; st_const := st_const s; st_times := bump (st_times s) n |}.
  Proof.
    intros s n d' [V T] W. set (s' := {| st_var := _ |}).
    assert (E : forall m, times_of R s' m = times_of R (bumped s n) m) by (intros; now apply times_ext).
    assert (L : later R (bumped s n) s') by (intros m; rewrite E; lia).
    constructor.
    - intros m d H. simpl in H. apply (dset_vals text_eqb text_eqb_iff) in H. destruct H as [H|[-> _]].
      + apply V in H. apply (dwf_later R s); auto. apply (later_trans R _ (bumped s n)); auto. apply later_bumped.
      + now apply (dwf_later R (bumped s n)).
    - intros m. rewrite E. specialize (T m). assert (H := later_bumped s n m). lia.
  Qed.

  Lemma sinv_empty : sinv R (empty_state R).
  Proof. constructor; [intros n d [] | intros n; unfold times_of; simpl; lia]. Qed.
End Facts.
