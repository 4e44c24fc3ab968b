(** * RegexFacts: what the backtracking matcher of Regex.v accepts *)
From Verif Require Import Py PyFacts Regex.

(** ** Membership lemmas *)
Lemma in_seq : forall a b p q, In q (rmatch (RSeq a b) p) <-> exists m, In m (rmatch a p) /\ In q (rmatch b m).
Proof. intros. simpl. rewrite in_flat_map. reflexivity. Qed.

Lemma in_alt : forall a b p q, In q (rmatch (RAlt a b) p) <-> In q (rmatch a p) \/ In q (rmatch b p).
Proof. intros. simpl. now rewrite in_app_iff. Qed.

Lemma in_char : forall f p q, In q (rmatch (RChar f) p) <-> exists c s, snd p = c :: s /\ f c = true /\ q = (c :: fst p, s).
Proof.
  intros f [b s] q. simpl. destruct s as [|c s]; [split; [intros [] | intros [c [s' [H _]]]; discriminate]|].
  destruct (f c) eqn:E; simpl.
  - split.
    + intros [<-|[]]. eauto.
    + intros [c' [s' [H [_ ->]]]]. inversion H; subst. auto.
  - split; [tauto|]. intros [c' [s' [H [H' _]]]]. inversion H; subst. congruence.
Qed.

Lemma in_rstar_char : forall f n b s q, (length s <= n)%nat ->
  (In q (rstar (rmatch (RChar f)) n (b, s)) <-> exists u v, s = u ++ v /\ forallb f u = true /\ q = (rev u ++ b, v)).
Proof.
  induction n as [|n IH]; intros b s q H.
  - destruct s; [|simpl in H; lia]. simpl. split.
    + intros [<-|[]]. exists [], []. auto.
    + intros [u [v [E [_ ->]]]]. symmetry in E. apply app_eq_nil in E. destruct E; subst. auto.
  - cbn [rstar]. rewrite in_app_iff, in_flat_map. split.
    + intros [[m [Hm Hq]]|[<-|[]]].
      * apply in_char in Hm. destruct Hm as [c [s' [E [Hf ->]]]]. cbn [fst snd] in *. subst s.
        destruct (length s' <? length (c :: s'))%nat; [|destruct Hq].
        apply IH in Hq; [|simpl in H; lia]. destruct Hq as [u [v [-> [Hu ->]]]].
        exists (c :: u), v. simpl. rewrite Hf, Hu, <- app_assoc. auto.
      * exists [], s. auto.
    + intros [[|c u] [v [E [Hu ->]]]].
      * simpl in E. subst. right. left. auto.
      * left. simpl in E. subst s. simpl in Hu. apply andb_true_iff in Hu. destruct Hu as [Hc Hu].
        exists (c :: b, u ++ v). split; [apply in_char; exists c, (u ++ v); auto|].
        cbn [snd]. replace (length (u ++ v) <? length (c :: u ++ v))%nat with true by (symmetry; apply Nat.ltb_lt; simpl; lia).
        apply IH; [simpl in H; lia|]. exists u, v. simpl. rewrite <- app_assoc. auto.
Qed.

Lemma in_star_char : forall f b s q,
  In q (rmatch (RStar (RChar f)) (b, s)) <-> exists u v, s = u ++ v /\ forallb f u = true /\ q = (rev u ++ b, v).
Proof. intros. simpl. apply in_rstar_char. auto. Qed.

(** ** Patterns without look-around: the remaining texts after a match *)
Fixpoint simple (r : regex) : bool :=
  match r with
  | RChar _ | REps => true
  | RSeq a b | RAlt a b => simple a && simple b
  | RStar (RChar _) => true
  | _ => false
  end.

Fixpoint leaves (r : regex) (s s' : text) : Prop :=
  match r with
  | RChar f => exists c, s = c :: s' /\ f c = true
  | REps => s = s'
  | RSeq a b => exists m, leaves a s m /\ leaves b m s'
  | RAlt a b => leaves a s s' \/ leaves b s s'
  | RStar (RChar f) => exists u, s = u ++ s' /\ forallb f u = true
  | _ => False
  end.

Lemma leaves_spec : forall r, simple r = true -> forall b s s', (exists b', In (b', s') (rmatch r (b, s))) <-> leaves r s s'.
Proof.
  induction r; intros S; try discriminate; intros b s s'.
  - cbn [leaves]. split.
    + intros [b' H]. apply in_char in H. destruct H as [c [s1 [E [Hf H]]]]. inversion H; subst. eauto.
    + intros [c [-> Hf]]. exists (c :: b). apply in_char. exists c, s'. auto.
  - simpl. split; [intros [b' [H|[]]]; now inversion H | intros ->; exists b; auto].
  - cbn [simple] in S. apply andb_true_iff in S. destruct S as [S1 S2]. cbn [leaves]. split.
    + intros [b' H]. apply in_seq in H. destruct H as [[bm m] [H1 H2]]. exists m. split.
      * apply (IHr1 S1 b). eauto.
      * apply (IHr2 S2 bm). eauto.
    + intros [m [H1 H2]]. apply (IHr1 S1 b) in H1. destruct H1 as [bm H1]. apply (IHr2 S2 bm) in H2. destruct H2 as [b' H2].
      exists b'. apply in_seq. eauto.
  - cbn [simple] in S. apply andb_true_iff in S. destruct S as [S1 S2]. cbn [leaves].
    rewrite <- (IHr1 S1 b), <- (IHr2 S2 b). split.
    + intros [b' H]. apply in_alt in H. destruct H; eauto.
    + intros [[b' H]|[b' H]]; exists b'; apply in_alt; auto.
  - destruct r; try discriminate. cbn [leaves]. split.
    + intros [b' H]. apply in_star_char in H. destruct H as [u [v [E [Hu H]]]]. inversion H; subst. eauto.
    + intros [u [-> Hu]]. exists (rev u ++ b). apply in_star_char. eauto.
Qed.

Lemma re_test_leaves : forall r s, simple r = true -> (re_test r s = true <-> exists s', leaves r s s').
Proof.
  intros r s S. unfold re_test, pstart. destruct (rmatch r ([], s)) as [|[b s'] l] eqn:E.
  - split; [discriminate|]. intros [s' H]. apply (leaves_spec r S []) in H. destruct H as [b' H]. rewrite E in H. destruct H.
  - split; auto. intros _. exists s'. apply (leaves_spec r S []). exists b. rewrite E. left. auto.
Qed.

Lemma re_test_false : forall r s, simple r = true -> (forall s', ~ leaves r s s') -> re_test r s = false.
Proof.
  intros r s S H. destruct (re_test r s) eqn:E; auto. apply re_test_leaves in E; auto. destruct E as [s' E]. now apply H in E.
Qed.

(** ** Runs of characters of a class *)
Lemma run_unique : forall (f : ascii -> bool) u v u' v', u ++ v = u' ++ v' -> forallb f u = true -> forallb f u' = true ->
  (forall c w, v = c :: w -> f c = false) -> (forall c w, v' = c :: w -> f c = false) -> u = u' /\ v = v'.
Proof.
  induction u as [|x u IH]; intros v [|y u'] v' E Hu Hu' Hv Hv'; simpl in *; auto.
  - subst v. apply andb_true_iff in Hu'. destruct Hu' as [Hy _]. rewrite (Hv y _ eq_refl) in Hy. discriminate.
  - subst v'. apply andb_true_iff in Hu. destruct Hu as [Hx _]. rewrite (Hv' x _ eq_refl) in Hx. discriminate.
  - inversion E; subst. apply andb_true_iff in Hu. apply andb_true_iff in Hu'.
    destruct (IH v u' v') as [-> ->]; tauto.
Qed.

Definition plus_char (f : ascii -> bool) (s s' : text) : Prop := exists u, u <> [] /\ s = u ++ s' /\ forallb f u = true.

Lemma leaves_plus : forall f s s', leaves (rplus (RChar f)) s s' <-> plus_char f s s'.
Proof.
  intros. cbn [rplus leaves]. unfold plus_char. split.
  - intros [m [[c [-> Hc]] [u [-> Hu]]]]. exists (c :: u). simpl. rewrite Hc, Hu. repeat split; auto. discriminate.
  - intros [[|c u] [N [-> H]]]; [congruence|]. simpl in H. apply andb_true_iff in H. destruct H.
    exists (u ++ s'). split; [exists c; auto | eauto].
Qed.

Lemma leaves_ch : forall c s s', leaves (rch c) s s' <-> s = c :: s'.
Proof.
  intros. cbn. split.
  - intros [x [-> H]]. apply Ascii.eqb_eq in H. now subst.
  - intros ->. exists c. split; auto. apply Ascii.eqb_refl.
Qed.

Lemma leaves_opt : forall r s s', leaves (ropt r) s s' <-> leaves r s s' \/ s = s'.
Proof. reflexivity. Qed.
