(** * ConstraintProofs: proofs of the properties of constraint sets *)
From Coq Require Import Permutation.
From Verif Require Import Py PyFacts Constraint ConstraintFacts Distribution DistFacts SpecConstraint.

Section Proofs.
  Context (R : Runtime).
  Notation Cs := (rt_c R).
  Notation con := (constraint (rt_z R)).
  Notation iter := (cs_iter Cs).

  (** ** The set built from a list *)
  Lemma fold_add_in : forall l s c, In c (iter (fold_left (fun s c => cs_add Cs c s) l s)) ->
    In c (iter s) \/ In c l.
  Proof.
    induction l as [|x l IH]; simpl; intros s c H; auto.
    apply IH in H. destruct H as [H|H]; auto. rewrite cs_add_spec in H. destruct H as [H|[-> _]]; auto.
  Qed.

  Lemma fold_add_has : forall l s c, In c (iter s) \/ In c l ->
    exists d, In d (iter (fold_left (fun s c => cs_add Cs c s) l s)) /\ same_c d c.
  Proof.
    induction l as [|x l IH]; simpl; intros s c H.
    - destruct H as [H|[]]. exists c. split; auto. apply same_c_refl.
    - destruct H as [H|[<-|H]].
      + apply IH. left. rewrite cs_add_spec. auto.
      + destruct (c_in x (iter s)) eqn:E.
        * apply c_in_same in E. destruct E as [d [Hd E]].
          destruct (IH (cs_add Cs x s) d) as [e [He Ee]]; [left; rewrite cs_add_spec; auto|].
          exists e. split; auto. eapply same_c_trans; eauto.
        * apply IH. left. rewrite cs_add_spec. auto.
      + apply IH. auto.
  Qed.

  Lemma py_set_in : forall l c, In c (iter (py_set R l)) -> In c l.
  Proof. intros l c H. apply fold_add_in in H. rewrite cs_empty_spec in H. destruct H as [[]|H]. auto. Qed.

  Lemma py_set_all : forall P l, good R P -> (all R P (py_set R l) <-> Forall P l).
  Proof.
    intros P l [G _]. rewrite Forall_forall. split.
    - intros H c Hc. destruct (fold_add_has l (cs_empty Cs) c (or_intror Hc)) as [d [Hd E]].
      apply (G d c E), H, Hd.
    - intros H c Hc. apply H. now apply py_set_in.
  Qed.

  Lemma py_set_nonempty : forall l, l <> [] <-> iter (py_set R l) <> [].
  Proof.
    intros l. split.
    - destruct l as [|x l]; [congruence|]. intros _ E.
      destruct (fold_add_has (x :: l) (cs_empty Cs) x (or_intror (or_introl eq_refl))) as [d [Hd _]].
      unfold py_set in E. rewrite E in Hd. destruct Hd.
    - intros H ->. apply H. apply cs_empty_spec.
  Qed.

  (** ** Builds *)
  Lemma build_ok : forall b, nonempty_build R b -> exists s, run_build R b = Ok s /\ iter s <> [].
  Proof.
    induction b as [l|b IH c|a IHa b IHb]; simpl.
    - intros H. destruct (new_set_ok R (py_set R l)) as [s E]; [now apply (proj1 (py_set_nonempty l))|].
      exists s. split; auto. eapply new_set_nonempty; eauto.
    - intros H. destruct (IH H) as [s [E _]]. rewrite E. simpl. destruct (add_constraint_ok R s c) as [r Er].
      exists r. split; auto. eapply add_constraint_nonempty; eauto.
    - intros [Ha Hb]. destruct (IHa Ha) as [s [E Hs]]. destruct (IHb Hb) as [t [Et Ht]]. rewrite E, Et. simpl.
      destruct (combine_ok R s t) as [r Er]; auto. exists r. split; auto. eapply combine_nonempty; eauto.
  Qed.

  Lemma build_nonempty : forall b s, run_build R b = Ok s -> nonempty_build R b.
  Proof.
    induction b as [l|b IH c|a IHa b IHb]; simpl; intros s E.
    - apply new_set_spec in E. apply (proj2 (py_set_nonempty l)). tauto.
    - destruct (run_build R b) as [s'|]; [|discriminate]. eauto.
    - destruct (run_build R a) as [s'|]; [|discriminate]. simpl in E.
      destruct (run_build R b) as [t'|]; [|discriminate]. eauto.
  Qed.

  Lemma build_raise : forall b e, run_build R b = Raise e -> e = ValueError.
  Proof.
    assert (add : forall s c e, add_constraint R s c = Raise e -> False).
    { intros s c e E. destruct (add_constraint_ok R s c). congruence. }
    induction b as [l|b IH c|a IHa b IHb]; simpl; intros e E.
    - unfold new_constraint_set in E. destruct (iter (py_set R l)) as [|c cs] eqn:Ei; [congruence|].
      destruct (add_all_ok R (c :: cs) (cs_empty Cs)). congruence.
    - destruct (run_build R b) as [s'|]; simpl in E; [exfalso; eauto | injection E as <-; auto].
    - destruct (run_build R a) as [s'|] eqn:Ea; simpl in E; [|injection E as <-; auto].
      destruct (run_build R b) as [t'|] eqn:Eb; simpl in E; [|injection E as <-; auto].
      destruct (build_ok a) as [x [Ex Hx]]; [eapply build_nonempty; eauto|].
      destruct (combine_ok R s' t'); [left|]; congruence.
  Qed.

  Lemma build_good : forall P b s, good R P -> run_build R b = Ok s -> (all R P s <-> Forall P (given R b)).
  Proof.
    intros P b s G. revert s. induction b as [l|b IH c|a IHa b IHb]; simpl; intros s E.
    - rewrite (new_set_good R P _ _ G E). apply (py_set_all P l G).
    - destruct (run_build R b) as [s'|]; [|discriminate]. simpl in E.
      rewrite (add_constraint_good R P _ _ _ G E), (IH s') by auto. rewrite Forall_app. split.
      + intros [H1 H2]. auto.
      + intros [H1 H2]. inversion H2; subst. auto.
    - destruct (run_build R a) as [s'|]; [|discriminate]. simpl in E.
      destruct (run_build R b) as [t'|]; [|discriminate]. simpl in E.
      rewrite (combine_good R P _ _ _ G E), (IHa s'), (IHb t') by auto. now rewrite Forall_app.
  Qed.

  Lemma build_normal : forall b s, run_build R b = Ok s -> normal R s.
  Proof.
    induction b as [l|b IH c|a IHa b IHb]; simpl; intros s E.
    - eapply new_set_normal; eauto.
    - destruct (run_build R b) as [s'|]; [|discriminate]. simpl in E. eapply add_constraint_normal; eauto.
    - destruct (run_build R a) as [s'|]; [|discriminate]. simpl in E.
      destruct (run_build R b) as [t'|]; [|discriminate]. simpl in E. eapply combine_normal; eauto.
  Qed.

  Lemma build_inherits : forall Q b s, inherited R Q -> run_build R b = Ok s -> Forall Q (given R b) -> all R Q s.
  Proof.
    intros Q b s I. revert s. induction b as [l|b IH c|a IHa b IHb]; simpl; intros s E H.
    - apply (new_set_inherits R Q _ _ I E). intros c Hc. rewrite Forall_forall in H. apply H. now apply py_set_in.
    - destruct (run_build R b) as [s'|]; [|discriminate]. simpl in E. rewrite Forall_app in H. destruct H as [H1 H2].
      inversion H2; subst. apply (add_constraint_inherits R Q _ _ _ I E); auto.
    - destruct (run_build R a) as [s'|]; [|discriminate]. simpl in E.
      destruct (run_build R b) as [t'|]; [|discriminate]. simpl in E. rewrite Forall_app in H. destruct H as [H1 H2].
      apply (combine_inherits R Q _ _ _ I E); auto.
  Qed.

  Lemma holds_sat : forall h b s, run_build R b = Ok s -> (sat R h s <-> forall c, In c (given R b) -> holds R h c).
  Proof.
    intros h b s E. unfold sat. rewrite (build_good _ _ _ (sat_good R h) E), Forall_forall. reflexivity.
  Qed.

  (** ** C27 *)
  Lemma merging_finishes :
    (forall b, (nonempty_build R b -> exists s, run_build R b = Ok s) /\
               (~ nonempty_build R b -> run_build R b = Raise ValueError)) /\
    (forall s c, exists r, merge_new_constraints R s c = Ok r) /\
    (forall s, exists r, merge_constraints R s = Ok r).
  Proof.
    split; [|split].
    - intros b. split; intros H.
      + destruct (build_ok b H) as [s [E _]]. eauto.
      + destruct (run_build R b) eqn:E; [exfalso; apply H; eapply build_nonempty; eauto|].
        now rewrite (build_raise _ _ E).
    - intros s c. apply merge_set_ok.
    - intros s. apply merge_set_ok.
  Qed.

  (** ** C28 *)
  Lemma possible_iff : forall b s, run_build R b = Ok s -> (cset_is_possible R s = true <-> satisfiable R (given R b)).
  Proof.
    intros b s E. split.
    - intros H. destruct (possible_sat R s (build_normal _ _ E) H) as [h Hh]. exists h. now apply (holds_sat h b s).
    - intros [h Hh]. apply (sat_possible R h). now apply (holds_sat h b s).
  Qed.

  (** ** C29 *)
  Definition extend (d : list (text * Z)) (h : text -> Z) : text -> Z :=
    fun n => match dget text_eqb d n with Some x => x | None => h n end.

  Lemma complies_extend : forall d h c, holds R h c -> c_complies R c d = true -> holds R (extend d h) c.
  Proof.
    intros d h [| |n vs] H C; auto. simpl in *. unfold extend. destruct (dget text_eqb d n); auto.
    apply existsb_exists in C. destruct C as [y [Hy Ey]]. apply Z.eqb_eq in Ey. now subst.
  Qed.

  Lemma extend_complies : forall d h c, holds R (extend d h) c -> c_complies R c d = true.
  Proof.
    intros d h [| |n vs] H; auto. simpl in *. unfold extend in H. destruct (dget text_eqb d n) as [x|]; auto.
    apply existsb_exists. exists x. split; auto. apply Z.eqb_refl.
  Qed.

  Lemma complies_iff : forall b s d, run_build R b = Ok s -> satisfiable R (given R b) ->
    (cset_complies R s d = true <-> forall c, In c (given R b) -> c_complies R c d = true).
  Proof.
    intros b s d E [h Hh]. unfold cset_complies. rewrite forallb_forall.
    assert (Hs : sat R h s) by now apply (holds_sat h b s). split.
    - intros H c Hc. apply (extend_complies d h). revert c Hc. apply (holds_sat _ b s E).
      intros c Hc. apply complies_extend; auto. now apply Hs.
    - intros H. assert (Ht : sat R (extend d h) s).
      { apply (holds_sat _ b s E). intros c Hc. apply complies_extend; auto. }
      intros c Hc. apply (extend_complies d h). now apply Ht.
  Qed.

  (** ** C30 *)
  Definition valued (c : con) : Prop := match c with CVar _ vs => z_iter (rt_z R) vs <> [] | _ => True end.

  Lemma valued_inherited : inherited R valued.
  Proof.
    intros c new m M Hc Hn. apply merges_shape in M.
    destruct M as [[_ ->]|[[_ ->]|[[_ ->]|[[_ ->]|[n [vs [vs' [i [-> [-> [_ [[_ ->]|[Hi ->]]]]]]]]]]]]]; simpl; auto.
  Qed.

  Lemma build_valued : forall b s, run_build R b = Ok s -> no_empty_values R (given R b) -> all R valued s.
  Proof.
    intros b s E H. apply (build_inherits valued b s valued_inherited E). rewrite Forall_forall.
    intros [| |n vs] Hc; simpl; auto. eapply H; eauto.
  Qed.

  Lemma only_member : forall s x, normal R s -> In x (iter s) -> (forall c, c_can_merge R x c = true) ->
    (forall c, c = x \/ c <> x) -> iter s = [x].
  Proof.
    intros s x N Hx M D. assert (ND := iter_nodup R s).
    assert (H : forall c, In c (iter s) -> c = x).
    { intros c Hc. destruct (D c) as [E|E]; auto.
      destruct (N x c Hx Hc) as [H _]; [congruence|]. rewrite M in H. discriminate. }
    destruct (iter s) as [|a [|b l]].
    - destruct Hx.
    - f_equal. apply H. left. auto.
    - assert (a = b) by (rewrite (H a), (H b); simpl; auto). subst. inversion ND. simpl in *. tauto.
  Qed.

  Definition upd (h : text -> Z) (n : text) (x : Z) : text -> Z := fun m => if text_eqb m n then x else h m.

  Lemma fresh_value : forall l : list Z, exists x, ~ In x l.
  Proof.
    intros l. exists (1 + zsum (map Z.abs l)). intros H.
    assert (F : forall l x, In x l -> x <= zsum (map Z.abs l)).
    { clear. induction l as [|y l IH]; simpl; intros x []; [subst|].
      - assert (0 <= zsum (map Z.abs l)) by (apply zsum_map_nonneg; intros; lia). lia.
      - apply IH in H. lia. }
    apply F in H. lia.
  Qed.

  Lemma describes : forall b s, run_build R b = Ok s -> no_empty_values R (given R b) ->
    members_of R (given R b) (iter s).
  Proof.
    intros b s E NE. assert (N := build_normal _ _ E). assert (V := build_valued _ _ E NE).
    assert (X : iter s <> []).
    { destruct (build_ok b) as [s' [E' H]]; [eapply build_nonempty; eauto|]. congruence. }
    destruct (cset_is_possible R s) eqn:P.
    - (* satisfiable *)
      assert (S := proj1 (possible_iff _ _ E) P). destruct S as [h Hh].
      assert (Hs : sat R h s) by now apply (holds_sat h b s).
      destruct (existsb (fun c => match c with CNull => true | _ => false end) (iter s)) eqn:En.
      + apply existsb_exists in En. destruct En as [[| |] [Hc En]]; try discriminate.
        assert (Ei : iter s = [CNull]).
        { apply only_member; auto. intros c. destruct c; [left; auto | right; discriminate | right; discriminate]. }
        rewrite Ei. apply mem_null. intros [| |n vs] Hc'; auto.
        * apply Hh in Hc'. destruct Hc'.
        * exfalso. destruct (fresh_value (z_iter (rt_z R) vs)) as [x Hx].
          assert (Hx' : sat R (upd h n x) s).
          { intros c Hcs. rewrite Ei in Hcs. destruct Hcs as [<-|[]]. exact I. }
          apply (proj1 (holds_sat _ b s E) Hx') in Hc'. simpl in Hc'. unfold upd in Hc'.
          rewrite text_eqb_refl in Hc'. auto.
      + assert (VARS : forall c, In c (iter s) -> exists n vs, c = CVar n vs).
        { intros [| |n vs] Hc; [exfalso|exfalso|eauto].
          - assert (existsb (fun c : con => match c with CNull => true | _ => false end) (iter s) = true); [|congruence].
            apply existsb_exists. exists CNull. auto.
          - apply (Hs _ Hc). }
        assert (UNIQ : forall n vs vs', In (CVar n vs) (iter s) -> In (CVar n vs') (iter s) -> vs = vs').
        { intros n vs vs' H1 H2.
          destruct (c_in_same (CVar n vs) [@CVar (rt_z R) n vs']) as [_ _].
          assert (D : CVar n vs = CVar n vs' \/ CVar n vs <> CVar n vs').
          { assert (F := iter_nodup R s). clear - H1 H2 F.
            induction (iter s) as [|c l IH]; [destruct H1|]. inversion F; subst.
            destruct H1 as [->|H1]; destruct H2 as [H2|H2]; auto.
            - right. intros EE. rewrite EE in *. auto.
            - right. intros EE. rewrite EE in *. congruence. }
          destruct D as [D|D]; [now injection D|].
          destruct (N _ _ H1 H2 D) as [H _]. simpl in H. rewrite text_eqb_refl in H. discriminate. }
        assert (UPD : forall n x, (forall vs, In (CVar n vs) (iter s) -> In x (z_iter (rt_z R) vs)) <-> common_value R (given R b) n x).
        { intros n x. split.
          - intros H vs Hvs. assert (Hx : sat R (upd h n x) s).
            { intros c Hc. destruct (VARS c Hc) as [m [ws ->]]. simpl. unfold upd.
              destruct (text_eqb m n) eqn:Em; [apply text_eqb_eq in Em; subst; auto | apply (Hs _ Hc)]. }
            apply (proj1 (holds_sat _ b s E) Hx) in Hvs. simpl in Hvs. unfold upd in Hvs. now rewrite text_eqb_refl in Hvs.
          - intros H vs Hvs. assert (Hx : sat R (upd h n x) s).
            { apply (holds_sat _ b s E). intros [| |m ws] Hc; [exact I | apply Hh in Hc; auto | ].
              simpl. unfold upd. destruct (text_eqb m n) eqn:Em; [apply text_eqb_eq in Em; subst; auto | apply Hh in Hc; auto]. }
            apply Hx in Hvs. simpl in Hvs. unfold upd in Hvs. now rewrite text_eqb_refl in Hvs. }
        assert (NAMES : forall n, (exists vs, In (CVar n vs) (iter s)) <-> (exists c, In c (given R b) /\ about R n c)).
        { intros n. split.
          - intros [vs Hvs]. assert (F : all R (fun c => forall n, In n (c_names R c) -> exists d, In d (given R b) /\ about R n d) s).
            { apply (build_inherits _ b s (names_inherited R (fun n => exists d, In d (given R b) /\ about R n d)) E).
              rewrite Forall_forall. intros [| |m ws] Hc k Hk; simpl in Hk; try tauto. destruct Hk as [<-|[]].
              exists (CVar m ws). split; auto. reflexivity. }
            apply (F _ Hvs). left. auto.
          - intros [[| |m ws] [Hc A]]; simpl in A; try tauto. subst m.
            destruct (existsb (fun c => match c with CVar m _ => text_eqb m n | _ => false end) (iter s)) eqn:Ex.
            + apply existsb_exists in Ex. destruct Ex as [[| |m vs] [Hm Em]]; try discriminate.
              apply text_eqb_eq in Em. subst. eauto.
            + exfalso. destruct (fresh_value (z_iter (rt_z R) ws)) as [x Hx]. apply Hx.
              apply (proj1 (UPD n x)); auto. intros vs Hvs. exfalso.
              assert (existsb (fun c : con => match c with CVar m _ => text_eqb m n | _ => false end) (iter s) = true); [|congruence].
              apply existsb_exists. exists (CVar n vs). split; auto. apply text_eqb_refl. }
        apply mem_vars; auto.
        * exists h. auto.
        * destruct (iter s) as [|c l] eqn:Ei; [congruence|]. destruct (VARS c (or_introl eq_refl)) as [n [vs ->]].
          destruct (proj1 (NAMES n)) as [d [Hd A]]; [exists vs; left; auto|]. eauto.
        * intros c Hc. destruct (VARS c Hc) as [n [vs ->]]. exists n, vs. split; auto.
          intros x. rewrite <- (UPD n x). split; auto.
          intros Hx vs' Hvs'. now rewrite (UNIQ n vs' vs).
        * assert (F := iter_nodup R s). clear - F VARS UNIQ. induction (iter s) as [|c l IH]; simpl; constructor.
          -- intros H. apply in_map_iff in H. destruct H as [d [Ed Hd]].
             destruct (VARS c (or_introl eq_refl)) as [n [vs ->]]. destruct (VARS d (or_intror Hd)) as [n' [vs' ->]].
             subst n'. inversion F; subst. rewrite (UNIQ n vs vs') in *; auto; simpl; auto.
          -- inversion F; subst. apply IH; auto; intros; [apply VARS | eapply UNIQ]; simpl; eauto.
    - (* not satisfiable *)
      assert (U : ~ satisfiable R (given R b)).
      { intros S. apply (possible_iff _ _ E) in S. congruence. }
      assert (I : In CImpossible (iter s)).
      { assert (F : exists c, In c (iter s) /\ c_is_possible R c = false).
        { unfold cset_is_possible in P. clear - P. induction (iter s) as [|c l IH]; simpl in *; [discriminate|].
          destruct (c_is_possible R c) eqn:Ec; [|exists c; auto]. destruct IH as [d [Hd Ed]]; auto. exists d. auto. }
        destruct F as [[| |n vs] [Hc Ec]]; auto; try discriminate.
        apply V in Hc. simpl in *. destruct (z_iter (rt_z R) vs); [congruence | discriminate]. }
      rewrite (only_member s CImpossible); auto.
      + now apply mem_impossible.
      + intros c. destruct c; [right; discriminate | left; auto | right; discriminate].
  Qed.

  Lemma included_length : forall (l l' ms ms' : list con), 
    (forall c, In c l <-> In c l') -> members_of R l ms -> members_of R l' ms' -> same_members R ms ms'.
  Proof.
    intros l l' ms ms' P M M'.
    assert (SAT : satisfiable R l <-> satisfiable R l').
    { split; intros [h H]; exists h; intros c Hc; apply H, P, Hc. }
    assert (CV : forall n x, common_value R l n x <-> common_value R l' n x).
    { intros. split; intros H vs Hvs; apply H, P, Hvs. }
    destruct M as [U|A|ms S [c0 [n0 [Hc0 A0]]] D ND NM]; destruct M' as [U'|A'|ms' S' [c1 [n1 [Hc1 A1]]] D' ND' NM'].
    - repeat split; auto; intros c [<-|[]]; eexists; (split; [left; reflexivity | exact I]).
    - exfalso. apply U. exists (fun _ => 0). intros c Hc. apply P, A' in Hc. now subst.
    - tauto.
    - exfalso. apply U'. exists (fun _ => 0). intros c Hc. apply P, A in Hc. now subst.
    - repeat split; auto; intros c [<-|[]]; eexists; (split; [left; reflexivity | exact I]).
    - exfalso. apply P in Hc1. apply A in Hc1. subst. destruct A1.
    - tauto.
    - exfalso. apply P in Hc0. apply A' in Hc0. subst. destruct A0.
    - assert (NN : forall n, (exists vs, In (CVar n vs) ms) <-> (exists vs, In (CVar n vs) ms')).
      { intros n. rewrite NM, NM'. split; intros [c [Hc Ac]]; exists c; split; auto; now apply P. }
      split; [|split].
      + intros c Hc. destruct (D c Hc) as [n [vs [-> Hvs]]]. destruct (proj1 (NN n)) as [vs' Hvs']; [eauto|].
        exists (CVar n vs'). split; auto. split; auto. destruct (D' _ Hvs') as [m [ws [E Hws]]]. injection E as <- <-.
        intros v. rewrite Hvs, Hws. apply CV.
      + intros c Hc. destruct (D' c Hc) as [n [vs [-> Hvs]]]. destruct (proj2 (NN n)) as [vs' Hvs']; [eauto|].
        exists (CVar n vs'). split; auto. split; auto. destruct (D _ Hvs') as [m [ws [E Hws]]]. injection E as <- <-.
        intros v. rewrite Hvs, Hws. symmetry. apply CV.
      + set (f := fun c : con => match c with CVar n _ => n | _ => [] end) in *.
        rewrite <- (map_length f ms), <- (map_length f ms').
        assert (IN : forall n, In n (map f ms) <-> exists vs, In (CVar n vs) ms).
        { intros n. rewrite in_map_iff. split.
          - intros [c [<- Hc]]. destruct (D c Hc) as [m [vs [-> _]]]. eauto.
          - intros [vs Hvs]. exists (CVar n vs). auto. }
        assert (IN' : forall n, In n (map f ms') <-> exists vs, In (CVar n vs) ms').
        { intros n. rewrite in_map_iff. split.
          - intros [c [<- Hc]]. destruct (D' c Hc) as [m [vs [-> _]]]. eauto.
          - intros [vs Hvs]. exists (CVar n vs). auto. }
        apply Permutation_length, NoDup_Permutation; auto. intros n. rewrite IN, IN'. apply NN.
  Qed.

  Lemma order_independent : forall b b' s s', run_build R b = Ok s -> run_build R b' = Ok s' ->
    no_empty_values R (given R b) -> (forall c, In c (given R b) <-> In c (given R b')) ->
    same_members R (iter s) (iter s').
  Proof.
    intros b b' s s' E E' NE P. apply (included_length (given R b) (given R b')); auto using describes.
    apply describes; auto. intros n vs H. apply (NE n vs). now apply P.
  Qed.

  (** ** C29, impossible sets *)
  Lemma impossible_complies : forall b s d, run_build R b = Ok s -> no_empty_values R (given R b) ->
    ~ satisfiable R (given R b) -> cset_complies R s d = true.
  Proof.
    intros b s d E NE U. unfold cset_complies. remember (iter s) as ms eqn:Em. assert (D := describes b s E NE).
    rewrite <- Em in D. destruct D as [_|A|ms S _ _ _ _]; auto; tauto.
  Qed.

  (** ** C31 *)
  Lemma about_names : forall n c, about R n c <-> In n (c_names R c).
  Proof. intros n [| |m vs]; simpl; [tauto|tauto|]. split; [auto | intros [H|[]]; auto]. Qed.

  Lemma comma_free_ok : forall s, comma_free R s <-> set_ok R s.
  Proof.
    intros s. unfold comma_free, set_ok, mentions, name_ok. split; intros H n Hn; apply H.
    - apply in_names in Hn. destruct Hn as [c [Hc A]]. exists c. split; auto. now apply about_names.
    - apply in_names. destruct Hn as [c [Hc A]]. exists c. split; auto. now apply about_names.
  Qed.

  Lemma hash_fold : forall l l' h, Forall2 same_c l l' ->
    fold_left (fun h c => Z.lxor h (rt_hash R (c_str c))) l h =
    fold_left (fun h c => Z.lxor h (rt_hash R (@c_str (rt_z R) c))) l' h.
  Proof.
    intros l l' h F. revert h. induction F as [|a b l l' S F IH]; simpl; intros h; auto.
    rewrite (same_c_str a b S). apply IH.
  Qed.

  Lemma equal_outcomes : forall a b : outcome R, comma_free R (o_cs a) -> comma_free R (o_cs b) -> o_eqb R a b = true ->
    o_hash R a = o_hash R b /\ o_value a = o_value b /\
    (forall h, (forall c, In c (iter (o_cs a)) -> holds R h c) <-> (forall c, In c (iter (o_cs b)) -> holds R h c)).
  Proof.
    intros a b Ca Cb E. unfold o_eqb in E. rewrite andb_true_iff in E. destruct E as [E1 E2]. apply Z.eqb_eq in E1.
    rewrite comma_free_ok in Ca, Cb. unfold cset_eqb in E2. apply text_eqb_eq in E2.
    assert (F := cset_str_inj R _ _ Ca Cb E2). split; [|split]; auto.
    - unfold o_hash, cset_hash. now rewrite E1, (hash_fold _ _ _ F).
    - intros h. apply (same_sat_sets R h _ _ F).
  Qed.

  Lemma hash_perm : forall (l l' : list con) h, Permutation l l' ->
    fold_left (fun h c => Z.lxor h (rt_hash R (c_str c))) l h =
    fold_left (fun h c => Z.lxor h (rt_hash R (c_str c))) l' h.
  Proof.
    intros l l' h P. revert h. induction P; simpl; intros h; auto.
    - f_equal. rewrite !Z.lxor_assoc. f_equal. apply Z.lxor_comm.
    - rewrite IHP1. apply IHP2.
  Qed.

  Lemma hash_order : forall s s' : cset Cs, (forall c, In c (iter s) <-> In c (iter s')) -> cset_hash R s = cset_hash R s'.
  Proof.
    intros s s' H. unfold cset_hash. apply hash_perm. apply NoDup_Permutation; auto using iter_nodup.
  Qed.

  Lemma outcome_equivalence : forall a b c : outcome R,
    o_eqb R a a = true /\ (o_eqb R a b = true -> o_eqb R b a = true) /\
    (o_eqb R a b = true -> o_eqb R b c = true -> o_eqb R a c = true).
  Proof.
    intros a b c. unfold o_eqb, cset_eqb. rewrite !andb_true_iff, !Z.eqb_eq, !text_eqb_eq. intuition congruence.
  Qed.
End Proofs.
