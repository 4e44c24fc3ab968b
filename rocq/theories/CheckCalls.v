(** * CheckCalls: computing runs of calls for the examples and the witnesses *)
From Verif Require Import Py PyFloat Constraint Distribution DiceModel Expr Parser Interp SpecDice SpecProgram SpecInterp SpecCalls SpecFrame Checks StateProofs.

Section Checks.
  Context (R : Runtime).

  (** The run of roll(lines) in which every die shows its first side *)
  Definition first_run (lines : list text) (s : state R) : Z * (state R * res const_dict) := hd (0, (s, Raise OutOfFuel)) (roll R lines s).
  Definition rolled_state (lines : list text) (s : state R) : state R := fst (snd (first_run lines s)).

  Lemma first_run_in : forall lines s, In (first_run lines s) (roll R lines s).
  Proof. intros lines s. unfold first_run. pose proof (roll_nonempty R lines s) as N. destruct (roll R lines s); [contradiction|now left]. Qed.
  Lemma first_run_parts : forall lines s w r, fst (first_run lines s) = w -> snd (snd (first_run lines s)) = r ->
    In (w, (rolled_state lines s, r)) (roll R lines s).
  Proof. intros lines s w r <- <-. unfold rolled_state. pose proof (first_run_in lines s) as I. now destruct (first_run lines s) as [w [s' r]]. Qed.
  Lemma does_rolled : forall lines s, does R (CRoll lines) s (rolled_state lines s).
  Proof. intros. eapply do_roll. eapply first_run_parts; reflexivity. Qed.
  Lemma reachable_rolled : forall lines s, reachable R s -> reachable R (rolled_state lines s).
  Proof. intros lines s H. apply (af_roll R (empty_state R) s lines _ _ _ H (first_run_parts lines s _ _ eq_refl eq_refl)). Qed.

  Definition max_state (lines : list text) (s : state R) : state R := fst (max_call R lines s).
  Definition min_state (lines : list text) (s : state R) : state R := fst (min_call R lines s).
  Definition cost_state (lines : list text) (s : state R) : state R := fst (get_estimated_cost R lines s).

  Lemma cost_parts : forall lines s r, snd (get_estimated_cost R lines s) = r -> get_estimated_cost R lines s = (cost_state lines s, r).
  Proof. intros lines s r <-. unfold cost_state. now destruct (get_estimated_cost R lines s). Qed.

  (** The names that a program assigns and reads *)
  Definition assigns_list (lines : list text) : list text := flat_map (fun t => match parse t with Ok e => assigned e | Raise _ => [] end) lines.
  Definition reads_list (lines : list text) : list text := flat_map (fun t => match parse t with Ok e => reads e | Raise _ => [] end) lines.
  Lemma assigns_list_iff : forall lines n, assigns lines n <-> In n (assigns_list lines).
  Proof.
    intros lines n. unfold assigns_list. rewrite in_flat_map. split.
    - intros [t [e [I [P J]]]]. exists t. now rewrite P.
    - intros [t [I J]]. destruct (parse t) as [e|x] eqn:P; [|contradiction]. now exists t, e.
  Qed.
  Lemma reads_list_iff : forall lines n, mentions_name lines n <-> In n (reads_list lines).
  Proof.
    intros lines n. unfold reads_list. rewrite in_flat_map. split.
    - intros [t [e [I [P J]]]]. exists t. now rewrite P.
    - intros [t [I J]]. destruct (parse t) as [e|x] eqn:P; [|contradiction]. now exists t, e.
  Qed.
  Definition not_assigned (lines : list text) (n : text) : bool := negb (has n (assigns_list lines)).
  Lemma not_assigned_iff : forall lines n, not_assigned lines n = true -> ~ assigns lines n.
  Proof. intros lines n H A. apply assigns_list_iff, has_iff in A. unfold not_assigned in H. now rewrite A in H. Qed.
  Definition emptyb {A} (o : option A) : bool := match o with None => true | _ => false end.
  Lemma option_none : forall A (o : option A), emptyb o = true -> o = None.
  Proof. intros A [a|]; [discriminate|reflexivity]. Qed.
  Definition not_touched (lines : list text) (n : text) : bool := negb (has n (reads_list lines) || has n (assigns_list lines)).
  Lemma not_touched_iff : forall lines n, not_touched lines n = true -> ~ touches lines n.
  Proof. intros lines n H [A|A]; [apply reads_list_iff, has_iff in A|apply assigns_list_iff, has_iff in A]; unfold not_touched in H; rewrite A, ?Bool.orb_true_r in H; discriminate. Qed.
  Definition separateb (l1 l2 : list text) : bool := forallb (not_touched l2) (assigns_list l1) && forallb (not_touched l1) (assigns_list l2).
  Lemma separateb_iff : forall l1 l2, separateb l1 l2 = true -> separate l1 l2.
  Proof.
    intros l1 l2 H n. apply andb_prop in H. destruct H as [H1 H2]. rewrite forallb_forall in H1, H2. split; intros A; apply not_touched_iff; [apply H1|apply H2]; now apply assigns_list_iff.
  Qed.
End Checks.
