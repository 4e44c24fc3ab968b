(** * ObjectProofs: C62 and C63 *)
From Verif Require Import Py PyFacts Constraint ConstraintFacts Distribution DistFacts Objects Expr Interp SpecDice SpecProgram SpecInterp SpecAlgebra SpecObjects
  ExprFacts AlgebraFacts InterpRun ProgramProofs Instances Checks.

Section Proofs.
  Context (R : Runtime).
  Notation pyobj := (pyobj R).

  (** ** Operands *)
  Lemma dist_method_refuses : forall op d x, ~ is_distribution R x -> dist_method R op d x = Raise TypeError.
  Proof. intros op d [z|b|o|d'|] H; try reflexivity. destruct H. now exists d'. Qed.

  Lemma outcome_method_refuses : forall op o x, ~ is_outcome R x -> outcome_method R op o x = Raise TypeError.
  Proof. intros op o [z|b|o'|d|] H; try reflexivity. destruct H. now exists o'. Qed.

  Lemma outcome_eq_refuses : forall o x, ~ is_outcome R x ->
    py_equal R (POutcome o) x = Raise TypeError /\ py_equal R x (POutcome o) = Raise TypeError.
  Proof. intros o [z|b|o'|d|] H; try (split; reflexivity). destruct H. now exists o'. Qed.

  Lemma dist_operator_refuses : forall op d x, infix op -> ~ is_distribution R x ->
    py_operator R op (PDist d) x = Raise TypeError /\ py_operator R op x (PDist d) = Raise TypeError.
  Proof.
    intros op d x _ H. split; [cbn [py_operator]; now rewrite dist_method_refuses|].
    destruct x as [z|b|o|d'|]; try (destruct op; reflexivity). destruct H. now exists d'.
  Qed.

  Lemma outcome_operator_refuses : forall op o x, infix op -> ~ is_outcome R x ->
    py_operator R op (POutcome o) x = Raise TypeError /\ py_operator R op x (POutcome o) = Raise TypeError.
  Proof.
    intros op o x _ H. split; [cbn [py_operator]; now rewrite outcome_method_refuses|].
    destruct x as [z|b|o'|d|]; try (destruct op; reflexivity). destruct H. now exists o'.
  Qed.

  Lemma dist_operator_accepts : forall op a b, obtainable R a -> obtainable R b ->
    match dist_method R op a (PDist b) with
    | Ok d => obtainable R d /\ ~ (op = VDiv /\ (exists v, listed R a v) /\ listed R b 0)
    | Raise x => x = ZeroDivisionError /\ op = VDiv /\ (exists v, listed R a v) /\ listed R b 0
    end.
  Proof.
    intros op a b Oa Ob. pose proof (obtainable_dinv R a Oa) as Da. pose proof (obtainable_dinv R b Ob) as Db. cbn [dist_method].
    destruct (d_binop_cases R op a b Da) as [[d E]|[E [Eo [Na H0]]]]; rewrite E.
    - split; [exact (ob_binary R op a b d Oa Ob E)|].
      intros [-> [[v Hv] H0]]. apply result_map_keys in Hv. apply result_map_keys in H0. destruct Hv as [oa [Ha _]]. destruct H0 as [ob [Hb V]].
      destruct (d_binop_inv R VDiv a b d E) as [X _]. destruct (X oa ob Ha Hb) as [o Eo]. unfold o_combine in Eo. cbn in Eo. rewrite V in Eo. discriminate.
    - split; [reflexivity|]. split; [exact Eo|]. split; [|exact H0]. destruct (d_map a) as [|[o c] m] eqn:Em; [congruence|].
      exists (o_value o). apply result_map_keys. exists o. rewrite Em. cbn. auto.
  Qed.

  Lemma new_outcome_refuses : forall x cs, ~ is_int R x <-> new_outcome R x cs = Raise TypeError.
  Proof.
    intros x cs. unfold new_outcome. split.
    - intros H. destruct x as [z|b|o|d|]; try reflexivity; exfalso; apply H; [left | right]; eauto.
    - intros H [[z ->]|[b ->]]; discriminate.
  Qed.

  (** ** Dictionaries *)

  (** The entries that reach the distribution, [s] being the empty constraint set *)
  Definition kept_entries (s : cset (rt_c R)) (m : list (pyobj * Z)) : list (outcome R * Z) :=
    flat_map (fun kc => match fst kc with
                        | POutcome o => [(o, snd kc)]
                        | k => match key_value R k with Some z => [({| o_value := z; o_cs := s |}, snd kc)] | None => [] end
                        end) m.

  Lemma known_kept : exists s, create_constraint_set R = Ok s /\ forall m, known_entries R m = Ok (kept_entries s m).
  Proof.
    destruct (create_ok R) as [s E]. exists s. split; [exact E|].
    induction m as [|[k c] m IH]; [reflexivity|]. cbn [known_entries kept_entries flat_map fst snd].
    destruct k as [z|b|o|d|]; cbn [as_int]; unfold create_empty; rewrite ?E; cbn [rmap rbind]; rewrite IH; try reflexivity.
    destruct b; reflexivity.
  Qed.

  Lemma new_dist_kept : exists s, create_constraint_set R = Ok s /\ forall m, new_dist R (Some m) = Ok (mk_dist R (kept_entries s m)).
  Proof. destruct known_kept as [s [E H]]. exists s. split; [exact E|]. intros m. cbn [new_dist]. now rewrite H. Qed.

  Lemma match_value : forall a b : outcome R, o_match R a b = true -> o_value a = o_value b.
  Proof. intros a b. unfold o_match, o_eqb. rewrite !andb_true_iff. intros [_ [H _]]. now apply Z.eqb_eq. Qed.

  Lemma kept_value : forall s kc v, wsum (fun o => o_value o =? v) (kept_entries s [kc]) = if stands_for R v (fst kc) then snd kc else 0.
  Proof.
    intros s [k c] v. unfold stands_for. destruct k as [z|[|]|o|d|]; cbn [kept_entries flat_map fst snd key_value app wsum o_value]; try reflexivity;
      match goal with |- (if ?b then _ else _) + 0 = _ => destruct b; lia end.
  Qed.

  Lemma kept_sum : forall s m v, wsum (fun o => o_value o =? v) (kept_entries s m) = entered R m v.
  Proof.
    intros s m v. unfold entered. induction m as [|kc m IH]; [reflexivity|].
    replace (kept_entries s (kc :: m)) with (kept_entries s [kc] ++ kept_entries s m) by (unfold kept_entries; cbn [flat_map]; now rewrite app_nil_r).
    rewrite wsum_app, kept_value, IH. cbn [filter]. destruct (stands_for R v (fst kc)); cbn [map zsum]; reflexivity.
  Qed.

  Lemma kept_listed : forall s m v, (exists o, In o (map fst (kept_entries s m)) /\ o_value o = v) <-> exists k c, In (k, c) m /\ key_value R k = Some v.
  Proof.
    intros s m v. split.
    - intros [o [H V]]. apply in_map_iff in H. destruct H as [[o' c] [E H]]. cbn in E. subst o'. unfold kept_entries in H. apply in_flat_map in H. destruct H as [[k c'] [I H]].
      exists k, c'. split; [exact I|]. cbn [fst snd] in H. destruct k as [z|[|]|x|d|]; cbn in H |- *; try contradiction; destruct H as [H|[]]; injection H as <- _; cbn in V; congruence.
    - intros [k [c [I E]]]. assert (X : exists o, In (o, c) (kept_entries s m) /\ o_value o = v).
      { destruct k as [z|[|]|o|d|]; cbn in E; try discriminate; injection E as E;
          [exists {| o_value := z; o_cs := s |} | exists {| o_value := 1; o_cs := s |} | exists {| o_value := 0; o_cs := s |} | exists o];
          (split; [|exact E]); unfold kept_entries; apply in_flat_map; eexists; (split; [exact I|]); cbn; auto. }
      destruct X as [o [H V]]. exists o. split; [|exact V]. apply (in_map fst) in H. exact H.
  Qed.

  Lemma made_counts : forall m, exists d, new_dist R (Some m) = Ok d /\ forall v,
    reported R d v = entered R m v /\ (listed R d v <-> exists k c, In (k, c) m /\ key_value R k = Some v).
  Proof.
    intros m. destruct new_dist_kept as [s [Es H]]. exists (mk_dist R (kept_entries s m)). split; [apply H|]. intros v. split.
    - change (reported R) with (fun d => zget (get_result_map R d)). cbn beta. rewrite result_map_get, <- (kept_sum s). cbn [mk_dist d_map].
      rewrite (wsum_safe_add_all (o_match R)); [reflexivity|]. intros a b _ _ E. now rewrite (match_value a b E).
    - unfold listed. rewrite result_map_keys, <- (kept_listed s). cbn [mk_dist d_map]. split; intros [o [I V]].
      + exists o. split; [|exact V]. apply safe_add_all_keys_in in I. destruct I as [[]|I]. exact I.
      + destruct (safe_add_all_keys_new (o_match R) _ [] o I) as [x [Ix [->|E]]]; [eauto|]. exists x. split; [exact Ix|]. now rewrite (match_value x o E).
  Qed.

  Lemma made_total : forall m d, (forall k c, In (k, c) m -> is_int R k \/ is_outcome R k) -> new_dist R (Some m) = Ok d ->
    total_ways R d = zsum (map snd m).
  Proof.
    intros m d K E. destruct new_dist_kept as [s [_ H]]. rewrite H in E. injection E as <-. unfold total_ways. rewrite result_map_total.
    cbn [mk_dist d_map]. rewrite <- wsum_true, (wsum_safe_add_all (o_match R)) by reflexivity.
    induction m as [|[k c] m IH]; [reflexivity|]. specialize (IH (fun k' c' I => K k' c' (or_intror I))). cbn [map zsum snd].
    replace (kept_entries s ((k, c) :: m)) with (kept_entries s [(k, c)] ++ kept_entries s m) by (unfold kept_entries; cbn [flat_map]; now rewrite app_nil_r).
    rewrite wsum_app. assert (X : wsum (fun _ => true) (kept_entries s [(k, c)]) = c).
    { destruct (K k c (or_introl eq_refl)) as [[[z ->]|[[|] ->]]|[o ->]]; cbn; lia. }
    rewrite X. cbn [wsum] in IH |- *. change (zsum (c :: map snd m)) with (c + zsum (map snd m)). lia.
  Qed.

  Lemma made_copy : forall d, obtainable R d -> new_dist R (Some (outcome_keys R d)) = Ok d.
  Proof.
    intros d O. apply obtainable_dinv in O. destruct new_dist_kept as [s [_ H]]. rewrite H. f_equal.
    assert (K : kept_entries s (outcome_keys R d) = d_map d).
    { unfold kept_entries, outcome_keys. induction (d_map d) as [|[o c] m IH]; [reflexivity|]. cbn [map flat_map fst snd app]. now rewrite IH. }
    rewrite K. destruct O as [_ _ U _ C]. unfold mk_dist. rewrite (safe_add_all_id (o_match R) (d_map d) []) by exact U. destruct d as [m c]. cbn in *. now rewrite C.
  Qed.

  Lemma made_independent : forall d, obtainable R d -> exists d', new_dist R (Some (int_keys R d)) = Ok d' /\ obtainable R d' /\
    get_result_map R d' = get_result_map R d /\ forall x, no_shared_variable R d' x /\ no_shared_variable R x d'.
  Proof.
    intros d O. apply obtainable_dinv in O. destruct new_dist_kept as [s [Es H]].
    exists (mk_dist R (kept_entries s (int_keys R d))). split; [apply H|].
    assert (K : kept_entries s (int_keys R d) = lifted R s (get_result_map R d)).
    { unfold kept_entries, int_keys, lifted. induction (get_result_map R d) as [|[v c] m IH]; [reflexivity|].
      exact (f_equal (cons ({| o_value := v; o_cs := s |}, c)) IH). }
    rewrite K. assert (N : natural_counts (get_result_map R d)) by (intros v c I; exact (result_map_nonneg R d (di_nonneg R d O) (v, c) I)).
    destruct (mk_dist_ints_ok R (get_result_map R d)) as [s' [Es' E]]. rewrite Es in Es'. injection Es' as <-.
    assert (U : unmatched (o_match R) (lifted R s (get_result_map R d))).
    { assert (Nd := result_map_nodup R d). clear - Nd. revert Nd. unfold lifted. induction (get_result_map R d) as [|[v c] m IH]; intros Nd; [constructor|].
      cbn [map fst] in Nd. inversion Nd as [|? ? Nv Nm]; subst. cbn [map fst snd]. constructor; [|now apply IH].
      intros x Hx. destruct (o_match R {| o_value := v; o_cs := s |} x) eqn:Ex; [|reflexivity]. apply match_value in Ex. cbn in Ex. destruct Nv.
      rewrite map_map in Hx. cbn in Hx. apply in_map_iff in Hx. destruct Hx as [[v' c'] [<- I]]. cbn in Ex. subst v'. apply (in_map fst) in I. exact I. }
    split; [exact (ob_made R _ _ N E)|]. split.
    - unfold mk_dist. rewrite (safe_add_all_id (o_match R) _ [] U). unfold get_result_map at 1. cbn [d_map app]. unfold lifted. rewrite map_map. cbn [fst snd o_value].
      rewrite (map_ext _ (fun vc => vc)) by (intros [v c]; reflexivity). rewrite map_id. apply (safe_add_all_id Z.eqb _ []). cbn [app].
      assert (Nd := result_map_nodup R d). clear - Nd. induction (get_result_map R d) as [|[v c] m IH]; [constructor|]. cbn in Nd. inversion Nd as [|? ? Nv Nm]; subst.
      constructor; [|now apply IH]. intros x Hx. apply Z.eqb_neq. intros ->. contradiction.
    - assert (M : forall n, ~ mentions R (mk_dist R (lifted R s (get_result_map R d))) n).
      { intros n [o [c [vs [I V]]]]. apply (in_map fst) in I. cbn [fst] in I. rewrite (mk_dist_keys R _ o (lifted_coherent R s _) (lifted_ok R s _ Es)) in I.
        apply lifted_keys in I. destruct I as [Eo _]. apply (create_names R s n Es). rewrite <- Eo. unfold names. apply in_flat_map. exists (CVar n vs). split; [exact V|]. cbn. auto. }
      intros x. split; intros n Hn; [destruct (M n Hn)|]. intros Hd. exact (M n Hd).
  Qed.

  Lemma made_from_nothing : exists d, new_dist R None = Ok d /\ get_result_map R d = [].
  Proof. eexists. split; reflexivity. Qed.
End Proofs.

(** ** Examples *)
Lemma other_keys_lost : exists m d, new_dist rt_fwd (Some m) = Ok d /\ total_ways rt_fwd d <> zsum (map snd m).
Proof. exists [(PElse, 3)]. eexists. split; [reflexivity|]. cbn. discriminate. Qed.

Definition ok_of {A} (r : res A) : option A := match r with Ok x => Some x | Raise _ => None end.
Lemma ok_of_iff : forall A (r : res A) x, ok_of r = Some x -> r = Ok x.
Proof. intros A [a|e] x H; [|discriminate]. cbn in H. congruence. Qed.
Lemma ok_of_seen : forall R r m, match ok_of r with Some d => get_result_map R d | None => [] end = m -> m <> [] -> exists d, r = Ok d /\ get_result_map R d = m.
Proof. intros R [d|e] m H N; cbn in H; [|congruence]. exists d. auto. Qed.

Lemma operands_example : ~ is_distribution rt_fwd (PInt 3) /\ infix VAdd /\
  exists a b d, mk_dist_ints rt_fwd [(0, 1); (2, 3)] = Ok a /\ mk_dist_ints rt_fwd [(1, 1)] = Ok b /\ obtainable rt_fwd a /\ obtainable rt_fwd b /\
    py_operator rt_fwd VAdd (PDist a) (PDist b) = Ok (PDist d) /\ get_result_map rt_fwd d = [(1, 1); (3, 3)] /\
    dist_method rt_fwd VDiv b (PDist a) = Raise ZeroDivisionError.
Proof.
  split; [intros [d H]; discriminate|]. split; [now left|].
  destruct (combined_seen rt_fwd VAdd (ok_of (mk_dist_ints rt_fwd [(0, 1); (2, 3)])) (ok_of (mk_dist_ints rt_fwd [(1, 1)])) _ _ _ _ _ ltac:(vm_compute; reflexivity))
    as [a [b [d [Ha [Hb [E [_ [_ [Ma [Mb Md]]]]]]]]]].
  apply ok_of_iff in Ha. apply ok_of_iff in Hb. exists a, b, d. split; [exact Ha|]. split; [exact Hb|].
  assert (Oa : obtainable rt_fwd a) by (eapply ob_made; [|exact Ha]; intros v c [I|[I|[]]]; injection I as <- <-; lia).
  assert (Ob : obtainable rt_fwd b) by (eapply ob_made; [|exact Hb]; intros v c [I|[]]; injection I as <- <-; lia).
  split; [exact Oa|]. split; [exact Ob|]. split; [cbn; now rewrite E|]. split; [exact Md|].
  pose proof (dist_operator_accepts rt_fwd VDiv b a Ob Oa) as X. destruct (dist_method rt_fwd VDiv b (PDist a)) as [x|x]; [|now destruct X as [-> _]].
  destruct X as [_ X]. destruct X. split; [reflexivity|]. unfold listed. rewrite Ma, Mb. cbn. split; [exists 1|]; auto.
Qed.

Lemma dictionary_example : exists o m d, create_empty rt_fwd 2 = Ok o /\ m = [(PInt 2, 5); (POutcome o, 7); (PBool true, 1); (PElse, 9)] /\
  new_dist rt_fwd (Some m) = Ok d /\ get_result_map rt_fwd d = [(2, 12); (1, 1)].
Proof.
  destruct (create_ok rt_fwd) as [s E]. exists {| o_value := 2; o_cs := s |}. eexists.
  assert (C : create_empty rt_fwd 2 = Ok {| o_value := 2; o_cs := s |}) by (unfold create_empty; now rewrite E).
  destruct (ok_of_seen rt_fwd (rbind (create_empty rt_fwd 2) (fun o => new_dist rt_fwd (Some [(PInt 2, 5); (POutcome o, 7); (PBool true, 1); (PElse, 9)]))) [(2, 12); (1, 1)])
    as [d [H1 H2]]; [vm_compute; reflexivity | discriminate|].
  exists d. split; [exact C|]. split; [reflexivity|]. rewrite C in H1. auto.
Qed.

Lemma copy_example : exists d, reports rt_fwd (empty_state rt_fwd) [$"VAR a = d2"; $"a + 1"] d /\ obtainable rt_fwd d /\ get_result_map rt_fwd d = [(2, 1); (3, 1)].
Proof.
  destruct (shown_reports rt_fwd (empty_state rt_fwd) [$"VAR a = d2"; $"a + 1"] [(2, 1); (3, 1)]) as [d [H M]]; [vm_compute; reflexivity|].
  exists d. split; [exact H|]. split; [|exact M]. apply (reports_obtainable _ _ _ _ (af_now rt_fwd _) H).
Qed.
