(** * ExtFacts: max() and min() against the possible results *)
From Verif Require Import Py PyFacts PyFloat Constraint ConstraintFacts Distribution DistFacts SpecDice DiceFacts DiceModel
  DropKeepFacts NotationFacts DiceProofs Expr Lexer Parser Interp TagFacts SpecProgram ExprFacts StateFacts ProgramFacts JointFacts RaiseFacts
  SpecInterp InterpRun SpecAlgebra AlgebraFacts RollFacts.

Lemma within_trans : forall mx x y z, within mx x y -> within mx y z -> within mx x z.
Proof. intros [|] x y z; unfold within; lia. Qed.

(** ** Dice *)
Lemma total_within : forall mx l v, (forall x, In x l -> within mx x v) -> within mx (total l) (Z.of_nat (length l) * v).
Proof.
  intros mx. induction l as [|x l IH]; intros v H; [destruct mx; cbn; lia|].
  assert (H1 := H x (or_introl eq_refl)). assert (H2 := IH v (fun y Hy => H y (or_intror Hy))).
  cbn [total fold_right length]. fold (total l). rewrite Nat2Z.inj_succ. destruct mx; unfold within in *; lia.
Qed.
Lemma total_same : forall l v, (forall x, In x l -> x = v) -> total l = Z.of_nat (length l) * v.
Proof.
  induction l as [|x l IH]; intros v H; [reflexivity|]. cbn [total fold_right length]. fold (total l). rewrite (IH v), (H x (or_introl eq_refl)) by (intros; apply H; now right). lia.
Qed.

Definition pyext (mx : bool) (l : list Z) : res Z := if mx then pymax l else pymin l.
Lemma pyext_ok : forall mx l v, pyext mx l = Ok v <-> In v l /\ (forall y, In y l -> within mx y v).
Proof. intros [|] l v; [apply pymax_ok | apply pymin_ok]. Qed.
Lemma pyext_some : forall mx l, l <> [] -> exists v, pyext mx l = Ok v.
Proof. intros [|] l H; [now apply pymax_some | now apply pymin_some]. Qed.

Lemma repeat_tuple : forall (v : Z) n fs, In v fs -> In (repeat v n) (tuples n fs).
Proof.
  intros v n fs H. apply in_tuples. split; [apply repeat_length|]. intros x Hx. apply repeat_spec in Hx. now subst.
Qed.

Lemma dice_ext_spec : forall mx (m : list (Z * Z)) n, map fst m <> [] -> 0 <= n -> exists v, rmap (fun x => x * n) (pyext mx (map fst m)) = Ok v /\
  (forall t, In t (tuples (Z.to_nat n) (map fst m)) -> within mx (total t) v) /\
  (exists t, In t (tuples (Z.to_nat n) (map fst m)) /\ total t = v).
Proof.
  intros mx m n Hm Hn. destruct (pyext_some mx _ Hm) as [v E]. rewrite E. exists (v * n). split; auto. apply pyext_ok in E. destruct E as [E1 E2]. split.
  - intros t Ht. apply in_tuples in Ht. destruct Ht as [L H]. replace (v * n) with (Z.of_nat (length t) * v) by (rewrite L, Z2Nat.id by lia; lia).
    apply total_within. auto.
  - exists (repeat v (Z.to_nat n)). split; [now apply repeat_tuple|]. rewrite (total_same _ v), repeat_length by (intros x Hx; now apply repeat_spec in Hx).
    rewrite Z2Nat.id by lia. lia.
Qed.

Lemma sort_desc_in : forall t x, In x (sort_desc t) -> In x t.
Proof. intros t x H. eapply Permutation.Permutation_in; [apply sort_desc_perm | auto]. Qed.
Lemma firstn_in : forall A n (l : list A) x, In x (firstn n l) -> In x l.
Proof. intros A n l x H. rewrite <- (firstn_skipn n l). apply in_or_app. auto. Qed.
Lemma skipn_in : forall A n (l : list A) x, In x (skipn n l) -> In x l.
Proof. intros A n l x H. rewrite <- (firstn_skipn n l). apply in_or_app. auto. Qed.

(** the score of a keep or drop pool is the total of some of its dice *)
Lemma dk_score_part : forall dk t, dk_full dk -> length t = Z.to_nat (dk_num dk) ->
  exists l, dk_score dk t = total l /\ Z.of_nat (length l) = dk_selected dk /\ forall x, In x l -> In x t.
Proof.
  intros dk t F L. unfold dk_full in F. assert (LS : length (sort_desc t) = length t) by (apply Permutation.Permutation_length; apply sort_desc_perm).
  unfold dk_score, dk_selected, keep_highest, drop_highest. destruct (dk_keep dk).
  - exists (firstn (Z.to_nat (dk_k dk)) (sort_desc t)). split; auto. split; [rewrite firstn_length; lia|]. intros x Hx. apply sort_desc_in. eapply firstn_in; eauto.
  - exists (skipn (Z.to_nat (dk_k dk)) (sort_desc t)). split; auto. split; [rewrite skipn_length; lia|]. intros x Hx. apply sort_desc_in. eapply skipn_in; eauto.
Qed.

Lemma dk_ext_spec : forall mx dk, map fst (dk_map dk) <> [] -> dk_full dk -> exists v, dk_ext_full mx dk = Ok v /\
  (forall t, In t (tuples (Z.to_nat (dk_num dk)) (map fst (dk_map dk))) -> within mx (dk_score dk t) v) /\
  (exists t, In t (tuples (Z.to_nat (dk_num dk)) (map fst (dk_map dk))) /\ dk_score dk t = v).
Proof.
  intros mx dk Hm F. destruct (pyext_some mx _ Hm) as [v E]. exists (dk_selected dk * v). split.
  - unfold dk_ext_full, dk_max_full, dk_min_full. unfold pyext in E. destruct mx; rewrite E; reflexivity.
  - apply pyext_ok in E. destruct E as [E1 E2]. split.
    + intros t Ht. apply in_tuples in Ht. destruct Ht as [L H]. destruct (dk_score_part dk t F L) as [l [-> [<- Hl]]]. apply total_within. auto.
    + exists (repeat v (Z.to_nat (dk_num dk))). split; [now apply repeat_tuple|].
      destruct (dk_score_part dk (repeat v (Z.to_nat (dk_num dk))) F (repeat_length _ _)) as [l [-> [<- Hl]]]. apply total_same.
      intros x Hx. apply Hl in Hx. now apply repeat_spec in Hx.
Qed.

Section Facts.
  Context (R : Runtime).
  Notation dist := (dist R).
  Notation state := (state R).

  (** ** The values that the variables of a context can have together *)
  Definition possible (c : context) (env : text -> option Z) : Prop := exists h, full c h /\ forall n, env n = env_of c h n.

  Lemma possible_ext : forall c env env', possible c env -> (forall n, env' n = env n) -> possible c env'.
  Proof. intros c env env' [h [F E]] H. exists h. split; auto. intros n. rewrite H. auto. Qed.

  Lemma possible_some : forall c, extendable c -> exists env, possible c env.
  Proof. intros c X. destruct (X (fun _ => false) (fun _ => 0)) as [h [F _]]; [discriminate|]. exists (env_of c h), h. auto. Qed.

  Lemma listed_possible : forall s c e d x, extendable c -> (forall n, In n (reads e) -> c_inst c n <> None) -> describes R s c e d ->
    (listed R d x <-> exists env, possible c env /\ In (Some x) (joint (map fst) env e)).
  Proof.
    intros s c e d x X Hr D. rewrite listed_values. split.
    - intros [o [Ho Hv]]. destruct (di_keys R d (proj1 (ds_wf _ _ _ _ _ D)) o Ho) as [_ [_ [_ [h0 Hh0]]]].
      assert (L0 : lst R h0 d x) by (exists o; auto). apply (ds_lst _ _ _ _ _ D) in L0. destruct L0 as [L1 L2].
      destruct (X (memb (reads e)) h0) as [h [F A]]; [intros n Hn; apply memb_iff in Hn; split; auto|].
      exists (env_of c h). split; [exists h; auto|]. rewrite (joint_agree (map fst) e _ (env_of c h0)); auto. intros n Hn. apply A. now apply memb_iff.
    - intros [env [[h [F E]] H]]. rewrite (joint_agree (map fst) e _ (env_of c h)) in H by auto.
      assert (L : lst R h d x) by (apply (ds_lst _ _ _ _ _ D); split; auto). destruct L as [o [Ho [_ V]]]. eauto.
  Qed.

  Lemma none_possible : forall s c e d env, known R s c -> simple e -> (forall n, In n (reads e) -> c_inst c n <> None) ->
    dist_of R e s = (s, Ok d) -> possible c env -> ~ In None (joint (map fst) env e).
  Proof.
    intros s c e d env K S Hr Ed [h [F E]]. rewrite (joint_agree (map fst) e _ (env_of c h)) by auto.
    apply (no_none R s c K e d h S Hr); auto.
  Qed.

  Lemma raise_possible : forall s c e x, known R s c -> extendable c -> simple e -> (forall n, In n (reads e) -> c_inst c n <> None) ->
    sides_ok (map fst) e -> dist_of R e s = (s, Raise x) -> exists env, possible c env /\ In None (joint (map fst) env e).
  Proof.
    intros s c e x K X S Hr Hs E. destruct (raise_none R s c K X e x S Hr Hs E) as [h [F N]]. exists (env_of c h). split; auto. exists h. auto.
  Qed.

  (** ** The next line *)
  Lemma next_forward : forall s c n e d env x, cwf R s c -> describes R s c e d -> (forall m, In m (reads e) -> c_inst c m <> None) ->
    possible c env -> In (Some x) (joint (map fst) env e) -> possible (next_context R s c n e d) (bind_value env n x).
  Proof.
    intros s c [n|] e d env x W D Hr [h [F E]] H; [|exists h; auto]. cbn [next_context]. set (inst := next_instance R s n).
    assert (A : agree_on (issued R s) h (upd h inst x)) by apply upd_agree. exists (upd h inst x). split.
    - intros k Hk. destruct (text_eq_dec k n) as [->|Hne].
      + apply (ext_lt R s c n e d D). fold inst. rewrite upd_same. split.
        * intros k Hk'. apply (lt_agree R s c W h _ k A). auto.
        * rewrite <- (joint_agree_h R s c W (map fst) h _ e A). rewrite <- (joint_agree (map fst) e env) by auto. exact H.
      + rewrite ext_lt_other by auto. apply (lt_agree R s c W h _ k A). apply F. cbn [extend c_inst] in Hk. apply text_eqb_neq in Hne. now rewrite Hne in Hk.
    - intros k. rewrite (ext_env R s c n e d W h (upd h inst x) k A). fold inst. rewrite upd_same. unfold bind_value. destruct (text_eqb k n); auto.
  Qed.

  Lemma next_back : forall s c n e d env2, extendable c -> describes R s c e d -> (forall m, In m (reads e) -> c_inst c m <> None) ->
    known R s c -> simple e -> sides_ok (map fst) e -> dist_of R e s = (s, Ok d) ->
    possible (next_context R s c n e d) env2 ->
    exists env x, possible c env /\ In (Some x) (joint (map fst) env e) /\ forall k, env2 k = bind_value env n x k.
  Proof.
    intros s c [n|] e d env2 X D Hr K S Hs Ed [h2 [F2 E2]]; cbn [next_context] in *.
    - set (c2 := extend R s c n e d) in *. set (inst := next_instance R s n) in *.
      assert (Fn : c_lt c2 n h2) by (apply F2; unfold c2; cbn [extend c_inst]; rewrite text_eqb_refl; discriminate).
      apply (ext_lt R s c n e d D) in Fn. destruct Fn as [F3 F4]. fold inst in F4.
      destruct (X (fun k => (match c_inst c k with Some _ => true | None => false end && negb (text_eqb k n)) || memb (reads e) k) h2) as [h [F A]].
      { intros k Hk. apply orb_true_iff in Hk. destruct Hk as [Hk|Hk]; [|apply memb_iff in Hk; auto].
        apply andb_true_iff in Hk. destruct Hk as [Hk Hne]. apply negb_true_iff in Hne. assert (Hc : c_inst c k <> None) by (destruct (c_inst c k); [discriminate | discriminate]).
        split; auto. assert (H2 : c_lt c2 k h2) by (apply F2; unfold c2; cbn [extend c_inst]; rewrite Hne; auto).
        unfold c2 in H2. rewrite ext_lt_other in H2; auto. now apply text_eqb_neq. }
      exists (env_of c h), (h2 inst). split; [exists h; auto|]. split.
      + rewrite (joint_agree (map fst) e _ (env_of c h2)); auto. intros k Hk. apply A. apply orb_true_iff. right. now apply memb_iff.
      + intros k. rewrite E2. unfold bind_value. destruct (text_eqb k n) eqn:Ek.
        * unfold env_of, c2. cbn [extend c_inst]. rewrite Ek. reflexivity.
        * unfold c2. rewrite ext_env_other by (now apply text_eqb_neq). destruct (c_inst c k) as [ik|] eqn:Ec.
          -- symmetry. apply A. rewrite Ec, Ek. reflexivity.
          -- unfold env_of. now rewrite Ec.
    - assert (P : possible c env2) by (exists h2; auto). assert (N := none_possible s c e d env2 K S Hr Ed P).
      assert (J := joint_nonempty (map fst) env2 e Hs). destruct (joint (map fst) env2 e) as [|[x|] r] eqn:Ej; [congruence | |exfalso; apply N; left; auto].
      exists env2, x. split; auto. split; [rewrite Ej; now left | reflexivity].
  Qed.

  (** ** max and min of an expression.  The stored extreme of a variable bounds its possible values, and is one of
      them when [ok] holds *)
  Definition bounded (mx : bool) (ok : text -> Prop) (s : state) (c : context) : Prop := forall n, c_inst c n <> None ->
    exists v, get_constant R n s = Ok v /\ (forall env x, possible c env -> env n = Some x -> within mx x v) /\
      (ok n -> exists env, possible c env /\ env n = Some v).

  Definition bounds (mx : bool) (c : context) (e : expr) (v : Z) : Prop :=
    forall env, possible c env -> ~ In None (joint (map fst) env e) /\ forall x, In (Some x) (joint (map fst) env e) -> within mx x v.
  Definition attains (c : context) (e : expr) (v : Z) : Prop := exists env, possible c env /\ In (Some v) (joint (map fst) env e).

  Lemma in_both : forall f a b x y v, In (Some x) a -> In (Some y) b -> f x y = Some v -> In (Some v) (both f a b).
  Proof. intros f a b x y v Ha Hb E. unfold both. apply in_flat_map. exists (Some x). split; auto. apply in_map_iff. exists (Some y). auto. Qed.
  Lemma both_in : forall f a b v, In (Some v) (both f a b) -> exists x y, In (Some x) a /\ In (Some y) b /\ f x y = Some v.
  Proof.
    intros f a b v H. unfold both in H. apply in_flat_map in H. destruct H as [[x|] [Hx H]]; apply in_map_iff in H; destruct H as [[y|] [E Hy]]; try discriminate.
    exists x, y. auto.
  Qed.

  (** Variables without a common origin are tagged with different instance names *)
  Definition separated (org : text -> list nat) (c : context) : Prop := forall n n' m V V', c_inst c n <> None -> c_inst c n' <> None ->
    (forall k, In k (org n) -> ~ In k (org n')) -> c_sup c n m V -> c_sup c n' m V' -> False.

  Lemma fresh_value : forall l : list Z, exists z, ~ In z l.
  Proof.
    intros l. assert (H : exists z, forall x, In x l -> x < z).
    { induction l as [|x l [z IH]]; [exists 0; intros x []|]. exists (Z.max z (x + 1)). intros y [<-|Hy]; [lia|]. specialize (IH y Hy). lia. }
    destruct H as [z H]. exists z. intros C. specialize (H z C). lia.
  Qed.

  Lemma mentions_pinned : forall P d m, dinv R d -> pinned R P d -> mentions R d m -> ~ ~ exists V, P m V.
  Proof.
    intros P d m D PI M N. apply mentions_dnames in M. destruct M as [o [Ho Hm]]. destruct (di_keys R d D o Ho) as [_ [_ [_ [h0 H0]]]].
    destruct (PI o h0 Ho H0) as [_ H2]. apply in_names in Hm. destruct Hm as [[| |m' vs] [Hc Hn]]; [destruct Hn as [] | destruct Hn as [] |].
    assert (A : forall z, osat R (upd h0 m z) o).
    { intros z. apply H2. intros m2 V HP. unfold upd. destruct (text_eqb m2 m) eqn:E; auto. apply text_eqb_eq in E. subst m2. exfalso. eauto. }
    destruct (fresh_value (z_iter (rt_z R) vs)) as [z Hz]. apply Hz. assert (Az := A z _ Hc). cbn [sat_c] in Az. destruct Hn as [<-|[]]. now rewrite upd_same in Az.
  Qed.

  Lemma merge : forall s c org a b da db va vb, extendable c -> separated org c ->
    (forall n, In n (reads a) -> c_inst c n <> None) -> (forall n, In n (reads b) -> c_inst c n <> None) ->
    describes R s c a da -> describes R s c b db -> unrelated org a b -> attains c a va -> attains c b vb ->
    exists env, possible c env /\ In (Some va) (joint (map fst) env a) /\ In (Some vb) (joint (map fst) env b).
  Proof.
    intros s c org a b da db va vb X SP Hra Hrb Da Db U [envA [[hA [FA EA]] HA]] [envB [[hB [FB EB]] HB]].
    rewrite (joint_agree (map fst) a _ (env_of c hA)) in HA by auto. rewrite (joint_agree (map fst) b _ (env_of c hB)) in HB by auto.
    destruct (proj2 (ds_lst _ _ _ _ _ Da hA va)) as [oA [OA [SA VA]]]; [split; auto|].
    destruct (proj2 (ds_lst _ _ _ _ _ Db hB vb)) as [oB [OB [SB VB]]]; [split; auto|].
    assert (NS : no_shared_variable R da db).
    { intros m Ma Mb. apply (mentions_pinned _ _ _ (proj1 (ds_wf _ _ _ _ _ Da)) (ds_pinned _ _ _ _ _ Da) Ma). intros [V [n [Hn HV]]].
      apply (mentions_pinned _ _ _ (proj1 (ds_wf _ _ _ _ _ Db)) (ds_pinned _ _ _ _ _ Db) Mb). intros [V' [n' [Hn' HV']]].
      apply (SP n n' m V V'); auto. intros k Hk. now apply (U n n' k). }
    assert (C := no_shared_compat R da db oA oB (proj1 (ds_wf _ _ _ _ _ Da)) (proj1 (ds_wf _ _ _ _ _ Db)) NS OA OB).
    apply compatb_iff in C; [|apply (di_keys R da); [apply Da | auto] | apply (di_keys R db); [apply Db | auto]]. destruct C as [h [CA CB]].
    destruct (proj1 (ds_lst _ _ _ _ _ Da h va)) as [LA JA]; [exists oA; auto|].
    destruct (proj1 (ds_lst _ _ _ _ _ Db h vb)) as [LB JB]; [exists oB; auto|].
    destruct (X (memb (reads a ++ reads b)) h) as [h' [F A]].
    { intros n Hn. apply memb_iff in Hn. apply in_app_or in Hn. destruct Hn; split; auto. }
    exists (env_of c h'). split; [exists h'; auto|]. split.
    - rewrite (joint_agree (map fst) a _ (env_of c h)); auto. intros n Hn. apply A. apply memb_iff. apply in_or_app; auto.
    - rewrite (joint_agree (map fst) b _ (env_of c h)); auto. intros n Hn. apply A. apply memb_iff. apply in_or_app; auto.
  Qed.

  Lemma ext_of_spec : forall mx org ok s c, known R s c -> extendable c -> separated org c -> bounded mx ok s c ->
    forall e, simple e -> (forall n, In n (reads e) -> c_inst c n <> None) -> sides_ok (map fst) e ->
    exists r, ext_of R mx e s = (s, r) /\
      match r with
      | Ok v => bounds mx c e v /\ (extreme_exact mx org ok e -> attains c e v)
      | Raise x => x = ZeroDivisionError /\ exists env, possible c env /\ In None (joint (map fst) env e)
      end.
  Proof.
    intros mx org ok s c K X SP B.
    assert (via : forall e, simple e -> (forall n, In n (reads e) -> c_inst c n <> None) -> sides_ok (map fst) e ->
      exists r, ext_via_dist R mx e s = (s, r) /\
      match r with
      | Ok v => bounds mx c e v /\ attains c e v
      | Raise x => x = ZeroDivisionError /\ exists env, possible c env /\ In None (joint (map fst) env e)
      end).
    { intros e S Hr Hs. destruct (simple_dist R s c K e S Hr) as [r [E D]]. unfold ext_via_dist, bind. rewrite E. destruct r as [d|x].
      - assert (N := joint_keyed R e s d c K S Hr Hs X E D). destruct (pyext_some mx (map fst (get_result_map R d))) as [v Ev].
        { destruct (d_map d) as [|[o k] l] eqn:M; [congruence|]. assert (L : listed R d (o_value o)) by (apply listed_values; exists o; rewrite M; split; [now left | auto]).
          unfold listed in L. intros C. rewrite C in L. destruct L. }
        exists (Ok v). split; [unfold lift, d_ext, d_max, d_min; unfold pyext in Ev; destruct mx; rewrite Ev; reflexivity|].
        apply pyext_ok in Ev. destruct Ev as [E1 E2]. split.
        + intros env P. split; [now apply (none_possible s c e d)|]. intros x Hx. apply E2. apply (listed_possible s c e d x X Hr D). eauto.
        + apply (listed_possible s c e d v X Hr D). exact E1.
      - exists (Raise x). split; auto. split; auto. now apply (raise_possible s c e x). }
    assert (via' : forall e, simple e -> (forall n, In n (reads e) -> c_inst c n <> None) -> sides_ok (map fst) e -> ext_of R mx e = ext_via_dist R mx e ->
      exists r, ext_of R mx e s = (s, r) /\
      match r with
      | Ok v => bounds mx c e v /\ (extreme_exact mx org ok e -> attains c e v)
      | Raise x => x = ZeroDivisionError /\ exists env, possible c env /\ In None (joint (map fst) env e)
      end).
    { intros e S Hr Hs E. rewrite E. destruct (via e S Hr Hs) as [r [E1 E2]]. exists r. split; auto. destruct r; auto. tauto. }
    destruct (possible_some c X) as [env0 P0].
    assert (const : forall (m : M R Z) e v, m s = (s, Ok v) -> (forall env, joint (map fst) env e = [Some v]) ->
      exists r, m s = (s, r) /\
      match r with
      | Ok v => bounds mx c e v /\ (extreme_exact mx org ok e -> attains c e v)
      | Raise x => x = ZeroDivisionError /\ exists env, possible c env /\ In None (joint (map fst) env e)
      end).
    { intros m e v E J. exists (Ok v). split; auto. split.
      - intros env P. rewrite J. split; [intros [H|[]]; discriminate|]. intros x [H|[]]. injection H as <-. destruct mx; cbn; lia.
      - intros _. exists env0. split; auto. rewrite J. now left. }
    induction e; intros S Hr Hs.
    - exact (IHe S Hr Hs).
    - now apply via'.
    - cbn [simple] in S. destruct S as [[form Hf] [Hn Hk]]. assert (Hm : map fst (dk_map d) <> []) by (apply Hs; now left).
      destruct (pool_cases form d Hf ltac:(lia) Hk) as [[E J]|[[dd [E [M [N J]]]]|[E [F J]]]]; cbn [ext_of]; rewrite E.
      + apply (const _ _ 0); [reflexivity|]. intros env. cbn [joint]. now rewrite J.
      + destruct (dice_ext_spec mx (dice_map dd) (dice_num dd)) as [v [E1 [E2 [t [E3 E4]]]]]; [now rewrite M | lia|]. rewrite M, N in *. exists (Ok v). split.
        { unfold lift, dice_ext, dice_max, dice_min. unfold pyext in E1. rewrite M, N. destruct mx; now rewrite E1. }
        split.
        * intros env P. cbn [joint]. rewrite J. split; [intros H; apply in_map_iff in H; destruct H as [? [H _]]; discriminate|].
          intros x H. apply in_map_iff in H. destruct H as [y [H1 H2]]. injection H1 as ->. apply in_map_iff in H2. destruct H2 as [t' [<- H2]]. auto.
        * intros _. exists env0. split; auto. cbn [joint]. rewrite J. apply in_map_iff. exists v. split; auto. apply in_map_iff. eauto.
      + destruct (dk_ext_spec mx d Hm F) as [v [E1 [E2 [t [E3 E4]]]]]. exists (Ok v). split; [unfold lift; now rewrite E1|]. split.
        * intros env P. cbn [joint]. rewrite J. split; [intros H; apply in_map_iff in H; destruct H as [? [H _]]; discriminate|].
          intros x H. apply in_map_iff in H. destruct H as [y [H1 H2]]. injection H1 as ->. apply in_map_iff in H2. destruct H2 as [t' [<- H2]]. auto.
        * intros _. exists env0. split; auto. cbn [joint]. rewrite J. apply in_map_iff. exists v. split; auto. apply in_map_iff. eauto.
    - cbn [simple] in S. destruct S as [[form Hf] Hn]. assert (Hm : map fst (dice_map d) <> []) by (apply Hs; now left).
      destruct (dice_ext_spec mx (dice_map d) (dice_num d)) as [v [E1 [E2 [t [E3 E4]]]]]; [auto | lia|]. cbn [ext_of]. exists (Ok v). split.
      { unfold lift, dice_ext, dice_max, dice_min. unfold pyext in E1. destruct mx; now rewrite E1. }
      split.
      + intros env P. cbn [joint]. split; [intros H; apply in_map_iff in H; destruct H as [? [H _]]; discriminate|].
        intros x H. apply in_map_iff in H. destruct H as [y [H1 H2]]. injection H1 as <-. auto.
      + intros _. exists env0. split; auto. cbn [joint]. apply in_map_iff. exists t. split; auto. now rewrite E4.
    - cbn [simple] in S. destruct S as [z Ez]. cbn [ext_of]. apply (const _ _ z); [unfold lift; now rewrite Ez|]. intros env. cbn [joint]. now rewrite Ez.
    - cbn [ext_of]. apply (const _ _ (truth (text_eqb binary_string $"True"))); [|reflexivity]. unfold ret. now rewrite bool_truth.
    - now apply via'.
    - now apply via'.
    - now apply via'.
    - assert (Hrb : forall n, In n (reads e2) -> c_inst c n <> None) by (intros; apply Hr; cbn [reads]; apply in_or_app; auto).
      assert (Sb : simple e2) by (cbn [simple] in S; tauto). cbn [ext_of]. unfold bind at 1.
      destruct (via (EDiv e1 e2) S Hr Hs) as [r [E1 E2]].
      destruct (simple_dist R s c K e2 Sb Hrb) as [rb [Eb Db]]. rewrite Eb. destruct rb as [db|x].
      + destruct (contains_zero R db) eqn:Z0.
        * exists (Raise ZeroDivisionError). split; auto. split; auto. unfold contains_zero in Z0.
          assert (L : listed R db 0) by (unfold listed; apply (dmem_in Z.eqb Z.eqb_eq); exact Z0).
          apply (listed_possible s c e2 db 0 X Hrb Db) in L. destruct L as [env [P L]]. exists env. split; auto. cbn [joint]. unfold both. apply in_flat_map.
          assert (J : joint (map fst) env e1 <> []) by (apply joint_nonempty; intros m Hm; apply Hs; cbn [dice_of]; apply in_or_app; auto).
          destruct (joint (map fst) env e1) as [|y la]; [congruence|]. exists y. split; [now left|]. apply in_map_iff. exists (Some 0). split; [destruct y; reflexivity | auto].
        * exists r. split; auto. destruct r; auto. tauto.
      + exists (Raise x). split; auto. split; auto.
        assert (Hsb : sides_ok (map fst) e2) by (intros m Hm; apply Hs; cbn [dice_of]; apply in_or_app; auto).
        destruct (raise_possible s c e2 x K X Sb Hrb Hsb Eb) as [env [P N]]. exists env. split; auto. cbn [joint]. unfold both. apply in_flat_map.
        assert (J : joint (map fst) env e1 <> []) by (apply joint_nonempty; intros m Hm; apply Hs; cbn [dice_of]; apply in_or_app; auto).
        destruct (joint (map fst) env e1) as [|y la]; [congruence|]. exists y. split; [now left|]. apply in_map_iff. exists None. split; [destruct y; reflexivity | auto].
    - now apply via'.
    - assert (Hra : forall n, In n (reads e1) -> c_inst c n <> None) by (intros; apply Hr; cbn [reads]; apply in_or_app; auto).
      assert (Hrb : forall n, In n (reads e2) -> c_inst c n <> None) by (intros; apply Hr; cbn [reads]; apply in_or_app; auto).
      assert (Hsa : sides_ok (map fst) e1) by (intros m Hm; apply Hs; cbn [dice_of]; apply in_or_app; auto).
      assert (Hsb : sides_ok (map fst) e2) by (intros m Hm; apply Hs; cbn [dice_of]; apply in_or_app; auto).
      cbn [simple] in S. destruct S as [So [Sa Sb]]. destruct (IHe1 Sa Hra Hsa) as [ra [Ea Ha]]. destruct (IHe2 Sb Hrb Hsb) as [rb [Eb Hb]].
      assert (F : exists f, minmax_operator min_max = Some f /\ minmax_meaning min_max = Some f /\
        (forall x y v w, within mx x v -> within mx y w -> within mx (f x y) (f v w)) /\
        (min_max = (if mx then $"MAX" else $"MIN") -> forall x y, (f x y = x /\ within mx y x) \/ (f x y = y /\ within mx x y)) /\
        (forall x y, f x y = (if text_eqb min_max $"MAX" then Z.max x y else Z.min x y))).
      { unfold minmax_meaning in *. unfold minmax_operator. destruct (text_eqb min_max $"MAX") eqn:EM; [|destruct (text_eqb min_max $"MIN") eqn:EN; [|congruence]].
        - exists Z.max. repeat split; auto; [destruct mx; unfold within; lia|]. intros -> x y. destruct mx; [|discriminate]. unfold within. lia.
        - exists Z.min. repeat split; auto; [destruct mx; unfold within; lia|]. intros -> x y. destruct mx; [discriminate|]. unfold within. lia. }
      destruct F as [f [F1 [F2 [F3 [F4 _]]]]]. cbn [ext_of joint]. rewrite F1. unfold bind at 1. rewrite Ea.
      assert (none_l : forall g la lb, In None la -> lb <> [] -> In None (both g la lb)).
      { intros g la [|y lb] H1 H2; [congruence|]. unfold both. apply in_flat_map. exists None. split; auto. left; auto. }
      assert (none_r : forall g la lb, In None lb -> la <> [] -> In None (both g la lb)).
      { intros g [|y la] lb H1 H2; [congruence|]. unfold both. apply in_flat_map. exists y. split; [left; auto|].
        apply in_map_iff. exists None. split; auto. destruct y; auto. }
      destruct ra as [va|xa].
      + unfold bind. rewrite Eb. destruct rb as [vb|xb].
        * exists (Ok (f va vb)). split; [reflexivity|]. destruct Ha as [Ba Aa]. destruct Hb as [Bb Ab]. split.
          -- intros env P. destruct (Ba env P) as [Na Wa]. destruct (Bb env P) as [Nb Wb]. cbn [joint]. rewrite F2. cbn [meaning]. split.
             ++ intros H. apply none_both in H. destruct H as [H|[H|[x [y [_ [_ H]]]]]]; auto. discriminate.
             ++ intros x H. apply both_in in H. destruct H as [u [w [Hu [Hw E]]]]. injection E as <-. auto.
          -- cbn [extreme_exact]. intros [Xa [Xb Hc]]. destruct (Aa Xa) as [envA [PA HA]]. destruct (Ab Xb) as [envB [PB HB]].
             unfold attains. cbn [joint]. rewrite F2. destruct Hc as [Hc|Hc].
             ++ destruct (F4 Hc va vb) as [[Ef W]|[Ef W]]; rewrite Ef.
                ** exists envA. split; auto. destruct (Bb envA PA) as [Nb Wb]. assert (J := joint_nonempty (map fst) envA e2 Hsb).
                   destruct (joint (map fst) envA e2) as [|[y|] lb] eqn:Ej; [congruence| |exfalso; apply Nb; now left].
                   apply (in_both _ _ _ va y); auto; [now left|]. cbn [meaning]. f_equal. assert (Wy := Wb y (or_introl eq_refl)).
                   assert (Wy' := within_trans _ _ _ _ Wy W). destruct (F4 Hc va y) as [[-> _]|[-> W2]]; auto. destruct mx; unfold within in *; lia.
                ** exists envB. split; auto. destruct (Ba envB PB) as [Na Wa]. assert (J := joint_nonempty (map fst) envB e1 Hsa).
                   destruct (joint (map fst) envB e1) as [|[y|] lb] eqn:Ej; [congruence| |exfalso; apply Na; now left].
                   apply (in_both _ _ _ y vb); auto; [now left|]. cbn [meaning]. f_equal. assert (Wy := Wa y (or_introl eq_refl)).
                   assert (Wy' := within_trans _ _ _ _ Wy W). destruct (F4 Hc y vb) as [[-> W2]|[-> _]]; auto. destruct mx; unfold within in *; lia.
             ++ assert (DA : exists d, dist_of R e1 s = (s, Ok d) /\ describes R s c e1 d).
                { destruct (simple_dist R s c K e1 Sa Hra) as [[d|x] [E D]]; eauto. exfalso. destruct (raise_possible s c e1 x K X Sa Hra Hsa E) as [env [P N]]. now apply (Ba env P). }
                assert (DB : exists d, dist_of R e2 s = (s, Ok d) /\ describes R s c e2 d).
                { destruct (simple_dist R s c K e2 Sb Hrb) as [[d|x] [E D]]; eauto. exfalso. destruct (raise_possible s c e2 x K X Sb Hrb Hsb E) as [env [P N]]. now apply (Bb env P). }
                destruct DA as [da [_ DA]]. destruct DB as [db [_ DB]].
                destruct (merge s c org e1 e2 da db va vb X SP Hra Hrb DA DB Hc) as [env [P [V1 V2]]]; [exists envA; auto | exists envB; auto|].
                exists env. split; auto. apply (in_both _ _ _ va vb); auto.
        * exists (Raise xb). split; auto. destruct Hb as [-> [env [P N]]]. split; auto. exists env. split; auto. apply none_r; auto. now apply joint_nonempty.
      + exists (Raise xa). split; auto. destruct Ha as [-> [env [P N]]]. split; auto. exists env. split; auto. apply none_l; auto. now apply joint_nonempty.
    - now apply via'.
    - destruct S.
    - cbn [ext_of]. destruct (B name (Hr name (or_introl eq_refl))) as [v [E1 [E2 E3]]]. exists (Ok v). split; [now rewrite E1|]. split.
      + intros env P. cbn [joint]. split.
        * intros [H|[]]. destruct P as [h [F E]]. rewrite E in H. unfold env_of in H. specialize (Hr name (or_introl eq_refl)). destruct (c_inst c name); [discriminate | congruence].
        * intros x [H|[]]. apply (E2 env); auto.
      + cbn [extreme_exact]. intros O. destruct (E3 O) as [env [P E]]. exists env. split; auto. cbn [joint]. left. exact E.
  Qed.

  (** ** Storing a constant changes nothing else *)
  Lemma later_constant : forall n v s, later R s (set_constant R n v s).
  Proof. intros n v s m. rewrite (times_ext R (set_constant R n v s) (bumped R s n)) by reflexivity. apply later_bumped. Qed.

  Lemma constant_known : forall s s1 c, sinv R s -> known R s c -> cwf R s c -> st_var s1 = st_var s -> later R s s1 ->
    sinv R s1 /\ known R s1 c /\ cwf R s1 c.
  Proof.
    intros s s1 c I K W E L. assert (A : forall h h', agree_on (issued R s1) h h' -> agree_on (issued R s) h h').
    { intros h h' H m Hm. apply H. eapply issued_later; eauto. }
    split; [|split].
    - constructor; [|intros n; specialize (L n); assert (H := si_times R s I n); lia]. intros n d H. rewrite E in H. eapply dwf_later; [exact L|]. now apply (si_var R s I n).
    - intros n inst Hn. destruct (K n inst Hn) as [d [H1 [H2 H3]]]. exists d. split; [unfold get_var in *; now rewrite E|]. split; auto. eapply dwf_later; eauto.
    - destruct W as [W1 W2 W3 W4 W5]. constructor.
      + intros n inst Hn. eapply issued_later; eauto.
      + intros n h h' H. apply W2. auto.
      + intros n h h' H. apply W3. auto.
      + intros n m V H. eapply issued_later; eauto.
      + exact W5.
  Qed.

  (** ** max and min of a program *)
  Fixpoint erun (mx : bool) (p : program) : M R Z :=
    match p with
    | [] => lift R (Raise KeyError)
    | [l] => bind R (ext_of R mx (line_expr l)) (fun v s => (set_stdout_const R v s, Ok v))
    | l :: p' => bind R (ext_of R mx (line_expr l)) (fun v s => erun mx p' (set_stdout_const R v s))
    end.

  Lemma erun_cons : forall mx l l2 p, erun mx (l :: l2 :: p) = bind R (ext_of R mx (line_expr l)) (fun v s => erun mx (l2 :: p) (set_stdout_const R v s)).
  Proof. reflexivity. Qed.

  Lemma exact_cons : forall mx i org ok n e l p, exact_lines mx i org ok ((n, e) :: l :: p) =
    exact_lines mx (S i) (next_origins i org n e) (next_exact mx org ok n e) (l :: p).
  Proof. reflexivity. Qed.

  Lemma separated_next : forall s c i org n e d, cwf R s c -> separated org c -> sinv R s -> match n with Some n => var_name n | None => True end ->
    (forall m, In m (reads e) -> c_inst c m <> None) -> separated (next_origins i org n e) (next_context R s c n e d).
  Proof.
    intros s c i org [n|] e d W SP I N Hr; [|exact SP]. cbn [next_context next_origins]. set (inst := next_instance R s n).
    assert (NI : forall k V, ~ c_sup c k inst V).
    { intros k V H. apply (cw_sup _ _ _ W) in H. revert H. apply next_not_issued. }
    assert (main : forall k' m V V', c_inst c k' <> None -> (forall k, In k (i :: flat_map org (reads e)) -> ~ In k (org k')) ->
      (m = inst /\ V = nodup Z.eq_dec (map (fun o => o_value (fst o)) (d_map d))) \/ (exists k', In k' (reads e) /\ c_sup c k' m V) -> c_sup c k' m V' -> False).
    { intros k' m V V' Hk' HD [[-> _]|[k2 [Hk2 S2]]] S1; [now apply (NI k' V')|]. apply (SP k2 k' m V V'); auto. intros k Hk. apply HD. right. apply in_flat_map. eauto. }
    intros k1 k2 m V V' H1 H2 HD S1 S2. cbn [extend c_inst c_sup] in *. fold inst in S1, S2. destruct (text_eqb k1 n) eqn:E1, (text_eqb k2 n) eqn:E2.
    - apply (HD i); now left.
    - exact (main k2 m V V' H2 HD S1 S2).
    - apply (main k1 m V' V H1); auto. intros k Hk C. now apply (HD k).
    - now apply (SP k1 k2 m V V').
  Qed.

  Lemma ext_line_step : forall mx i org ok s c n e, sinv R s -> known R s c -> cwf R s c -> extendable c -> separated org c -> bounded mx ok s c -> simple e ->
    match n with Some n => var_name n | None => True end -> (forall m, In m (reads e) -> c_inst c m <> None) -> sides_ok (map fst) e ->
    exists s1 r, ext_of R mx (line_expr (n, e)) s = (s1, r) /\
      match r with
      | Raise x => x = ZeroDivisionError /\ exists env, possible c env /\ In None (joint (map fst) env e)
      | Ok v => bounds mx c e v /\ (extreme_exact mx org ok e -> attains c e v) /\
          let s2 := set_stdout_const R v s1 in exists c2,
          sinv R s2 /\ known R s2 c2 /\ cwf R s2 c2 /\ extendable c2 /\ separated (next_origins i org n e) c2 /\ bounded mx (next_exact mx org ok n e) s2 c2 /\
          (forall m, c_inst c m <> None -> c_inst c2 m <> None) /\ (forall m, n = Some m -> c_inst c2 m <> None) /\
          (forall env x, possible c env -> In (Some x) (joint (map fst) env e) -> possible c2 (bind_value env n x)) /\
          (forall env2, possible c2 env2 -> exists env x, possible c env /\ In (Some x) (joint (map fst) env e) /\ forall k, env2 k = bind_value env n x k) /\
          (forall m, c_inst c2 m <> None -> (n = Some m /\ get_constant R m s2 = Ok v) \/ (n <> Some m /\ c_inst c m <> None /\ get_constant R m s2 = get_constant R m s))
      end.
  Proof.
    intros mx i org ok s c n e I K W X SP B S N Hr Hs. destruct (ext_of_spec mx org ok s c K X SP B e S Hr Hs) as [r [E H]].
    assert (std : forall v s c, sinv R s -> known R s c -> cwf R s c -> sinv R (set_stdout_const R v s) /\ known R (set_stdout_const R v s) c /\ cwf R (set_stdout_const R v s) c).
    { clear. intros v s c I K W. apply (constant_known s); auto. intros m. unfold set_stdout_const, times_of. cbn [st_times]. lia. }
    assert (stdget : forall v s m, m <> stdout -> get_constant R m (set_stdout_const R v s) = get_constant R m s).
    { clear. intros v s m Hm. unfold get_constant, set_stdout_const. cbn [st_const]. now rewrite (dget_dset_other text_eqb text_eqb_iff). }
    destruct n as [n|]; cbn [line_expr ext_of].
    - unfold bind at 1. rewrite E. destruct r as [v|x]; [|exists s, (Raise x); auto]. destruct H as [H1 H2].
      unfold bind at 1. unfold set_const_m at 1. set (s1 := set_constant R n v s).
      destruct (constant_known s s1 c I K W eq_refl (later_constant n v s)) as [I1 [K1 W1]].
      destruct (line_step R false s1 c (Some n) e I1 K1 W1 S N Hr) as [s2 [r [E2 H3]]]. cbn [line_expr dist_of] in E2.
      assert (NN : forall x, dist_of R e s1 <> (s1, Raise x)).
      { intros x C. destruct (raise_possible s1 c e x K1 X S Hr Hs C) as [env [P Q]]. destruct (H1 env P) as [Q' _]. auto. }
      destruct (simple_dist R s1 c K1 e S Hr) as [re [Ee De]]. destruct re as [d|x]; [|exfalso; now apply (NN x)].
      unfold bind at 1. rewrite Ee. unfold bind in E2. rewrite Ee in E2. unfold bind. destruct (set_var R n d s1) as [s3 [u|x]] eqn:Es.
      2: { injection E2 as <- <-. destruct H3 as [-> ->]. exfalso. destruct (set_var_spec R s1 n d I1 (ds_wf _ _ _ _ _ De) (proj1 N)) as [d' [E3 _]]. congruence. }
      unfold ret in E2. injection E2 as <- <-. unfold ret. exists s3, (Ok v). split; auto. split; auto. split; auto.
      destruct H3 as [_ [D3 [I3 [K3 [W3 [L3 _]]]]]]. cbn [after_line] in *. exists (next_context R s1 c (Some n) e d).
      destruct (std v s3 _ I3 K3 W3) as [I4 [K4 W4]]. cbv zeta. split; [exact I4|]. split; [exact K4|]. split; [exact W4|].
      split; [apply extendable_line; auto|]. split; [apply separated_next; auto|].
      assert (FW : forall env x, possible c env -> In (Some x) (joint (map fst) env e) -> possible (next_context R s1 c (Some n) e d) (bind_value env (Some n) x)).
      { intros env x P Hx. now apply (next_forward s1 c (Some n) e d env x). }
      assert (BK : forall env2, possible (next_context R s1 c (Some n) e d) env2 -> exists env x, possible c env /\ In (Some x) (joint (map fst) env e) /\ forall k, env2 k = bind_value env (Some n) x k).
      { intros env2 P. now apply (next_back s1 c (Some n) e d env2). }
      assert (CS : forall m, m <> n -> get_constant R m s3 = get_constant R m s).
      { intros m Hm. destruct (set_var_spec R s1 n d I1 (ds_wf _ _ _ _ _ De) (proj1 N)) as [d' [E3 _]]. rewrite E3 in Es. injection Es as <-.
        unfold get_constant, s1, set_constant. cbn [st_const]. now rewrite (dget_dset_other text_eqb text_eqb_iff). }
      assert (CN : get_constant R n s3 = Ok v).
      { destruct (set_var_spec R s1 n d I1 (ds_wf _ _ _ _ _ De) (proj1 N)) as [d' [E3 _]]. rewrite E3 in Es. injection Es as <-.
        unfold get_constant, s1, set_constant. cbn [st_const]. now rewrite (dget_dset_same text_eqb text_eqb_iff). }
      split; [|split; [|split; [|split; [|split]]]]; auto.
      + intros m Hm. assert (Hs0 : m <> stdout) by (intros ->; apply Hm; apply (cw_stdout _ _ _ W3)). rewrite (stdget v s3 m Hs0). destruct (text_eq_dec m n) as [->|Hne].
        * exists v. split; auto. split.
          -- intros env2 x P Hx. destruct (BK env2 P) as [env [y [P' [Hy Ey]]]]. rewrite Ey in Hx. cbn [bind_value] in Hx. rewrite text_eqb_refl in Hx. injection Hx as <-.
             now apply (H1 env P').
          -- intros [[_ Hx]|[C _]]; [|congruence]. destruct (H2 Hx) as [env [P Hv]]. exists (bind_value env (Some n) v). split; auto. cbn [bind_value]. now rewrite text_eqb_refl.
        * rewrite (CS m Hne). cbn [next_context extend c_inst] in Hm. assert (Hne' := Hne). apply text_eqb_neq in Hne'. rewrite Hne' in Hm.
          destruct (B m Hm) as [w [G1 [G2 G3]]]. exists w. split; auto. split.
          -- intros env2 x P Hx. destruct (BK env2 P) as [env [y [P' [Hy Ey]]]]. rewrite Ey in Hx. cbn [bind_value] in Hx. rewrite Hne' in Hx. eauto.
          -- intros [[C _]|[_ Hok]]; [congruence|]. destruct (G3 Hok) as [env [P Hv]]. destruct (H1 env P) as [Nn _]. assert (J := joint_nonempty (map fst) env e Hs).
             destruct (joint (map fst) env e) as [|[y|] l] eqn:Ej; [congruence| |exfalso; apply Nn; now left].
             exists (bind_value env (Some n) y). split; [apply FW; auto; rewrite Ej; now left|]. cbn [bind_value]. now rewrite Hne'.
      + intros m Hm. cbn [next_context extend c_inst]. destruct (text_eqb m n); [discriminate | auto].
      + intros m Hm. injection Hm as <-. cbn [next_context extend c_inst]. rewrite text_eqb_refl. discriminate.
      + intros m Hm. assert (Hs0 : m <> stdout) by (intros ->; apply Hm; apply (cw_stdout _ _ _ W3)). rewrite (stdget v s3 m Hs0).
        destruct (text_eq_dec m n) as [->|Hne]; [left; auto|]. right. rewrite (CS m Hne). split; [congruence|]. split; auto.
        cbn [next_context extend c_inst] in Hm. apply text_eqb_neq in Hne. now rewrite Hne in Hm.
    - exists s, r. split; auto. destruct r as [v|x]; [|auto]. destruct H as [H1 H2]. split; auto. split; auto. cbv zeta. exists c.
      destruct (std v s c I K W) as [I4 [K4 W4]]. split; [exact I4|]. split; [exact K4|]. split; [exact W4|]. split; auto. split; auto. split; [|split; [|split; [|split; [|split]]]]; auto.
      + intros m Hm. assert (Hs0 : m <> stdout) by (intros ->; apply Hm; apply (cw_stdout _ _ _ W)). rewrite (stdget v s m Hs0). exact (B m Hm).
      + discriminate.
      + intros env2 P. destruct (H1 env2 P) as [Nn _]. assert (J := joint_nonempty (map fst) env2 e Hs).
        destruct (joint (map fst) env2 e) as [|[y|] l] eqn:Ej; [congruence| |exfalso; apply Nn; now left].
        exists env2, y. split; auto. split; [rewrite Ej; now left | reflexivity].
      + intros m Hm. assert (Hs0 : m <> stdout) by (intros ->; apply Hm; apply (cw_stdout _ _ _ W)). rewrite (stdget v s m Hs0). right. split; [discriminate | auto].
  Qed.

  Lemma erun_spec : forall mx p i org ok s c, p <> [] -> sinv R s -> known R s c -> cwf R s c -> extendable c -> separated org c -> bounded mx ok s c -> good_lines p ->
    (forall m, In m (program_dice p) -> map fst m <> []) -> (exists kn, known_names c kn /\ closed kn p) ->
    exists s' r, erun mx p s = (s', r) /\
      match r with
      | Ok v => (forall d, dget text_eqb (st_const s') stdout = d -> d = Some v) /\
          (forall env, possible c env -> ~ In None (results (map fst) env p) /\ forall x, In (Some x) (results (map fst) env p) -> within mx x v) /\
          (exact_lines mx i org ok p -> exists env, possible c env /\ In (Some v) (results (map fst) env p))
      | Raise x => x = ZeroDivisionError /\ exists env, possible c env /\ In None (results (map fst) env p)
      end.
  Proof.
    intros mx. induction p as [|[n e] p IH]; intros i org ok s c Hp I K W X SP B G Hd [kn [Hkn HC]]; [congruence|]. clear Hp.
    destruct (G n e (or_introl eq_refl)) as [S N]. destruct HC as [HC1 HC2].
    assert (Hr : forall m, In m (reads e) -> c_inst c m <> None) by (intros m Hm; apply Hkn; auto).
    assert (He : sides_ok (map fst) e) by (intros m Hm; apply Hd; cbn [program_dice flat_map snd]; apply in_or_app; auto).
    assert (Hq : forall m, In m (program_dice p) -> map fst m <> []) by (intros m Hm; apply Hd; cbn [program_dice flat_map snd]; apply in_or_app; auto).
    destruct (ext_line_step mx i org ok s c n e I K W X SP B S N Hr He) as [s1 [r [E H]]].
    destruct p as [|l p].
    - cbn [erun]. unfold bind. rewrite E. assert (RE : forall env, results (map fst) env [(n, e)] = joint (map fst) env e) by (intros; destruct n; reflexivity).
      destruct r as [v|x].
      + eexists. eexists. split; [reflexivity|]. destruct H as [H1 [H2 _]]. split; [|split].
        * intros d <-. cbn [set_stdout_const st_const]. now rewrite (dget_dset_same text_eqb text_eqb_iff).
        * intros env P. rewrite RE. apply H1; auto.
        * intros Hx. assert (Hx' : extreme_exact mx org ok e) by (destruct n; exact Hx). destruct (H2 Hx') as [env [P Hv]]. exists env. rewrite RE. auto.
      + exists s1, (Raise x). split; auto.
    - rewrite erun_cons. unfold bind. rewrite E. destruct r as [v|x].
      + destruct H as [H1 [H2 [c2 [I2 [K2 [W2 [X2 [SP2 [B2 [C1 [C2 [FW [BK _]]]]]]]]]]]]].
        destruct (IH (Datatypes.S i) (next_origins i org n e) (next_exact mx org ok n e) (set_stdout_const R v s1) c2) as [s' [r [E' H']]]; auto; [discriminate | intros k f Hk; apply G; right; auto | |].
        { exists (match n with Some n => n :: kn | None => kn end). split; auto. intros k Hk. destruct n as [n|]; [|apply C1; auto]. destruct Hk as [<-|Hk]; [now apply C2 | apply C1; auto]. }
        exists s', r. split; auto. destruct r as [w|y].
        * destruct H' as [D1 [D2 D3]]. split; auto. split.
          -- intros env P. rewrite results_cons. split.
             ++ intros C. apply in_flat_map in C. destruct C as [[x|] [Hx C]]; [|now apply (H1 env P)]. apply (D2 (bind_value env n x) (FW env x P Hx)). exact C.
             ++ intros z C. apply in_flat_map in C. destruct C as [[x|] [Hx C]]; [|destruct C as [C|[]]; discriminate].
                apply (D2 (bind_value env n x) (FW env x P Hx)). exact C.
          -- intros Hx. rewrite exact_cons in Hx. destruct (D3 Hx) as [env2 [P2 Hv]]. destruct (BK env2 P2) as [env [x [P [Hj Eb]]]].
             exists env. split; auto. rewrite results_cons. apply in_flat_map. exists (Some x). split; auto. now rewrite <- (results_ext (map fst) (l :: p) env2).
        * destruct H' as [-> [env2 [P2 Hn]]]. split; auto. destruct (BK env2 P2) as [env [x [P [Hj Eb]]]].
          exists env. split; auto. rewrite results_cons. apply in_flat_map. exists (Some x). split; auto. now rewrite <- (results_ext (map fst) (l :: p) env2).
      + exists s1, (Raise x). split; auto. destruct H as [H1 [env [P Nn]]]. split; auto. exists env. split; auto. rewrite results_cons. apply in_flat_map. exists None. split; auto. now left.
  Qed.

  (** ** The calls *)
  Lemma ext_from_erun : forall mx p lines s dict, p <> [] -> program_text lines p ->
    ext_from R mx dict lines s = (fst (erun mx p s), rmap (fun _ => LiveConstants) (snd (erun mx p s))).
  Proof.
    intros mx. induction p as [|l p IH]; intros lines s dict Hp HT; [congruence|]. clear Hp. inversion HT as [|t l' ts p' Ht HT']; subst.
    cbn [ext_from]. unfold ext_line. unfold bind at 1. unfold bind at 1. unfold lift at 1. rewrite Ht. unfold bind at 1. destruct p as [|l2 p].
    - inversion HT'; subst. cbn [erun ext_from]. unfold bind. destruct (ext_of R mx (line_expr l) s) as [s1 [v|x]]; reflexivity.
    - rewrite erun_cons. unfold bind. destruct (ext_of R mx (line_expr l) s) as [s1 [v|x]]; [|reflexivity]. apply IH; [discriminate | auto].
  Qed.

  Lemma extreme_from : forall mx lines s, extreme R mx lines s = ext_from R mx EmptyDict lines s.
  Proof. intros [|] lines s; reflexivity. Qed.

  Lemma bounded_none : forall mx ok s, bounded mx ok s no_context.
  Proof. intros mx ok s n H. cbn in H. congruence. Qed.

  Lemma separated_none : forall org, separated org no_context.
  Proof. intros org n n' m V V' H. cbn in H. congruence. Qed.

  Lemma possible_none : forall env, possible no_context env -> forall n, env n = no_values n.
  Proof. intros env [h [_ E]] n. rewrite E. reflexivity. Qed.

  Lemma extreme_cases : forall mx p lines s, reachable R s -> program_text lines p -> good_program p -> sided p ->
    (exists v, (forall w, extreme_is R mx s lines w <-> w = v) /\ (forall x, ~ extreme_raises R mx s lines x) /\
       ~ In None (results (map fst) no_values p) /\
       (forall x, In (Some x) (results (map fst) no_values p) -> within mx x v) /\
       (program_extreme_exact mx p -> In (Some v) (results (map fst) no_values p))) \/
    ((forall x, extreme_raises R mx s lines x <-> x = ZeroDivisionError) /\ (forall w, ~ extreme_is R mx s lines w) /\ In None (results (map fst) no_values p)).
  Proof.
    intros mx p lines s Hs T [Hp [HC HG]] Sd. assert (Is := reachable_sinv R s Hs).
    destruct (erun_spec mx p 0%nat (fun _ => []) (fun _ => False) s no_context Hp Is (known_none R s) (cwf_none R s) extendable_none (separated_none _) (bounded_none mx _ s) HG) as [s' [r [E H]]].
    - intros m Hm. apply map_nonempty. now apply Sd.
    - exists []. split; [intros n []|auto].
    - assert (P0 : possible no_context no_values) by (exists (fun _ => 0); split; [intros n Hn; cbn in Hn; congruence | reflexivity]).
      assert (EX := ext_from_erun mx p lines s EmptyDict Hp T). rewrite E in EX. cbn [fst snd] in EX. destruct r as [v|x]; cbn [rmap] in EX.
      + left. exists v. destruct H as [H1 [H2 H3]]. specialize (H1 _ eq_refl). destruct (H2 no_values P0) as [H4 H5]. split; [|split; [|split; [|split]]]; auto.
        * intros w. unfold extreme_is. rewrite extreme_from, EX. split.
          -- intros [s2 [dict [E2 G]]]. injection E2 as <- <-. change (dget text_eqb (st_const s') stdout = Some w) in G. rewrite H1 in G. now injection G.
          -- intros ->. exists s', LiveConstants. split; auto.
        * intros x. unfold extreme_raises. rewrite extreme_from, EX. discriminate.
        * intros Hx. destruct (H3 Hx) as [env [P Hv]]. now rewrite (results_ext (map fst) p env no_values (possible_none env P)) in Hv.
      + right. destruct H as [-> [env [P Hn]]]. split; [|split].
        * intros x. unfold extreme_raises. rewrite extreme_from, EX. cbn [snd]. split; [intros H; now injection H | intros ->; reflexivity].
        * intros w [s2 [dict [E2 _]]]. rewrite extreme_from, EX in E2. discriminate.
        * now rewrite (results_ext (map fst) p env no_values (possible_none env P)) in Hn.
  Qed.
End Facts.
