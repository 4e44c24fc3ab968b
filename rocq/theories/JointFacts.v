(** * JointFacts: facts about the joint results of expressions and programs (no code involved) *)
From Verif Require Import Py PyFacts Constraint Distribution DiceModel Expr SpecDice DiceFacts SpecProgram ExprFacts ProgramFacts.

Definition sides_ok (sides : list (Z * Z) -> list Z) (e : expr) : Prop := forall m, In m (dice_of e) -> sides m <> [].

Lemma both_length : forall f a b, length (both f a b) = (length a * length b)%nat.
Proof.
  intros f a b. unfold both. induction a as [|x a IH]; auto. simpl. rewrite app_length, map_length, IH. reflexivity.
Qed.

Lemma joint_length : forall sides env env' e, length (joint sides env e) = length (joint sides env' e).
Proof.
  intros sides env env'. induction e; cbn [joint]; rewrite ?map_length; auto; rewrite !both_length; congruence.
Qed.

Lemma tuples_nonempty : forall n fs, fs <> [] -> tuples n fs <> [].
Proof.
  induction n as [|n IH]; intros fs H; simpl; [discriminate|]. destruct fs as [|x fs]; [congruence|]. simpl.
  specialize (IH (x :: fs) H). destruct (tuples n (x :: fs)); [congruence|]. discriminate.
Qed.

Lemma map_nonempty : forall A B (f : A -> B) l, l <> [] -> map f l <> [].
Proof. intros A B f [|x l] H; [congruence | discriminate]. Qed.

Lemma both_nonempty : forall f a b, a <> [] -> b <> [] -> both f a b <> [].
Proof. intros f [|x a] [|y b] H1 H2; try congruence. discriminate. Qed.

Lemma pool_nonempty : forall sides dk, sides (dk_map dk) <> [] -> pool_results sides dk <> [].
Proof.
  intros sides dk H. unfold pool_results. assert (T := tuples_nonempty (Z.to_nat (dk_num dk)) _ H).
  destruct (dk_keep dk).
  - destruct (dk_k dk =? 0); [discriminate | now apply map_nonempty].
  - destruct (dk_num dk <=? dk_k dk); [discriminate | now apply map_nonempty].
Qed.

Lemma joint_nonempty : forall sides env e, sides_ok sides e -> joint sides env e <> [].
Proof.
  intros sides env. induction e; intros H; cbn [joint]; try discriminate;
    try (apply both_nonempty; [apply IHe1 | apply IHe2]; intros m Hm; apply H; cbn [dice_of]; apply in_or_app; auto);
    auto; try (apply map_nonempty; auto).
  - apply pool_nonempty. apply H. left; auto.
  - apply tuples_nonempty. apply H. left; auto.
Qed.

(** ** Faces are sides *)
Lemma faces_sides : forall m x, In x (faces m) -> In x (map fst m).
Proof.
  intros m x H. unfold faces in H. apply in_flat_map in H. destruct H as [[v c] [H1 H2]]. cbn [fst snd] in H2.
  apply repeat_spec in H2. subst. apply in_map_iff. exists (v, c). auto.
Qed.

Lemma sides_faces : forall m x, (forall v c, In (v, c) m -> 0 < c) -> In x (map fst m) -> In x (faces m).
Proof.
  intros m x P H. apply in_map_iff in H. destruct H as [[v c] [<- H]]. unfold faces. apply in_flat_map.
  exists (v, c). split; auto. cbn [fst snd]. specialize (P v c H). destruct (Z.to_nat c) eqn:E; [lia|]. left; auto.
Qed.

Lemma tuples_incl : forall n a b, incl a b -> incl (tuples n a) (tuples n b).
Proof. intros n a b H t Ht. apply in_tuples in Ht. apply in_tuples. destruct Ht as [L Ht]. split; auto. Qed.

Definition sides_incl (sides sides' : list (Z * Z) -> list Z) (e : expr) : Prop :=
  forall m, In m (dice_of e) -> incl (sides m) (sides' m).

Lemma both_incl : forall f a a' b b', incl a a' -> incl b b' -> incl (both f a b) (both f a' b').
Proof.
  intros f a a' b b' Ha Hb r H. unfold both in *. apply in_flat_map in H. destruct H as [x [Hx H]].
  apply in_map_iff in H. destruct H as [y [<- Hy]]. apply in_flat_map. exists x. split; auto. apply in_map_iff. exists y. auto.
Qed.

Lemma map_incl : forall A B (f : A -> B) a b, incl a b -> incl (map f a) (map f b).
Proof. intros A B f a b H r Hr. apply in_map_iff in Hr. destruct Hr as [x [<- Hx]]. apply in_map. auto. Qed.

Lemma pool_incl : forall sides sides' dk, incl (sides (dk_map dk)) (sides' (dk_map dk)) ->
  incl (pool_results sides dk) (pool_results sides' dk).
Proof.
  intros sides sides' dk H. unfold pool_results. destruct (dk_keep dk).
  - destruct (dk_k dk =? 0); [apply incl_refl | apply map_incl; now apply tuples_incl].
  - destruct (dk_num dk <=? dk_k dk); [apply incl_refl | apply map_incl; now apply tuples_incl].
Qed.

Lemma joint_incl : forall sides sides' env e, sides_incl sides sides' e -> incl (joint sides env e) (joint sides' env e).
Proof.
  intros sides sides' env. induction e; intros H; cbn [joint]; try apply incl_refl; auto;
    try (apply both_incl; [apply IHe1 | apply IHe2]; intros m Hm; apply H; cbn [dice_of]; apply in_or_app; auto);
    try (apply map_incl; auto).
  - apply pool_incl. apply H. left; auto.
  - apply tuples_incl. apply H. left; auto.
Qed.

Lemma results_incl : forall sides sides' p env, (forall m, In m (program_dice p) -> incl (sides m) (sides' m)) ->
  incl (results sides env p) (results sides' env p).
Proof.
  intros sides sides'. induction p as [|[n e] p IH]; intros env H; [apply incl_refl|].
  assert (He : sides_incl sides sides' e) by (intros m Hm; apply H; cbn [program_dice flat_map snd]; apply in_or_app; auto).
  assert (Hp : forall m, In m (program_dice p) -> incl (sides m) (sides' m)) by (intros m Hm; apply H; cbn [program_dice flat_map snd]; apply in_or_app; auto).
  destruct p as [|l p].
  - assert (E : forall s, results s env [(n, e)] = joint s env e) by (intros; destruct n; reflexivity). rewrite !E. now apply joint_incl.
  - rewrite !results_cons. intros r Hr. apply in_flat_map in Hr. destruct Hr as [x [Hx Hr]]. apply in_flat_map. exists x.
    split; [now apply (joint_incl sides sides' env e He)|]. destruct x as [x|]; auto. now apply (IH (bind_value env n x) Hp).
Qed.

(** ** Weighted counts *)
Lemma weighted_nonneg : forall sides p env v, 0 <= weighted sides env p v.
Proof.
  intros sides. induction p as [|[[n|] e] p IH]; intros env v; [reflexivity| |].
  - destruct p as [|l p]; [apply occurrences_nonneg|]. rewrite weighted_some. destruct (uses n (l :: p) =? 0); auto.
    apply lsum_nonneg. intros [x|] _; [|reflexivity]. cbn [fo]. apply Z.mul_nonneg_nonneg; [apply Z.pow_nonneg, occurrences_nonneg | apply IH].
  - destruct p as [|l p]; [apply occurrences_nonneg|]. apply IH.
Qed.

Lemma lsum_pos : forall A (f : A -> Z) l, (forall x, In x l -> 0 <= f x) -> (0 < lsum f l <-> exists x, In x l /\ 0 < f x).
Proof.
  intros A f. induction l as [|y l IH]; intros H.
  - rewrite lsum_nil. split; [lia | intros [x [[] _]]].
  - rewrite lsum_cons. assert (H0 : 0 <= f y) by (apply H; left; auto).
    assert (Hl : forall x, In x l -> 0 <= f x) by (intros; apply H; right; auto). specialize (IH Hl).
    assert (Hn := lsum_nonneg _ f l Hl). split.
    + intros Hp. destruct (Z.eq_dec (f y) 0) as [E|E]; [|exists y; split; [left; auto | lia]].
      destruct (proj1 IH) as [x [Hx Hf]]; [lia|]. exists x. split; auto. right; auto.
    + intros [x [[->|Hx] Hf]]; [lia|]. assert (0 < lsum f l) by (apply IH; eauto). lia.
Qed.

Lemma occurrences_pos : forall x l, 0 < occurrences x l <-> In (Some x) l.
Proof.
  intros x l. split; [|apply occurrences_some]. intros H. destruct (in_dec oz_dec (Some x) l) as [|N]; auto.
  rewrite occurrences_none in H by auto. lia.
Qed.

Lemma weighted_pos : forall sides p env v, p <> [] -> (0 < weighted sides env p v <-> In (Some v) (used_results sides env p)).
Proof.
  intros sides. induction p as [|[[n|] e] p IH]; intros env v Hp; [congruence| |].
  - destruct p as [|l p]; [apply occurrences_pos|]. rewrite weighted_some, used_results_some.
    destruct (uses n (l :: p) =? 0) eqn:E; [apply IH; discriminate|]. apply Z.eqb_neq in E.
    assert (Hu : 0 < uses n (l :: p)) by (rewrite uses_ulist in *; assert (H := count_nonneg n (ulist (l :: p))); lia).
    rewrite lsum_pos.
    + rewrite in_flat_map. split.
      * intros [[x|] [Hx Hf]]; [|cbn [fo] in Hf; lia]. apply nodup_In in Hx. exists (Some x). split; auto.
        apply IH; [discriminate|]. cbn [fo] in Hf. assert (Hw := weighted_nonneg sides (l :: p) (bind_value env (Some n) x) v).
        destruct (Z.eq_dec (weighted sides (bind_value env (Some n) x) (l :: p) v) 0) as [E0|]; [rewrite E0, Z.mul_0_r in Hf|]; lia.
      * intros [[x|] [Hx Hf]]; [|destruct Hf as [Hf|[]]; discriminate]. exists (Some x). split; [now apply nodup_In|]. cbn [fo].
        apply IH in Hf; [|discriminate]. apply occurrences_pos in Hx. assert (0 < occurrences x (joint sides env e) ^ uses n (l :: p)) by (apply Z.pow_pos_nonneg; lia). now apply Z.mul_pos_pos.
    + intros [x|] _; [|reflexivity]. cbn [fo]. apply Z.mul_nonneg_nonneg; [apply Z.pow_nonneg, occurrences_nonneg | apply weighted_nonneg].
  - destruct p as [|l p]; [apply occurrences_pos|]. apply IH. discriminate.
Qed.

(** ** Lines that the last line does not use make no difference to the possible results *)
Lemma used_results_cons_none : forall sides env e l p, used_results sides env ((None, e) :: l :: p) = used_results sides env (l :: p).
Proof. reflexivity. Qed.

Lemma used_all : forall sides p env v, (forall m, In m (program_dice p) -> sides m <> []) ->
  ~ In None (results sides env p) -> (In (Some v) (used_results sides env p) <-> In (Some v) (results sides env p)).
Proof.
  intros sides. induction p as [|[n e] p IH]; intros env v H N; [reflexivity|].
  assert (He : sides_ok sides e) by (intros m Hm; apply H; cbn [program_dice flat_map snd]; apply in_or_app; auto).
  assert (Hp : forall m, In m (program_dice p) -> sides m <> []) by (intros m Hm; apply H; cbn [program_dice flat_map snd]; apply in_or_app; auto).
  destruct p as [|l p]; [destruct n; reflexivity|]. rewrite results_cons in *. set (q := l :: p) in *.
  assert (N1 : forall x, In (Some x) (joint sides env e) -> ~ In None (results sides (bind_value env n x) q)).
  { intros x Hx C. apply N. apply in_flat_map. exists (Some x). auto. }
  assert (N2 : ~ In None (joint sides env e)).
  { intros C. apply N. apply in_flat_map. exists None. split; auto. left; auto. }
  assert (Hne : exists x, In (Some x) (joint sides env e)).
  { assert (H0 := joint_nonempty sides env e He). destruct (joint sides env e) as [|[x|] r]; [congruence | exists x; left; auto | exfalso; apply N2; left; auto]. }
  assert (unused : (forall x, In (Some x) (joint sides env e) -> (In (Some v) (results sides (bind_value env n x) q) <-> In (Some v) (used_results sides env q))) ->
    (In (Some v) (used_results sides env q) <-> In (Some v) (flat_map (fun x => match x with Some x => results sides (bind_value env n x) q | None => [None] end) (joint sides env e)))).
  { intros Hx. rewrite in_flat_map. split.
    - intros Hv. destruct Hne as [x Hx0]. exists (Some x). split; auto. now apply Hx.
    - intros [[x|] [Hx0 Hv]]; [|destruct Hv as [Hv|[]]; discriminate]. now apply (Hx x). }
  destruct n as [n|].
  - unfold q. rewrite used_results_some. fold q. destruct (uses n q =? 0) eqn:E.
    + apply unused. intros x Hx. rewrite <- IH; auto. rewrite (used_results_agree sides q _ env); [reflexivity|].
      intros k Hk. cbn [bind_value]. destruct (text_eqb k n) eqn:Ek; auto. apply text_eqb_eq in Ek. subst k.
      apply Z.eqb_eq in E. rewrite uses_ulist in E. apply count_zero in E. contradiction.
    + rewrite !in_flat_map. split; intros [[x|] [Hx Hv]]; exists (Some x) || exists None; split; auto; apply IH; auto.
  - unfold q; rewrite used_results_cons_none; fold q. apply unused. intros x Hx. cbn [bind_value]. symmetry. apply IH; auto. exact (N1 x Hx).
Qed.

(** ** When the weighted counts are proportional to the numbers of results *)
Lemma occurrences_flat_map : forall A (f : A -> list (option Z)) l v, occurrences v (flat_map f l) = lsum (fun x => occurrences v (f x)) l.
Proof.
  intros A f l v. induction l as [|x l IH]; [reflexivity|]. cbn [flat_map]. rewrite lsum_cons, <- IH. unfold occurrences.
  rewrite filter_app, app_length. lia.
Qed.

(** grouping equal elements *)
Definition howmany (x : option Z) (l : list (option Z)) : Z := Z.of_nat (length (filter (fun y => if oz_dec y x then true else false) l)).

Lemma howmany_some : forall x l, howmany (Some x) l = occurrences x l.
Proof.
  intros x l. unfold howmany, occurrences. induction l as [|[y|] l IH]; auto; cbn [filter].
  - destruct (oz_dec (Some y) (Some x)) as [E|E]; destruct (y =? x) eqn:F; cbn [length]; try lia; [injection E as ->; rewrite Z.eqb_refl in F; discriminate|].
    apply Z.eqb_eq in F. congruence.
Qed.

Lemma lsum_add : forall A (f g : A -> Z) l, lsum (fun x => f x + g x) l = lsum f l + lsum g l.
Proof. intros A f g l. induction l as [|x l IH]; [reflexivity|]. rewrite !lsum_cons, IH. lia. Qed.

Lemma lsum_grouped : forall (g : option Z -> Z) l ks, NoDup ks -> (forall x, In x l -> In x ks) ->
  lsum g l = lsum (fun x => howmany x l * g x) ks.
Proof.
  intros g. induction l as [|y l IH]; intros ks ND H.
  - rewrite lsum_nil. rewrite (lsum_ext _ _ (fun _ => 0)); [now rewrite lsum_zero|]. intros x _. reflexivity.
  - rewrite lsum_cons, (IH ks ND) by (intros; apply H; right; auto).
    rewrite (lsum_ext _ (fun x => howmany x (y :: l) * g x) (fun x => (if oz_dec y x then g y else 0) + howmany x l * g x)).
    + rewrite lsum_add. f_equal. assert (Hy : In y ks) by (apply H; left; auto). clear H IH. induction ks as [|k ks IHk]; [destruct Hy|].
      inversion ND; subst. rewrite lsum_cons. destruct Hy as [->|Hy].
      * destruct (oz_dec y y); [|congruence]. rewrite (lsum_ext _ _ (fun _ => 0)); [rewrite lsum_zero; lia|].
        intros x Hx. destruct (oz_dec y x); [subst; contradiction | auto].
      * destruct (oz_dec y k); [subst; contradiction|]. rewrite <- IHk; auto.
    + intros x _. unfold howmany. cbn [filter]. destruct (oz_dec y x) as [->|]; cbn [length]; lia.
Qed.

Lemma occurrences_length : forall l ks, NoDup ks -> ~ In None l -> (forall x, In (Some x) l -> In x ks) ->
  lsum (fun x => occurrences x l) ks = Z.of_nat (length l).
Proof.
  intros l ks ND N H. transitivity (lsum (fun _ : option Z => 1) l).
  - rewrite (lsum_grouped (fun _ => 1) l (map Some ks)).
    + rewrite lsum_map. apply lsum_ext. intros x _. rewrite howmany_some. lia.
    + apply FinFun.Injective_map_NoDup; auto. intros a b E. congruence.
    + intros [x|] Hx; [apply in_map; auto | contradiction].
  - clear. induction l as [|x l IH]; [reflexivity|]. rewrite lsum_cons, IH. cbn [length]. lia.
Qed.

Lemma results_grouped : forall env n e l p v, ~ In None (joint faces env e) ->
  occurrences v (results faces env ((n, e) :: l :: p)) =
  lsum (fo (fun x => occurrences x (joint faces env e) * occurrences v (results faces (bind_value env n x) (l :: p)))) (nodup oz_dec (joint faces env e)).
Proof.
  intros env n e l p v N. rewrite results_cons, occurrences_flat_map.
  rewrite (lsum_grouped _ (joint faces env e) (nodup oz_dec (joint faces env e))).
  - apply lsum_ext. intros [x|] Hx; [now rewrite howmany_some | apply nodup_In in Hx; contradiction].
  - apply NoDup_nodup.
  - intros x Hx. now apply nodup_In.
Qed.

Lemma weighted_proportional : forall p, p <> [] -> rollable p -> used_once_or_uniform p ->
  exists K1 K2, 0 < K1 /\ 0 < K2 /\ forall env, ~ In None (results faces env p) -> forall v,
    K1 * weighted faces env p v = K2 * occurrences v (results faces env p).
Proof.
  induction p as [|[n e] p IH]; intros Hp HR HU; [congruence|].
  destruct p as [|l p]; [exists 1, 1; repeat split; try lia; intros; destruct n; reflexivity|]. set (q := l :: p) in *.
  assert (He : sides_ok faces e) by (intros m Hm; apply HR; cbn [program_dice flat_map snd]; apply in_or_app; auto).
  destruct IH as [K1 [K2 [P1 [P2 H]]]]; [discriminate | intros m Hm; apply HR; cbn [program_dice flat_map snd]; apply in_or_app; auto | destruct n; [apply HU | exact HU] |].
  assert (NN : forall env, ~ In None (results faces env ((n, e) :: q)) -> ~ In None (joint faces env e) /\
    forall x, In (Some x) (joint faces env e) -> ~ In None (results faces (bind_value env n x) q)).
  { intros env N. unfold q in N. rewrite results_cons in N. fold q in N. split.
    - intros C. apply N. apply in_flat_map. exists None. split; auto. left; auto.
    - intros x Hx C. apply N. apply in_flat_map. exists (Some x). auto. }
  set (env0 := no_values). set (L := Z.of_nat (length (joint faces env0 e))).
  assert (PL : 0 < L) by (unfold L; assert (H0 := joint_nonempty faces env0 e He); destruct (joint faces env0 e); [congruence | cbn [length]; lia]).
  assert (Hlen : forall env, ~ In None (joint faces env e) -> lsum (fo (fun x => occurrences x (joint faces env e))) (nodup oz_dec (joint faces env e)) = L).
  { intros env N. unfold L. rewrite (joint_length faces env0 env). transitivity (lsum (fun _ : option Z => 1) (joint faces env e)).
    - rewrite (lsum_grouped (fun _ => 1) (joint faces env e) (nodup oz_dec (joint faces env e))); [| apply NoDup_nodup | intros x Hx; now apply nodup_In].
      apply lsum_ext. intros [x|] Hx; [rewrite howmany_some; cbn [fo]; lia | apply nodup_In in Hx; contradiction].
    - induction (joint faces env e) as [|x r IHr]; [reflexivity|]. rewrite lsum_cons, IHr; [cbn [length]; lia|]. intros C. apply N. right; auto. }
  assert (unused : (forall env v, weighted faces env ((n, e) :: q) v = weighted faces env q v) ->
    (forall env x v, weighted faces (bind_value env n x) q v = weighted faces env q v) ->
    exists K1 K2, 0 < K1 /\ 0 < K2 /\ forall env, ~ In None (results faces env ((n, e) :: q)) -> forall v,
      K1 * weighted faces env ((n, e) :: q) v = K2 * occurrences v (results faces env ((n, e) :: q))).
  { intros W1 W2. exists (K1 * L), K2. repeat split; try nia. intros env N v. destruct (NN env N) as [N1 N2]. rewrite W1. unfold q. rewrite results_grouped by auto. fold q.
    rewrite <- lsum_scale. rewrite <- (Hlen env N1). rewrite (Z.mul_comm K1), <- Z.mul_assoc, Z.mul_comm, <- lsum_scale. apply lsum_ext.
    intros [x|] Hx; cbn [fo]; [|lia]. apply nodup_In in Hx. specialize (H (bind_value env n x) (N2 x Hx) v). rewrite W2 in H. rewrite H. ring. }
  destruct n as [n|].
  - destruct (uses n q =? 0) eqn:E.
    + apply unused; intros.
      * unfold q. rewrite weighted_some. fold q. now rewrite E.
      * apply weighted_agree. intros k Hk. cbn [bind_value]. destruct (text_eqb k n) eqn:Ek; auto. apply text_eqb_eq in Ek. subst k.
        apply Z.eqb_eq in E. rewrite uses_ulist in E. apply count_zero in E. contradiction.
    + assert (Hu : 0 < uses n q) by (apply Z.eqb_neq in E; rewrite uses_ulist in *; assert (H0 := count_nonneg n (ulist q)); lia).
      assert (HC : exists C, 0 < C /\ forall env x, occurrences x (joint faces env e) ^ uses n q = C * occurrences x (joint faces env e)).
      { destruct HU as [[H1|[c [Pc Hc]]] _].
        - exists 1. split; [lia|]. intros env x. replace (uses n q) with 1 by lia. lia.
        - exists (c ^ (uses n q - 1)). split; [apply Z.pow_pos_nonneg; lia|]. intros env x. destruct (Hc env x) as [->| ->].
          + rewrite Z.pow_0_l; lia.
          + replace (uses n q) with (uses n q - 1 + 1) at 1 by lia. rewrite Z.pow_add_r by lia. lia. }
      destruct HC as [C [PC HC]]. exists K1, (C * K2). repeat split; try nia. intros env N v. destruct (NN env N) as [N1 N2].
      unfold q. rewrite weighted_some, results_grouped by auto. fold q. rewrite E, <- !lsum_scale. apply lsum_ext.
      intros [x|] Hx; cbn [fo]; [|lia]. apply nodup_In in Hx. specialize (H (bind_value env (Some n) x) (N2 x Hx) v). rewrite HC.
      transitivity (C * occurrences x (joint faces env e) * (K1 * weighted faces (bind_value env (Some n) x) q v)); [ring|]. rewrite H. ring.
  - apply unused; intros; reflexivity.
Qed.
