(** * InlineFacts: results of expressions and programs after a definition has been written in place of a variable *)
From Coq Require Import Permutation.
From Verif Require Import Py PyFacts Constraint Distribution DistFacts DiceModel Expr SpecDice DiceFacts DiceProofs SpecProgram SpecRoll SpecInline ExprFacts ProgramFacts
  JointFacts RollFacts DropKeepFacts.

Definition upd (env : text -> option Z) (x : text) (y : option Z) : text -> option Z := fun m => if text_eqb m x then y else env m.

Lemma flat_map_split : forall A B (f g : A -> list B) l, Permutation (flat_map (fun x => f x ++ g x) l) (flat_map f l ++ flat_map g l).
Proof.
  intros A B f g l. induction l as [|x l IH]; [constructor|]. cbn [flat_map]. rewrite IH, <- !app_assoc. apply Permutation_app_head.
  rewrite !app_assoc. apply Permutation_app_tail, Permutation_app_comm.
Qed.
Lemma flat_map_perm_ext : forall A B (f g : A -> list B) l, (forall x, In x l -> Permutation (f x) (g x)) -> Permutation (flat_map f l) (flat_map g l).
Proof.
  intros A B f g l. induction l as [|x l IH]; intros H; [constructor|]. cbn [flat_map]. apply Permutation_app; [apply H; left; auto|].
  apply IH. intros; apply H; right; auto.
Qed.
Lemma flat_map_swap : forall A B C (h : A -> B -> list C) a b,
  Permutation (flat_map (fun x => flat_map (h x) b) a) (flat_map (fun y => flat_map (fun x => h x y) a) b).
Proof.
  intros A B C h a b. induction a as [|x a IH].
  - cbn [flat_map]. induction b as [|y b IHb]; [constructor | exact IHb].
  - cbn [flat_map]. rewrite IH, flat_map_split. reflexivity.
Qed.
Lemma flat_map_single : forall A B (f : A -> B) l, flat_map (fun x => [f x]) l = map f l.
Proof. induction l as [|x l IH]; [reflexivity|]. cbn. now rewrite IH. Qed.
Lemma flat_map_map_out : forall A B C (f : B -> C) (g : A -> list B) l, map f (flat_map g l) = flat_map (fun x => map f (g x)) l.
Proof. induction l as [|x l IH]; [reflexivity|]. cbn. now rewrite map_app, IH. Qed.
Lemma flat_map_nested : forall A B C (f : B -> list C) (g : A -> list B) l, flat_map f (flat_map g l) = flat_map (fun x => flat_map f (g x)) l.
Proof. induction l as [|x l IH]; [reflexivity|]. cbn. now rewrite flat_map_app, IH. Qed.

(** ** Expressions: the two kinds of results, for distributions and for roll() *)
Section Both.
  Context (f : Z -> Z -> option Z).
  Lemma both_perm : forall a a' b b', Permutation a a' -> Permutation b b' -> Permutation (both f a b) (both f a' b').
  Proof.
    intros a a' b b' Ha Hb. unfold both. rewrite (Permutation_flat_map _ Ha). apply flat_map_perm_ext. intros. now apply Permutation_map.
  Qed.
  Lemma both_left : forall A (g : A -> list (option Z)) l b, both f (flat_map g l) b = flat_map (fun y => both f (g y) b) l.
  Proof. intros. unfold both. apply flat_map_nested. Qed.
  Lemma both_right : forall A (g : A -> list (option Z)) l a, Permutation (both f a (flat_map g l)) (flat_map (fun y => both f a (g y)) l).
  Proof.
    intros A g l a. unfold both.
    transitivity (flat_map (fun x => flat_map (fun y => map (fun z => match x, z with Some x, Some z => f x z | _, _ => None end) (g y)) l) a).
    - apply flat_map_perm_ext. intros x _. rewrite flat_map_map_out. reflexivity.
    - apply flat_map_swap.
  Qed.
  Lemma both_none_left : forall a b, (forall x, In x a -> x = None) -> forall x, In x (both f a b) -> x = None.
  Proof.
    intros a b H x Hx. unfold both in Hx. apply in_flat_map in Hx. destruct Hx as [y [Hy Hx]]. apply in_map_iff in Hx. destruct Hx as [z [<- _]].
    now rewrite (H y Hy).
  Qed.
  Lemma both_none_right : forall a b, (forall x, In x b -> x = None) -> forall x, In x (both f a b) -> x = None.
  Proof.
    intros a b H x Hx. unfold both in Hx. apply in_flat_map in Hx. destruct Hx as [y [Hy Hx]]. apply in_map_iff in Hx. destruct Hx as [z [<- Hz]].
    rewrite (H z Hz). now destruct y.
  Qed.
End Both.

Lemma count_app' : forall x a b, count x (a ++ b) = 1 -> (count x a = 1 /\ ~ In x b) \/ (~ In x a /\ count x b = 1).
Proof.
  intros x a b H. rewrite count_app in H. assert (A := count_nonneg x a). assert (B := count_nonneg x b).
  destruct (Z.eq_dec (count x a) 0) as [E|E].
  - right. split; [now apply count_zero | lia].
  - left. split; [lia|]. apply count_zero. lia.
Qed.

Lemma put_unread : forall x e f, ~ In x (reads f) -> put x e f = f.
Proof.
  intros x e f. induction f; intros H; cbn [put reads] in *; auto; try (now rewrite IHf);
    try (rewrite IHf1, IHf2; auto; intros K; apply H; apply in_or_app; auto).
  match goal with |- context [text_eqb ?m x] => destruct (text_eqb m x) eqn:E end; auto. apply text_eqb_eq in E. subst. exfalso. apply H. now left.
Qed.

Lemma upd_agree : forall env x y l, ~ In x l -> forall n, In n l -> env n = upd env x y n.
Proof. intros env x y l H n Hn. unfold upd. destruct (text_eqb n x) eqn:E; auto. apply text_eqb_eq in E. subst. contradiction. Qed.

Lemma rolled_agree : forall e env env', (forall n, In n (reads e) -> env n = env' n) -> rolled env e = rolled env' e.
Proof.
  induction e; intros env env' H; cbn [rolled reads] in *; auto;
    try (now rewrite (IHe env env'));
    try (now rewrite (IHe1 env env'), (IHe2 env env') by (intros; apply H; apply in_or_app; auto)).
  now rewrite H by (left; auto).
Qed.

Ltac put_binary J ag IH1 IH2 H :=
  apply count_app' in H; destruct H as [[H1 H2]|[H1 H2]];
  [ rewrite (put_unread _ _ _ H2); rewrite (both_perm _ _ _ _ _ (IH1 H1) (Permutation_refl _)), both_left;
    apply flat_map_perm_ext; intros y _; apply both_perm; [reflexivity|]; rewrite (ag _ _ _ (upd_agree _ _ y _ H2)); reflexivity
  | rewrite (put_unread _ _ _ H1); rewrite (both_perm _ _ _ _ _ (Permutation_refl _) (IH2 H2)), both_right;
    apply flat_map_perm_ext; intros y _; apply both_perm; [|reflexivity]; rewrite (ag _ _ _ (upd_agree _ _ y _ H1)); reflexivity ].

Lemma put_joint : forall sides env x e f, times_read x f = 1 ->
  Permutation (joint sides env (put x e f)) (flat_map (fun y => joint sides (upd env x y) f) (joint sides env e)).
Proof.
  intros sides env x e. change (forall f, count x (reads f) = 1 ->
    Permutation (joint sides env (put x e f)) (flat_map (fun y => joint sides (upd env x y) f) (joint sides env e))).
  induction f; intros H; cbn [put joint reads] in *;
    try (apply IHf; exact H); try discriminate H;
    try (rewrite (Permutation_map _ (IHf H)), flat_map_map_out; reflexivity);
    try (put_binary joint (joint_agree sides) IHf1 IHf2 H).
  rewrite count_cons in H. change (count x []) with 0 in H. destruct (text_eqb x name) eqn:E; [|lia]. rewrite text_eqb_sym in E. rewrite E.
  cbn [joint]. unfold upd. rewrite E, flat_map_single, map_id. reflexivity.
Qed.

Lemma put_rolled : forall env x e f, times_read x f = 1 ->
  Permutation (rolled env (put x e f)) (flat_map (fun y => rolled (upd env x y) f) (rolled env e)).
Proof.
  intros env x e. change (forall f, count x (reads f) = 1 ->
    Permutation (rolled env (put x e f)) (flat_map (fun y => rolled (upd env x y) f) (rolled env e))).
  induction f; intros H; cbn [put rolled reads] in *;
    try (apply IHf; exact H); try discriminate H;
    try (rewrite (Permutation_map _ (IHf H)), flat_map_map_out; reflexivity);
    try (put_binary rolled rolled_agree IHf1 IHf2 H).
  rewrite count_cons in H. change (count x []) with 0 in H. destruct (text_eqb x name) eqn:E; [|lia]. rewrite text_eqb_sym in E. rewrite E.
  cbn [rolled]. unfold upd. rewrite E, flat_map_single, map_id. reflexivity.
Qed.

Lemma map_none : forall (g : Z -> Z) l, (forall y : option Z, In y l -> y = None) -> forall y, In y (map (option_map g) l) -> y = None.
Proof. intros g l H y Hy. apply in_map_iff in Hy. destruct Hy as [z [<- Hz]]. now rewrite (H z Hz). Qed.

Lemma joint_none : forall sides env x f, In x (reads f) -> env x = None -> forall y, In y (joint sides env f) -> y = None.
Proof.
  intros sides env x f. induction f; intros H E; cbn [joint reads] in *; auto; try contradiction;
    try (apply map_none; now apply IHf);
    try (apply in_app_or in H; destruct H as [H|H]; [apply both_none_left; now apply IHf1 | apply both_none_right; now apply IHf2]).
  destruct H as [->|[]]. intros y [<-|[]]. exact E.
Qed.
Lemma rolled_none : forall env x f, In x (reads f) -> env x = None -> forall y, In y (rolled env f) -> y = None.
Proof.
  intros env x f. induction f; intros H E; cbn [rolled reads] in *; auto; try contradiction;
    try (apply map_none; now apply IHf);
    try (apply in_app_or in H; destruct H as [H|H]; [apply both_none_left; now apply IHf1 | apply both_none_right; now apply IHf2]).
  destruct H as [->|[]]. intros y [<-|[]]. exact E.
Qed.

Lemma count_in : forall x l, count x l = 1 -> In x l.
Proof. intros x l H. destruct (in_dec text_eq_dec x l) as [K|K]; auto. apply count_zero in K. lia. Qed.

Lemma count_nil : forall x, count x [] = 0.
Proof. reflexivity. Qed.
Lemma count_put : forall x e f m, count m (reads (put x e f)) =
  count x (reads f) * count m (reads e) + (if text_eqb m x then 0 else count m (reads f)).
Proof.
  intros x e f m. induction f; cbn [put reads]; auto;
    try (unfold count; cbn [filter length]; destruct (text_eqb m x); lia);
    try (rewrite !count_app, IHf1, IHf2; destruct (text_eqb m x); lia).
  destruct (text_eqb name x) eqn:E; cbn [reads].
  - apply text_eqb_eq in E. subst name. rewrite !count_cons. rewrite ?count_nil. rewrite text_eqb_refl.
    destruct (text_eqb m x); lia.
  - rewrite !count_cons, (text_eqb_sym x name), E. rewrite ?count_nil. destruct (text_eqb m x) eqn:F; [|lia].
    apply text_eqb_eq in F. subst. rewrite text_eqb_sym, E. lia.
Qed.

(** ** Programs: the results of all lines *)
Section Results.
  Context (J : (text -> option Z) -> expr -> list (option Z)) (P : (text -> option Z) -> program -> list (option Z)) (fine : expr -> Prop).
  Context (J_agree : forall e env env', (forall n, In n (reads e) -> env n = env' n) -> J env e = J env' e).
  Context (J_none : forall env x f, In x (reads f) -> env x = None -> forall y, In y (J env f) -> y = None).
  Context (J_put : forall env x e f, times_read x f = 1 -> Permutation (J env (put x e f)) (flat_map (fun y => J (upd env x y) f) (J env e))).
  Context (J_some : forall env f, fine f -> J env f <> []).
  Context (P_nil : forall env, P env [] = []).
  Context (P_one : forall env n f, P env [(n, f)] = J env f).
  Context (P_cons : forall env n f l p, P env ((n, f) :: l :: p) =
    flat_map (fun z => match z with Some z => P (bind_value env n z) (l :: p) | None => [None] end) (J env f)).

  Definition tail (env : text -> option Z) (n : option text) (rest : program) (z : option Z) : list (option Z) :=
    match z with None => [None] | Some z => match rest with [] => [Some z] | _ => P (bind_value env n z) rest end end.

  Lemma P_tail : forall env n f rest, P env ((n, f) :: rest) = flat_map (tail env n rest) (J env f).
  Proof.
    intros env n f [|l rest].
    - rewrite P_one. rewrite <- (map_id (J env f)) at 1. rewrite <- flat_map_single. apply flat_map_ext_in. intros [z|] _; reflexivity.
    - rewrite P_cons. apply flat_map_ext_in. intros [z|] _; reflexivity.
  Qed.

  Lemma P_unread : forall x p env env', not_read x p -> (forall m, m <> x -> env m = env' m) -> P env p = P env' p.
  Proof.
    intros x. induction p as [|[n f] p IH]; intros env env' H E; [now rewrite !P_nil|]. destruct H as [H1 H2].
    rewrite !P_tail. rewrite (J_agree f env env') by (intros m Hm; apply E; intros ->; contradiction).
    apply flat_map_ext_in. intros [z|] _; [|reflexivity]. cbn [tail]. destruct p as [|l p]; [reflexivity|]. destruct H2 as [->|H2].
    - clear IH. revert env env' E. cbn [bind_value].
      assert (G : forall q env env', (forall m, env m = env' m) -> P env q = P env' q).
      { induction q as [|[n' f'] q IHq]; intros env env' E; [now rewrite !P_nil|]. rewrite !P_tail. rewrite (J_agree f' env env') by auto.
        apply flat_map_ext_in. intros [z'|] _; [|reflexivity]. cbn [tail]. destruct q; [reflexivity|]. apply IHq.
        intros m. destruct n' as [k|]; cbn [bind_value]; auto. destruct (text_eqb m k); auto. }
      intros env env' E. apply G. intros m. destruct (text_eqb m x) eqn:F; auto. apply E. now apply text_eqb_neq.
    - apply IH; auto. intros m Hm. destruct n as [k|]; cbn [bind_value]; auto. destruct (text_eqb m k); auto.
  Qed.

  Lemma tail_unread : forall env x y n rest, n = Some x \/ not_read x rest -> forall z, tail (upd env x y) n rest z = tail env n rest z.
  Proof.
    intros env x y n rest H [z|]; [|reflexivity]. cbn [tail]. destruct rest as [|l rest]; [reflexivity|]. set (q := l :: rest) in *.
    destruct H as [->|H].
    - assert (G : forall p env env', (forall m, env m = env' m) -> P env p = P env' p).
      { induction p as [|[n' f'] p IHp]; intros env0 env' E; [now rewrite !P_nil|]. rewrite !P_tail. rewrite (J_agree f' env0 env') by auto.
        apply flat_map_ext_in. intros [z'|] _; [|reflexivity]. cbn [tail]. destruct p; [reflexivity|]. apply IHp.
        intros m. destruct n' as [k|]; cbn [bind_value]; auto. destruct (text_eqb m k); auto. }
      apply G. intros m. cbn [bind_value]. unfold upd. destruct (text_eqb m x); reflexivity.
    - apply (P_unread x); auto. intros m Hm. apply text_eqb_neq in Hm. destruct n as [k|]; cbn [bind_value]; unfold upd; rewrite Hm; reflexivity.
  Qed.

  Section Put.
    Context (x : text) (e : expr) (n : option text) (f : expr) (rest : program).
    Context (Once : times_read x f = 1) (Dead : n = Some x \/ not_read x rest).
    Notation long := ((Some x, e) :: (n, f) :: rest).
    Notation short := ((n, put x e f) :: rest).

    Lemma short_results : forall env, Permutation (P env short) (flat_map (fun y => flat_map (tail env n rest) (J (upd env x y) f)) (J env e)).
    Proof. intros env. rewrite P_tail, (Permutation_flat_map _ (J_put env x e f Once)), flat_map_nested. reflexivity. Qed.
    Lemma long_results : forall env, P env long =
      flat_map (fun y => match y with Some _ => flat_map (tail env n rest) (J (upd env x y) f) | None => [None] end) (J env e).
    Proof.
      intros env. rewrite P_cons. apply flat_map_ext_in. intros [y|] _; [|reflexivity].
      change (bind_value env (Some x) y) with (upd env x (Some y)). rewrite P_tail. apply flat_map_ext_in. intros z _. now apply tail_unread.
    Qed.
    Lemma none_results : forall env y, In y (flat_map (tail env n rest) (J (upd env x None) f)) -> y = None.
    Proof.
      intros env y Hy. apply in_flat_map in Hy. destruct Hy as [z [Hz Hy]].
      assert (z = None) by (apply (J_none (upd env x None) x f); [exact (count_in _ _ Once) | unfold upd; now rewrite text_eqb_refl | exact Hz]).
      subst z. destruct Hy as [<-|[]]. reflexivity.
    Qed.
    Lemma put_occurrences : forall env v, occurrences v (P env long) = occurrences v (P env short).
    Proof.
      intros env v. rewrite long_results.
      transitivity (occurrences v (flat_map (fun y => flat_map (tail env n rest) (J (upd env x y) f)) (J env e))).
      - rewrite !occurrences_flat_map. apply lsum_ext. intros [y|] _; [reflexivity|]. symmetry. apply occurrences_none.
        intros K. apply none_results in K. discriminate.
      - unfold occurrences. f_equal. apply filter_perm_length. symmetry. apply short_results.
    Qed.
    Lemma put_none : fine f -> forall env, In None (P env long) <-> In None (P env short).
    Proof.
      intros Ff env. rewrite long_results. rewrite (Permutation_in' (eq_refl None) (short_results env)). rewrite !in_flat_map.
      split; intros [[y|] [Hy H]]; try (now exists (Some y)); exists None; split; auto.
      - assert (N := J_some (upd env x None) f Ff). destruct (J (upd env x None) f) as [|z l] eqn:E; [congruence|].
        assert (z = None) by (apply (J_none (upd env x None) x f); [exact (count_in _ _ Once) | unfold upd; now rewrite text_eqb_refl | rewrite E; now left]).
        subst z. now left.
      - now left.
    Qed.

    Lemma long_nonempty : forall before, before ++ long <> [] /\ before ++ short <> [].
    Proof. intros [|b before]; split; discriminate. Qed.
    Lemma put_occurrences_after : forall before env v, occurrences v (P env (before ++ long)) = occurrences v (P env (before ++ short)).
    Proof.
      induction before as [|[n' f'] before IH]; intros env v; [apply put_occurrences|]. cbn [app]. rewrite !P_tail, !occurrences_flat_map.
      apply lsum_ext. intros [z|] _; [|reflexivity]. cbn [tail]. destruct (long_nonempty before) as [N1 N2].
      destruct (before ++ long) eqn:E1; [congruence|]. destruct (before ++ short) eqn:E2; [congruence|]. apply IH.
    Qed.
    Lemma put_none_after : fine f -> forall before env, In None (P env (before ++ long)) <-> In None (P env (before ++ short)).
    Proof.
      intros Ff. induction before as [|[n' f'] before IH]; intros env; [now apply put_none|]. cbn [app]. rewrite !P_tail, !in_flat_map.
      destruct (long_nonempty before) as [N1 N2].
      split; intros [[z|] [Hz H]]; try (exists None; split; auto; fail); exists (Some z); split; auto; cbn [tail] in *;
        destruct (before ++ long) eqn:E1; try congruence; destruct (before ++ short) eqn:E2; try congruence; now apply IH.
    Qed.
    (** without a division by zero the results are the same, in another order *)
    Lemma put_perm : forall env, ~ In None (P env long) -> fine f -> Permutation (P env long) (P env short).
    Proof.
      intros env N Ff. rewrite long_results in *. rewrite short_results. apply flat_map_perm_ext. intros [y|] Hy; [reflexivity|].
      exfalso. apply N. apply in_flat_map. exists None. split; auto. now left.
    Qed.
    Lemma put_perm_after : fine f -> forall before env, ~ In None (P env (before ++ long)) -> Permutation (P env (before ++ long)) (P env (before ++ short)).
    Proof.
      intros Ff. induction before as [|[n' f'] before IH]; intros env N; [now apply put_perm|]. cbn [app] in *. rewrite !P_tail in *.
      apply flat_map_perm_ext. intros [z|] Hz; [|reflexivity]. cbn [tail]. destruct (long_nonempty before) as [N1 N2].
      assert (K : ~ In None (P (bind_value env n' z) (before ++ long))).
      { intros K. apply N. apply in_flat_map. exists (Some z). split; auto. cbn [tail]. destruct (before ++ long); [congruence | exact K]. }
      destruct (before ++ long) eqn:E1; [congruence|]. destruct (before ++ short) eqn:E2; [congruence|]. apply IH. exact K.
    Qed.
  End Put.
End Results.
