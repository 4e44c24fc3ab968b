(** * ExchangeProofs: C67 *)
From Coq Require Import QArith Qabs Permutation.
From Verif Require Import Py PyFacts PyFloat Constraint Distribution DistFacts DiceModel Expr Parser Interp SpecDice DiceFacts DiceProofs SpecProgram SpecRoll
  SpecInterp SpecAlgebra SpecInline AlgebraFacts ExprFacts ProgramFacts JointFacts RaiseFacts WfFacts InterpRun RollFacts InlineFacts InlineProofs ProgramProofs RollProofs
  ExtFacts ExtProofs SpecExtreme ExtremeFacts Checks SpecProb ProbProofs CostProofs SpecExchange SpecAlgebra.
Local Open Scope Z_scope.

(** ** Lists of results in which every value has the same share *)
Definition scaled (k k' : Z) (l l' : list (option Z)) : Prop := forall F : option Z -> Z, k * lsum F l = k' * lsum F l'.
Definition members (l l' : list (option Z)) : Prop := forall x, In x l <-> In x l'.

Lemma scaled_refl : forall l, scaled 1 1 l l.
Proof. intros l F. reflexivity. Qed.
Lemma scaled_map : forall k k' g l l', scaled k k' l l' -> scaled k k' (map g l) (map g l').
Proof. intros k k' g l l' H F. rewrite !lsum_map. apply H. Qed.
Lemma scaled_flat : forall k k' h h' (f f' : option Z -> list (option Z)) l l', (forall x, scaled h h' (f x) (f' x)) -> scaled k k' l l' ->
  scaled (k * h) (k' * h') (flat_map f l) (flat_map f' l').
Proof.
  intros k k' h h' f f' l l' Hf Hl F. rewrite !lsum_flat_map.
  assert (E : h * lsum (fun x => lsum F (f x)) l = h' * lsum (fun x => lsum F (f' x)) l) by (rewrite <- !lsum_scale; apply lsum_ext; intros x _; apply Hf).
  specialize (Hl (fun x => lsum F (f' x))).
  rewrite <- Z.mul_assoc, E. transitivity (h' * (k * lsum (fun x => lsum F (f' x)) l)); [ring|]. rewrite Hl. ring.
Qed.
Lemma scaled_both : forall k k' h h' f a a' b b', scaled k k' a a' -> scaled h h' b b' -> scaled (k * h) (k' * h') (both f a b) (both f a' b').
Proof. intros k k' h h' f a a' b b' Ha Hb. unfold both. apply scaled_flat; auto. intros x. now apply scaled_map. Qed.
Lemma members_map : forall (g : option Z -> option Z) l l', members l l' -> members (map g l) (map g l').
Proof. intros g l l' H x. rewrite !in_map_iff. split; intros [y [E I]]; exists y; split; auto; now apply H. Qed.
Lemma members_both : forall f a a' b b', members a a' -> members b b' -> members (both f a b) (both f a' b').
Proof.
  intros f a a' b b' Ha Hb x. unfold both. rewrite !in_flat_map.
  split; intros [y [I1 I2]]; exists y; (split; [now apply Ha|]); revert I2; apply members_map; intros z; (apply Hb || (symmetry; apply Hb)).
Qed.
Lemma members_flat : forall (f f' : option Z -> list (option Z)) l l', (forall x, members (f x) (f' x)) -> members l l' -> members (flat_map f l) (flat_map f' l').
Proof. intros f f' l l' Hf Hl x. rewrite !in_flat_map. split; intros [y [I1 I2]]; exists y; (split; [now apply Hl | now apply Hf]). Qed.
Lemma lsum_occurrences : forall v l, lsum (fun x => match x with Some x => if x =? v then 1 else 0 | None => 0 end) l = occurrences v l.
Proof.
  intros v l. unfold occurrences. induction l as [|[x|] l IH]; [reflexivity| |]; rewrite lsum_cons, IH; cbn [filter]; [destruct (x =? v); cbn [length]; lia | lia].
Qed.
Lemma scaled_occurrences : forall k k' l l' v, scaled k k' l l' -> k * occurrences v l = k' * occurrences v l'.
Proof. intros k k' l l' v H. rewrite <- !lsum_occurrences. apply H. Qed.
Lemma howmany_out : forall x l, ~ In x l -> howmany x l = 0.
Proof.
  intros x l H. unfold howmany. induction l as [|y l IH]; [reflexivity|]. cbn [filter]. destruct (oz_dec y x) as [->|_]; [exfalso; apply H; left; auto|].
  apply IH. intros C. apply H. now right.
Qed.
Lemma counted_scaled : forall k k' l l', ~ In None l -> ~ In None l' -> (forall v, k * occurrences v l = k' * occurrences v l') -> scaled k k' l l'.
Proof.
  intros k k' l l' N N' H F.
  rewrite (lsum_grouped F l (nodup oz_dec (l ++ l'))) by (try apply NoDup_nodup; intros x I; apply nodup_In, in_or_app; auto).
  rewrite (lsum_grouped F l' (nodup oz_dec (l ++ l'))) by (try apply NoDup_nodup; intros x I; apply nodup_In, in_or_app; auto).
  rewrite <- !lsum_scale. apply lsum_ext. intros [x|] _; [rewrite !howmany_some, !Z.mul_assoc; now rewrite H|]. rewrite !howmany_out by assumption. ring.
Qed.

(** ** Expressions *)
Section Expressions.
  Context (same : expr -> expr -> Prop).

  Lemma exchanged_scaled : forall (J : (text -> option Z) -> expr -> list (option Z)),
    (forall e e', same e e' -> exists k k', 0 < k /\ 0 < k' /\ forall env, scaled k k' (J env e) (J env e')) ->
    (forall env e, J env (EParen e) = J env e) ->
    (exists g, forall env e, J env (ENot e) = map (option_map g) (J env e)) -> (exists g, forall env e, J env (EAbs e) = map (option_map g) (J env e)) ->
    (forall c, In c [EAdd; ESub; EMul; EDiv] \/ (exists op, c = EBin op) \/ (exists mm, c = EMinMax mm) -> exists f, forall env a b, J env (c a b) = both f (J env a) (J env b)) ->
    forall e e', exchanged same e e' -> exists k k', 0 < k /\ 0 < k' /\ forall env, scaled k k' (J env e) (J env e').
  Proof.
    intros J Hs Hp [gn Hn] [ga Ha] Hb e e' H.
    assert (B : forall c a a' b b', In c [EAdd; ESub; EMul; EDiv] \/ (exists op, c = EBin op) \/ (exists mm, c = EMinMax mm) ->
      (exists k k', 0 < k /\ 0 < k' /\ forall env, scaled k k' (J env a) (J env a')) -> (exists k k', 0 < k /\ 0 < k' /\ forall env, scaled k k' (J env b) (J env b')) ->
      exists k k', 0 < k /\ 0 < k' /\ forall env, scaled k k' (J env (c a b)) (J env (c a' b'))).
    { intros c a a' b b' C [k [k' [K [K' A]]]] [h [h' [N [N' B]]]]. destruct (Hb c C) as [f F]. exists (k * h), (k' * h').
      split; [lia|]. split; [lia|]. intros env. rewrite !F. now apply scaled_both. }
    induction H.
    - now apply Hs.
    - exists 1, 1. split; [lia|]. split; [lia|]. intros env. apply scaled_refl.
    - destruct IHexchanged as [k [k' [K [K' A]]]]. exists k, k'. split; [lia|]. split; [lia|]. intros env. rewrite !Hp. apply A.
    - destruct IHexchanged as [k [k' [K [K' A]]]]. exists k, k'. split; [lia|]. split; [lia|]. intros env. rewrite !Hn. now apply scaled_map.
    - destruct IHexchanged as [k [k' [K [K' A]]]]. exists k, k'. split; [lia|]. split; [lia|]. intros env. rewrite !Ha. now apply scaled_map.
    - apply B; auto. left. cbn; auto.
    - apply B; auto. left. cbn; auto.
    - apply B; auto. left. cbn; auto.
    - apply B; auto. left. cbn; auto 6.
    - apply B; eauto.
    - apply B; eauto.
  Qed.

  Lemma exchanged_members : forall (J : (text -> option Z) -> expr -> list (option Z)),
    (forall e e', same e e' -> forall env, members (J env e) (J env e')) ->
    (forall env e, J env (EParen e) = J env e) ->
    (exists g, forall env e, J env (ENot e) = map (option_map g) (J env e)) -> (exists g, forall env e, J env (EAbs e) = map (option_map g) (J env e)) ->
    (forall c, In c [EAdd; ESub; EMul; EDiv] \/ (exists op, c = EBin op) \/ (exists mm, c = EMinMax mm) -> exists f, forall env a b, J env (c a b) = both f (J env a) (J env b)) ->
    forall e e', exchanged same e e' -> forall env, members (J env e) (J env e').
  Proof.
    intros J Hs Hp [gn Hn] [ga Ha] Hb e e' H env.
    assert (B : forall c a a' b b', In c [EAdd; ESub; EMul; EDiv] \/ (exists op, c = EBin op) \/ (exists mm, c = EMinMax mm) ->
      members (J env a) (J env a') -> members (J env b) (J env b') -> members (J env (c a b)) (J env (c a' b'))).
    { intros c a a' b b' C A B. destruct (Hb c C) as [f F]. rewrite !F. now apply members_both. }
    induction H.
    - now apply Hs.
    - intros x. reflexivity.
    - rewrite !Hp. apply IHexchanged.
    - rewrite !Hn. now apply members_map.
    - rewrite !Ha. now apply members_map.
    - apply B; auto. left. cbn; auto.
    - apply B; auto. left. cbn; auto.
    - apply B; auto. left. cbn; auto.
    - apply B; auto. left. cbn; auto 6.
    - apply B; eauto.
    - apply B; eauto.
  Qed.

  Lemma exchanged_reads : (forall e e', same e e' -> reads e = reads e') -> forall e e', exchanged same e e' -> reads e = reads e'.
  Proof. intros Hs e e' H. induction H; cbn [reads]; auto; congruence. Qed.
  Lemma exchanged_dice : forall P : list (Z * Z) -> Prop, (forall e e', same e e' -> (forall m, In m (dice_of e') -> P m)) -> forall e e', exchanged same e e' -> (forall m, In m (dice_of e) -> P m) -> forall m, In m (dice_of e') -> P m.
  Proof.
    intros P Hs e e' H. induction H; cbn [dice_of]; auto; [intros _; now apply (Hs e e')|..];
      intros A m I; (apply in_app_or in I; destruct I as [I|I]; [revert m I; apply IHexchanged1 | revert m I; apply IHexchanged2]; intros x X; apply A, in_or_app; auto).
  Qed.
  Lemma exchanged_simple : (forall e e', same e e' -> simple e') -> forall e e', exchanged same e e' -> simple e -> simple e'.
  Proof. intros Hs e e' H. induction H; cbn [simple]; try tauto. intros _. now apply (Hs e e'). Qed.
  Lemma exchanged_wf : (forall e e', same e e' -> well_formed e' /\ no_assignment e') -> forall e e', exchanged same e e' -> well_formed e -> no_assignment e -> well_formed e' /\ no_assignment e'.
  Proof. intros Hs e e' H. induction H; cbn [well_formed no_assignment]; try tauto. intros _ _. now apply (Hs e e'). Qed.
End Expressions.

Lemma joint_shape : forall sides c, In c [EAdd; ESub; EMul; EDiv] \/ (exists op, c = EBin op) \/ (exists mm, c = EMinMax mm) ->
  exists f, forall env a b, joint sides env (c a b) = both f (joint sides env a) (joint sides env b).
Proof. intros sides c [[<-|[<-|[<-|[<-|[]]]]]|[[op ->]|[mm ->]]]; eexists; intros; reflexivity. Qed.
Lemma rolled_shape : forall c, In c [EAdd; ESub; EMul; EDiv] \/ (exists op, c = EBin op) \/ (exists mm, c = EMinMax mm) ->
  exists f, forall env a b, rolled env (c a b) = both f (rolled env a) (rolled env b).
Proof. intros c [[<-|[<-|[<-|[<-|[]]]]]|[[op ->]|[mm ->]]]; eexists; intros; reflexivity. Qed.

(** ** Programs: a result without a value counts once, however many dice are left *)
Definition vscaled (k k' : Z) (l l' : list (option Z)) : Prop := forall F : option Z -> Z, F None = 0 -> k * lsum F l = k' * lsum F l'.

Lemma vscaled_flat : forall k k' h h' (f f' : option Z -> list (option Z)) l l', (forall x, vscaled h h' (f x) (f' x)) -> scaled k k' l l' ->
  vscaled (k * h) (k' * h') (flat_map f l) (flat_map f' l').
Proof.
  intros k k' h h' f f' l l' Hf Hl F F0. rewrite !lsum_flat_map.
  assert (E : h * lsum (fun x => lsum F (f x)) l = h' * lsum (fun x => lsum F (f' x)) l) by (rewrite <- !lsum_scale; apply lsum_ext; intros x _; now apply Hf).
  specialize (Hl (fun x => lsum F (f' x))).
  rewrite <- Z.mul_assoc, E. transitivity (h' * (k * lsum (fun x => lsum F (f' x)) l)); [ring|]. rewrite Hl. ring.
Qed.
Lemma vscaled_occurrences : forall k k' l l' v, vscaled k k' l l' -> k * occurrences v l = k' * occurrences v l'.
Proof. intros k k' l l' v H. rewrite <- !lsum_occurrences. now apply H. Qed.
Lemma vscaled_length : forall k k' l l', vscaled k k' l l' -> ~ In None l -> ~ In None l' -> k * Z.of_nat (length l) = k' * Z.of_nat (length l').
Proof.
  intros k k' l l' H N N'. assert (E : forall l : list (option Z), ~ In None l -> lsum (fun x => match x with Some _ => 1 | None => 0 end) l = Z.of_nat (length l)).
  { clear. induction l as [|[x|] l IH]; intros N; [reflexivity | rewrite lsum_cons, IH by (intros C; apply N; now right); cbn [length]; lia | exfalso; apply N; now left]. }
  rewrite <- (E l N), <- (E l' N'). now apply H.
Qed.

Section Programs.
  Context (same : expr -> expr -> Prop).

  Lemma exchanged_program_scaled : forall (J : (text -> option Z) -> expr -> list (option Z)) (P : (text -> option Z) -> program -> list (option Z)),
    (forall env, P env [] = []) -> (forall env n e, P env [(n, e)] = J env e) ->
    (forall env n e l p, P env ((n, e) :: l :: p) = flat_map (fun x => match x with Some x => P (bind_value env n x) (l :: p) | None => [None] end) (J env e)) ->
    (forall e e', exchanged same e e' -> exists k k', 0 < k /\ 0 < k' /\ forall env, scaled k k' (J env e) (J env e')) ->
    forall p q, exchanged_program same p q -> exists k k', 0 < k /\ 0 < k' /\ forall env, vscaled k k' (P env p) (P env q).
  Proof.
    intros J P P0 P1 P2 HJ p q H. induction H as [|[n e] [n' e'] p q [En He] HF IH].
    - exists 1, 1. split; [lia|]. split; [lia|]. intros env F _. now rewrite P0.
    - cbn [fst snd] in *. subst n'. destruct (HJ e e' He) as [k [k' [K [K' A]]]]. destruct IH as [h [h' [N [N' B]]]].
      inversion HF as [|l l' p1 q1 Hl Hp]; subst.
      + exists k, k'. split; [lia|]. split; [lia|]. intros env F _. rewrite !P1. apply A.
      + exists (k * h), (k' * h'). split; [nia|]. split; [nia|]. intros env. rewrite !P2. apply vscaled_flat; auto.
        intros [x|]; [apply B|]. intros F F0. rewrite !lsum_cons, !lsum_nil, F0. lia.
  Qed.

  Lemma exchanged_program_members : forall (J : (text -> option Z) -> expr -> list (option Z)) (P : (text -> option Z) -> program -> list (option Z)),
    (forall env, P env [] = []) -> (forall env n e, P env [(n, e)] = J env e) ->
    (forall env n e l p, P env ((n, e) :: l :: p) = flat_map (fun x => match x with Some x => P (bind_value env n x) (l :: p) | None => [None] end) (J env e)) ->
    (forall e e', exchanged same e e' -> forall env, members (J env e) (J env e')) ->
    forall p q, exchanged_program same p q -> forall env, members (P env p) (P env q).
  Proof.
    intros J P P0 P1 P2 HJ p q H. induction H as [|[n e] [n' e'] p q [En He] HF IH]; intros env.
    - intros x. now rewrite P0.
    - cbn [fst snd] in *. subst n'. inversion HF as [|l l' p1 q1 Hl Hp]; subst.
      + rewrite !P1. now apply HJ.
      + rewrite !P2. apply members_flat; [|now apply HJ]. intros [x|]; [apply IH | intros x; reflexivity].
  Qed.

  Context (R0 : forall e e', same e e' -> reads e = reads e').
  Lemma exchanged_uses : forall p q, exchanged_program same p q -> forall n, uses n p = uses n q.
  Proof.
    intros p q H. induction H as [|[m e] [m' e'] p q [En He] HF IH]; intros n; [reflexivity|]. cbn [fst snd] in *. subst m'.
    assert (T : forall n, times_read n e = times_read n e') by (intros x; unfold times_read; now rewrite (exchanged_reads same R0 e e' He)).
    inversion HF as [|l l' p1 q1 Hl Hp]; subst.
    - destruct m; apply T.
    - destruct m as [m|].
      + change (times_read n e * uses m (l :: p1) + (if text_eqb n m then 0 else uses n (l :: p1)) = times_read n e' * uses m (l' :: q1) + (if text_eqb n m then 0 else uses n (l' :: q1))).
        now rewrite T, !IH.
      + change (uses n (l :: p1) = uses n (l' :: q1)). apply IH.
  Qed.

  Lemma uses_nonneg : forall n p, 0 <= uses n p.
  Proof. intros n p. rewrite uses_ulist. apply count_nonneg. Qed.

  Lemma exchanged_weighted : (forall e e', exchanged same e e' -> exists k k', 0 < k /\ 0 < k' /\ forall env, scaled k k' (joint faces env e) (joint faces env e')) ->
    forall p q, exchanged_program same p q -> exists k k', 0 < k /\ 0 < k' /\ forall env v, k * weighted faces env p v = k' * weighted faces env q v.
  Proof.
    intros HJ p q H. induction H as [|[n e] [n' e'] p q [En He] HF IH].
    - exists 1, 1. split; [lia|]. split; [lia|]. reflexivity.
    - cbn [fst snd] in *. subst n'. destruct (HJ e e' He) as [k [k' [K [K' A]]]]. destruct IH as [h [h' [N [N' B]]]]. assert (U := exchanged_uses p q HF).
      inversion HF as [|l l' p1 q1 Hl Hp]; subst.
      + exists k, k'. split; [lia|]. split; [lia|]. intros env v. destruct n; cbn [weighted]; apply scaled_occurrences, A.
      + destruct n as [n|]; [|exists h, h'; split; [lia|]; split; [lia|]; intros env v; exact (B env v)].
        specialize (U n). destruct (uses n (l :: p1) =? 0) eqn:Z0.
        * exists h, h'. split; [lia|]. split; [lia|]. intros env v. rewrite !weighted_some, <- U, Z0. apply B.
        * assert (P0 : 0 < uses n (l :: p1)) by (pose proof (uses_nonneg n (l :: p1)); apply Z.eqb_neq in Z0; lia).
          set (u := uses n (l :: p1)) in *. exists (k ^ u * h), (k' ^ u * h').
          assert (0 < k ^ u) by (apply Z.pow_pos_nonneg; lia). assert (0 < k' ^ u) by (apply Z.pow_pos_nonneg; lia). split; [lia|]. split; [lia|].
          intros env v. rewrite !weighted_some. fold u. rewrite <- U, Z0.
          assert (S : forall l0 rest, (forall x, In x l0 -> In x rest) -> forall W : Z -> Z,
            lsum (fo (fun x => occurrences x l0 ^ u * W x)) (nodup oz_dec l0) = lsum (fo (fun x => occurrences x l0 ^ u * W x)) (nodup oz_dec rest)).
          { intros l0 rest I W. apply (lsum_same_support _ oz_dec); try apply NoDup_nodup.
            - intros x X _. apply nodup_In. apply nodup_In in X. auto.
            - intros [x|] _ X; [|destruct X; reflexivity]. apply nodup_In. cbn [fo] in X. destruct (in_dec oz_dec (Some x) l0) as [|O]; auto. exfalso. apply X.
              rewrite <- howmany_some, howmany_out, Z.pow_0_l by (auto; lia). reflexivity. }
          set (a := joint faces env e) in *. set (a' := joint faces env e') in *.
          rewrite (S a (a ++ a')), (S a' (a ++ a')) by (intros; apply in_or_app; auto). rewrite <- !lsum_scale. apply lsum_ext. intros [x|] _; cbn [fo]; [|ring].
          transitivity ((k * occurrences x a) ^ u * (h * weighted faces (bind_value env (Some n) x) (l :: p1) v)); [rewrite Z.pow_mul_l; ring|].
          rewrite B. unfold a. rewrite (scaled_occurrences k k' _ _ x (A env)). fold a'. rewrite Z.pow_mul_l. ring.
  Qed.

  Lemma exchanged_used : forall sides, (forall e e', exchanged same e e' -> forall env, members (joint sides env e) (joint sides env e')) ->
    forall p q, exchanged_program same p q -> forall env, members (used_results sides env p) (used_results sides env q).
  Proof.
    intros sides HJ p q H. induction H as [|[n e] [n' e'] p q [En He] HF IH]; intros env; [intros x; reflexivity|].
    cbn [fst snd] in *. subst n'. assert (U := exchanged_uses p q HF). inversion HF as [|l l' p1 q1 Hl Hp]; subst.
    - destruct n; apply HJ; exact He.
    - destruct n as [n|]; [|exact (IH env)]. rewrite !used_results_some, <- U. destruct (uses n (l :: p1) =? 0); auto.
      apply members_flat; [|now apply HJ]. intros [x|]; [apply IH | intros x; reflexivity].
  Qed.

  Lemma exchanged_program_dice : forall P : list (Z * Z) -> Prop, (forall e e', same e e' -> forall m, In m (dice_of e') -> P m) ->
    forall p q, exchanged_program same p q -> (forall m, In m (program_dice p) -> P m) -> forall m, In m (program_dice q) -> P m.
  Proof.
    intros P Hs p q H. induction H as [|[n e] [n' e'] p q [En He] HF IH]; intros A m I; [destruct I|].
    unfold program_dice in *. cbn [flat_map snd] in *. apply in_app_or in I. destruct I as [I|I].
    - revert m I. apply (exchanged_dice same P Hs e e' He). intros x X. apply A, in_or_app. auto.
    - apply IH; auto. intros x X. apply A, in_or_app. auto.
  Qed.
  Lemma exchanged_closed : forall p q, exchanged_program same p q -> forall known, closed known p -> closed known q.
  Proof.
    intros p q H. induction H as [|[n e] [n' e'] p q [En He] HF IH]; intros known; cbn [closed]; auto. cbn [fst snd] in *. subst n'.
    rewrite (exchanged_reads same R0 e e' He). intros [A B]. split; auto.
  Qed.
  Lemma exchanged_in : forall p q, exchanged_program same p q -> forall n e', In (n, e') q -> exists e, In (n, e) p /\ exchanged same e e'.
  Proof.
    intros p q H. induction H as [|[n e] [n' e'] p q [En He] HF IH]; intros m f I; [destruct I|]. cbn [fst snd] in *. subst n'. destruct I as [I|I].
    - injection I as <- <-. exists e. split; [now left | exact He].
    - destruct (IH m f I) as [g [G1 G2]]. exists g. split; [now right | exact G2].
  Qed.
  Lemma exchanged_good : (forall e e', same e e' -> simple e') -> forall p q, exchanged_program same p q -> good_program p -> good_program q.
  Proof.
    intros S p q H [G1 [G2 G3]]. split; [|split].
    - destruct H; [contradiction | discriminate].
    - now apply (exchanged_closed p q H).
    - intros n e' I. destruct (exchanged_in p q H n e' I) as [e [I1 X]]. destruct (G3 n e I1) as [A B]. split; auto. now apply (exchanged_simple same S e e').
  Qed.
  Lemma exchanged_runnable : (forall e e', same e e' -> well_formed e' /\ no_assignment e') -> forall p q, exchanged_program same p q -> runnable p -> runnable q.
  Proof.
    intros S p q H [G1 [G2 G3]]. split; [|split].
    - destruct H; [contradiction | discriminate].
    - now apply (exchanged_closed p q H).
    - intros n e' I. destruct (exchanged_in p q H n e' I) as [e [I1 X]]. destruct (G3 n e I1) as [A [B C]]. destruct (exchanged_wf same S e e' X A B). auto.
  Qed.
End Programs.

(** ** Extremes *)
Lemma extreme_of_list : forall mx (l : list (option Z)) x, In (Some x) l -> exists v, In (Some v) l /\ forall y, In (Some y) l -> within mx y v.
Proof.
  intros mx. induction l as [|a l IH]; intros x I; [destruct I|].
  assert (D : (exists y, In (Some y) l) \/ forall y, ~ In (Some y) l).
  { clear. induction l as [|[y|] l IH]; [right; intros y []|left; exists y; now left|]. destruct IH as [[y I]|N]; [left; exists y; now right | right]. intros y [C|C]; [discriminate | now apply (N y)]. }
  destruct D as [[y Iy]|N].
  - destruct (IH y Iy) as [v [V1 V2]]. destruct a as [a|].
    + destruct mx; unfold within in *.
      * exists (Z.max a v). split; [destruct (Z.max_spec a v) as [[_ ->]|[_ ->]]; [now right | now left]|]. intros z [E|Iz]; [injection E as ->; lia | specialize (V2 z Iz); lia].
      * exists (Z.min a v). split; [destruct (Z.min_spec a v) as [[_ ->]|[_ ->]]; [now left | now right]|]. intros z [E|Iz]; [injection E as ->; lia | specialize (V2 z Iz); lia].
    + exists v. split; [now right|]. intros z [E|Iz]; [discriminate | auto].
  - destruct I as [->|I]; [|destruct (N x I)]. exists x. split; [now left|]. intros z [E|Iz]; [injection E as ->; destruct mx; unfold within; lia | destruct (N z Iz)].
Qed.
Lemma in_both : forall f a b v, In (Some v) (both f a b) <-> exists x y, In (Some x) a /\ In (Some y) b /\ f x y = Some v.
Proof.
  intros f a b v. unfold both. rewrite in_flat_map. split.
  - intros [[x|] [I1 I2]]; apply in_map_iff in I2; destruct I2 as [[y|] [E I2]]; try discriminate. exists x, y. auto.
  - intros [x [y [I1 [I2 E]]]]. exists (Some x). split; auto. apply in_map_iff. exists (Some y). auto.
Qed.
Lemma minmax_monotone : forall mm f mx x y v w, minmax_meaning mm = Some f -> within mx x v -> within mx y w -> within mx (f x y) (f v w).
Proof.
  intros mm f mx x y v w E Hx Hy. unfold minmax_meaning in E. destruct (text_eqb mm $"MAX"); [|destruct (text_eqb mm $"MIN")]; try discriminate; injection E as <-;
    destruct mx; unfold within in *; lia.
Qed.

Section Extreme.
  Context (mx : bool) (E : values -> Prop) (stored : text -> Z -> Prop).
  Definition top (l : list (option Z)) (v : Z) : Prop := In (Some v) l /\ forall y, In (Some y) l -> within mx y v.
  Lemma top_unique : forall l v w, top l v -> top l w -> v = w.
  Proof. intros l v w [A B] [C D]. specialize (B w C). specialize (D v A). destruct mx; unfold within in *; lia. Qed.
  Lemma largest_alone : forall e, reads e = [] -> forall v, largest mx E e v <-> (exists env, E env) /\ top (joint (map fst) no_values e) v.
  Proof.
    intros e N v. assert (A : forall env, joint (map fst) env e = joint (map fst) no_values e) by (intros env; apply joint_agree; rewrite N; intros n []). split.
    - intros [[env [H1 H2]] H3]. split; [eauto|]. rewrite A in H2. split; auto. intros y Hy. apply (H3 env); auto. now rewrite A.
    - intros [[env H1] [H2 H3]]. split; [exists env; now rewrite A|]. intros env' x _ Hx. rewrite A in Hx. auto.
  Qed.
  Lemma worked_alone : forall e, reads e = [] -> forall v, worked_out mx E stored e v <-> largest mx E e v.
  Proof.
    induction e; intros N v; cbn [worked_out]; try reflexivity; try discriminate; try (now apply IHe).
    cbn [reads] in N. apply app_eq_nil in N. destruct N as [N1 N2].
    rewrite (largest_alone (EMinMax _ e1 e2)) by (cbn [reads]; now rewrite N1, N2). cbn [joint]. split.
    - intros [f [x [y [Hf [W1 [W2 ->]]]]]]. rewrite (IHe1 N1), (largest_alone e1 N1) in W1. rewrite (IHe2 N2), (largest_alone e2 N2) in W2.
      destruct W1 as [Ex [A1 A2]]. destruct W2 as [_ [B1 B2]]. rewrite Hf. split; auto. split.
      + apply in_both. exists x, y. auto.
      + intros z Hz. apply in_both in Hz. destruct Hz as [x' [y' [I1 [I2 Q]]]]. cbn [meaning] in Q. injection Q as <-. apply (minmax_monotone _ f mx x' y' x y Hf); auto.
    - intros [Ex [A B]]. apply in_both in A. destruct A as [x' [y' [I1 [I2 Q]]]]. destruct (minmax_meaning _) as [f|] eqn:Hf; [|discriminate]. cbn [meaning] in Q. injection Q as <-.
      destruct (extreme_of_list mx _ x' I1) as [x [X1 X2]]. destruct (extreme_of_list mx _ y' I2) as [y [Y1 Y2]].
      exists f, x, y. split; auto. split; [rewrite (IHe1 N1), (largest_alone e1 N1); split; [auto | split; auto]|].
      split; [rewrite (IHe2 N2), (largest_alone e2 N2); split; [auto | split; auto]|].
      assert (within mx (f x y) (f x' y')) by (apply B, in_both; exists x, y; auto).
      assert (within mx (f x' y') (f x y)) by (apply (minmax_monotone _ f mx x' y' x y Hf); auto). destruct mx; unfold within in *; lia.
  Qed.

  Context (same : expr -> expr -> Prop) (Hr : forall e e', same e e' -> reads e = [] /\ reads e' = []).
  Context (Hm : forall e e', exchanged same e e' -> forall env, members (joint (map fst) env e) (joint (map fst) env e')).
  Lemma largest_members : forall e e' v, (forall env, members (joint (map fst) env e) (joint (map fst) env e')) -> largest mx E e v -> largest mx E e' v.
  Proof.
    intros e e' v M [[env [H1 H2]] H3]. split; [exists env; split; auto; now apply M|]. intros env' x Ev Hx. apply (H3 env'); auto. now apply M.
  Qed.
  Lemma exchanged_worked : forall e e', exchanged same e e' -> forall v, worked_out mx E stored e v -> worked_out mx E stored e' v.
  Proof.
    intros e e' H. assert (H0 := H). induction H; intros v; cbn [worked_out]; auto; try (apply largest_members; now apply Hm).
    - destruct (Hr e e' H) as [N N']. rewrite (worked_alone e N), (worked_alone e' N'). apply largest_members. now apply Hm.
    - intros [f [x [y [Hf [W1 [W2 ->]]]]]]. exists f, x, y. auto.
  Qed.
End Extreme.

Lemma worked_ext : forall mx E E' stored e v, (forall env, E env <-> E' env) -> worked_out mx E stored e v -> worked_out mx E' stored e v.
Proof.
  intros mx E E' stored e v HE. revert v. induction e; intros v; cbn [worked_out]; auto;
    try (intros [[env [H1 H2]] H3]; split; [exists env; split; auto; now apply HE | intros env' x0 Ev; apply H3; now apply HE]).
  intros [f [x [y [Hf [W1 [W2 ->]]]]]]. exists f, x, y. auto.
Qed.
Lemma exchanged_extreme : forall mx (same : expr -> expr -> Prop), (forall e e', same e e' -> reads e = [] /\ reads e' = []) ->
  (forall e e', exchanged same e e' -> forall env, members (joint (map fst) env e) (joint (map fst) env e')) ->
  forall p q, exchanged_program same p q -> forall E E' stored v, (forall env, E env <-> E' env) -> line_extreme mx E stored p v -> line_extreme mx E' stored q v.
Proof.
  intros mx same Hr Hm p q H. induction H as [|[n e] [n' e'] p q [En He] HF IH]; intros E E' stored v HE; [auto|].
  cbn [fst snd] in *. subst n'. inversion HF as [|l l' p1 q1 Hl Hp]; subst.
  - destruct n; cbn [line_extreme]; intros W; apply (exchanged_worked mx E' stored same Hr Hm e e' He); now apply (worked_ext mx E).
  - assert (G : (exists w, worked_out mx E stored e w /\ line_extreme mx (values_after E n e) (stored_after stored n w) (l :: p1) v) ->
                exists w, worked_out mx E' stored e' w /\ line_extreme mx (values_after E' n e') (stored_after stored n w) (l' :: q1) v); [|destruct n; exact G].
    intros [w [W1 W2]]. exists w. split; [apply (exchanged_worked mx E' stored same Hr Hm e e' He); now apply (worked_ext mx E)|].
    revert W2. apply IH. intros env'. unfold values_after. split; intros [env [x [A [B C]]]]; exists env, x; (split; [now apply HE|]); split; auto; now apply (Hm e e' He env).
Qed.

(** ** The interpreter *)
Lemma map_fst_shape : forall (J : list (Z * Z) -> list Z), (exists g, forall env e, joint J env (ENot e) = map (option_map g) (joint J env e)) /\ (exists g, forall env e, joint J env (EAbs e) = map (option_map g) (joint J env e)).
Proof. intros J. split; eexists; intros; reflexivity. Qed.

Section Interpreter.
  Context (R : Runtime).
  Notation dist := (dist R).

  Lemma listed_shares : forall (d d' : dist) k k', dinv R d -> dinv R d' -> 0 < k -> 0 < k' -> (forall v, listed R d v <-> listed R d' v) ->
    (forall v, k * reported R d v = k' * reported R d' v) -> k * total_ways R d = k' * total_ways R d' /\ same_shares R d d'.
  Proof.
    intros d d' k k' D D' K K' L H.
    assert (T : k * total_ways R d = k' * total_ways R d').
    { rewrite (total_count R d D), (total_count R d' D'), <- (reported_sum R d D), <- (reported_sum R d' D'), <- !lsum_scale.
      rewrite (lsum_ext _ (fun v => k * reported R d v) (fun v => k' * reported R d' v)) by auto.
      apply (lsum_same_support _ Z.eq_dec); try apply result_map_nodup; intros v I _; now apply L. }
    split; [exact T|]. split; [split; intros Z0; rewrite Z0 in T; nia|]. intros v. split; [apply L|]. specialize (H v).
    apply (Z.mul_reg_l _ _ (k * k')); [nia|]. transitivity ((k * reported R d v) * (k' * total_ways R d')); [ring|]. rewrite H, <- T. ring.
  Qed.

  Lemma alone_program : forall e, simple e -> reads e = [] -> good_program [(None, e)].
  Proof.
    intros e S N. split; [discriminate|]. split; [cbn [closed]; rewrite N; split; [intros m []|exact Logic.I]|]. intros n f [E|[]]. injection E as <- <-. auto.
  Qed.
  Lemma alone_text : forall t e, parse t = Ok e -> program_text [t] [(None, e)].
  Proof. intros t e H. constructor; [exact H | constructor]. Qed.

  (** what the report of a part says about it *)
  Lemma alone_joint : forall e t s d, simple e -> reads e = [] -> parse t = Ok e -> reachable R s -> reports R s [t] d -> dinv R d /\ forall env,
    ~ In None (joint (map fst) env e) /\ ~ In None (joint faces env e) /\
    (forall v, listed R d v <-> In (Some v) (joint (map fst) env e)) /\ (forall v, reported R d v = occurrences v (joint faces env e)).
  Proof.
    intros e t s d S N P Hs H. assert (G := alone_program e S N). destruct (program_run R s [t] _ d Hs (alone_text t e P) G H) as [s' [E I]].
    split; [now apply (run_dinv R true [(None, e)] s s' d)|]. intros env.
    assert (A : forall sides, joint sides env e = joint sides no_values e) by (intros sides; apply joint_agree; rewrite N; intros n []). rewrite !A.
    assert (Nn := run_none R true _ s s' d I G E). split; [exact Nn|]. split; [exact (faces_none _ Nn)|]. split.
    - intros v. exact (run_listed R true _ s s' d I G E v).
    - intros v. exact (run_reported R true _ s s' d I G E v).
  Qed.

  Lemma same_alone_members : forall e e', same_alone R e e' -> forall env, members (joint (map fst) env e) (joint (map fst) env e').
  Proof.
    intros e e' [S [S' [N [N' [_ [_ [t [t' [s [s' [d [d' [P [P' [Hs [Hs' [H [H' [_ SS]]]]]]]]]]]]]]]]]]] env.
    destruct (alone_joint e t s d S N P Hs H) as [_ A]. destruct (A env) as [A1 [_ [A2 _]]].
    destruct (alone_joint e' t' s' d' S' N' P' Hs' H') as [_ B]. destruct (B env) as [B1 [_ [B2 _]]].
    intros [x|]; [rewrite <- A2, <- B2; apply SS | tauto].
  Qed.
  Lemma same_alone_scaled : forall e e', same_alone R e e' -> exists k k', 0 < k /\ 0 < k' /\ forall env, scaled k k' (joint faces env e) (joint faces env e').
  Proof.
    intros e e' [S [S' [N [N' [_ [_ [t [t' [s [s' [d [d' [P [P' [Hs [Hs' [H [H' [Z0 SS]]]]]]]]]]]]]]]]]]].
    destruct (alone_joint e t s d S N P Hs H) as [D A]. destruct (alone_joint e' t' s' d' S' N' P' Hs' H') as [D' B].
    pose proof (total_nonneg R d D) as T. pose proof (total_nonneg R d' D') as T'.
    destruct (Z.eq_dec (total_ways R d) 0) as [E|E].
    - assert (E' := proj1 Z0 E). exists 1, 1. split; [lia|]. split; [lia|]. intros env. destruct (A env) as [_ [A1 [_ A2]]]. destruct (B env) as [_ [B1 [_ B2]]].
      apply counted_scaled; auto. intros v. rewrite <- A2, <- B2.
      pose proof (reported_range R d v (reports_obtainable R s [t] d Hs H)). pose proof (reported_range R d' v (reports_obtainable R s' [t'] d' Hs' H')). lia.
    - assert (E' : total_ways R d' <> 0) by tauto. exists (total_ways R d'), (total_ways R d). split; [lia|]. split; [lia|]. intros env.
      destruct (A env) as [_ [A1 [_ A2]]]. destruct (B env) as [_ [B1 [_ B2]]]. apply counted_scaled; auto. intros v. rewrite <- A2, <- B2. destruct (SS v). lia.
  Qed.

  Notation same := (same_alone R).
  Lemma part_scaled : forall e e', exchanged same e e' -> exists k k', 0 < k /\ 0 < k' /\ forall env, scaled k k' (joint faces env e) (joint faces env e').
  Proof.
    apply (exchanged_scaled same (joint faces)); [apply same_alone_scaled | reflexivity | apply map_fst_shape | apply map_fst_shape | apply joint_shape].
  Qed.
  Lemma part_members : forall e e', exchanged same e e' -> forall env, members (joint (map fst) env e) (joint (map fst) env e').
  Proof.
    apply (exchanged_members same (joint (map fst))); [apply same_alone_members | reflexivity | apply map_fst_shape | apply map_fst_shape | apply joint_shape].
  Qed.
  Lemma same_reads : forall e e', same e e' -> reads e = reads e'.
  Proof. intros e e' [_ [_ [N [N' _]]]]. congruence. Qed.
  Lemma same_good : forall p q, exchanged_program same p q -> good_program p -> good_program q.
  Proof. apply exchanged_good; [apply same_reads | intros e e' H; apply H]. Qed.
  Lemma same_sided : forall p q, exchanged_program same p q -> sided p -> sided q.
  Proof.
    intros p q H S. unfold sided. apply (exchanged_program_dice same) with (p := p); auto. intros e e' [_ [_ [_ [_ [_ [S' _]]]]]] m I. apply S'.
    unfold program_dice. cbn [flat_map snd]. now rewrite app_nil_r.
  Qed.
  Lemma same_none : forall p q, exchanged_program same p q -> In None (results (map fst) no_values p) <-> In None (results (map fst) no_values q).
  Proof.
    intros p q H. apply (exchanged_program_members same (joint (map fst)) (results (map fst))); auto using results_one, results_cons, part_members.
  Qed.

  Lemma exchange_distribution : forall p q lines lines' s s' d d', exchanged_program same p q -> good_program p -> program_text lines p -> program_text lines' q ->
    reachable R s -> reachable R s' -> reports R s lines d -> reports R s' lines' d' -> same_shares R d d'.
  Proof.
    intros p q lines lines' s s' d d' H G T T' Hs Hs' Hr Hr'. assert (G' := same_good p q H G).
    destruct (program_run R s lines p d Hs T G Hr) as [s1 [E I]]. destruct (program_run R s' lines' q d' Hs' T' G' Hr') as [s1' [E' I']].
    destruct (exchanged_weighted same same_reads part_scaled p q H) as [k [k' [K [K' W]]]].
    apply (listed_shares d d' k k'); auto.
    - now apply (run_dinv R true p s s1 d).
    - now apply (run_dinv R true q s' s1' d').
    - intros v. rewrite (run_listed R true p s s1 d I G E v), (run_listed R true q s' s1' d' I' G' E' v). now apply (exchanged_used same same_reads (map fst) part_members).
    - intros v. rewrite (run_reported R true p s s1 d I G E v), (run_reported R true q s' s1' d' I' G' E' v). apply W.
  Qed.

  Lemma exchange_raises : forall p q lines lines' s s' x, exchanged_program same p q -> good_program p -> sided p -> program_text lines p -> program_text lines' q ->
    reachable R s -> reachable R s' -> (distribution_raises R s lines x <-> distribution_raises R s' lines' x).
  Proof.
    intros p q lines lines' s s' x H G S T T' Hs Hs'. assert (G' := same_good p q H G). assert (S' := same_sided p q H S).
    rewrite (raises_exactly R s lines p x Hs T G S), (raises_exactly R s' lines' q x Hs' T' G' S'), (same_none p q H). reflexivity.
  Qed.

  Lemma exchange_extreme : forall mx p q lines lines' s s', exchanged_program same p q -> good_program p -> sided p -> program_text lines p -> program_text lines' q ->
    reachable R s -> reachable R s' ->
    (forall v, extreme_is R mx s lines v <-> extreme_is R mx s' lines' v) /\ (forall x, extreme_raises R mx s lines x <-> extreme_raises R mx s' lines' x).
  Proof.
    intros mx p q lines lines' s s' H G S T T' Hs Hs'. assert (G' := same_good p q H G). assert (S' := same_sided p q H S). assert (N := same_none p q H).
    split; [|intros err; rewrite (extreme_raises_exactly R mx s lines p err Hs T G S), (extreme_raises_exactly R mx s' lines' q err Hs' T' G' S'); tauto].
    destruct (extreme_cases R mx p lines s Hs T G S) as [[a [A1 [_ [A2 _]]]]|[_ [A1 A2]]];
      destruct (extreme_cases R mx q lines' s' Hs' T' G' S') as [[b [B1 [_ [B2 _]]]]|[_ [B1 B2]]]; try tauto; intros v.
    - destruct (extreme_worked_out R mx s lines p a Hs T G S) as [HA _]; [now apply A1|].
      destruct (extreme_worked_out R mx s' lines' q b Hs' T' G' S') as [_ HB]; [now apply B1|].
      assert (a = b).
      { apply HB. unfold program_extreme in *. revert HA. apply (exchanged_extreme mx same); auto; [|apply part_members|reflexivity].
        intros e e' [_ [_ [Ne [Ne' _]]]]. auto. }
      subst b. rewrite A1, B1. reflexivity.
    - split; intros X; [now apply A1 in X | now apply B1 in X].
  Qed.

  (** *** roll() *)
  Notation samer := (same_rolls R).
  Lemma roll_alone : forall e t s, no_assignment e -> reads e = [] -> drawable [(None, e)] -> parse t = Ok e -> (forall x, ~ can_raise R s [t] x) ->
    forall env, ~ In None (rolled env e) /\ (forall v, roll_weight R s [t] v = occurrences v (rolled env e)) /\ roll_total R s [t] = Z.of_nat (length (rolled env e)) /\ rolled env e <> [].
  Proof.
    intros e t s A N D P C env. rewrite (rolled_agree e env no_values) by (rewrite N; intros n []).
    assert (Ru : runnable [(None, e)]).
    { split; [discriminate|]. split; [cbn [closed]; rewrite N; split; [intros m []|exact Logic.I]|]. intros n f [E|[]]. injection E as <- <-. split; [now apply (parse_wf t)|auto]. }
    assert (Nn : ~ In None (rolled_program no_values [(None, e)])).
    { intros X. apply (C ZeroDivisionError). apply (roll_raises R s [t] _ ZeroDivisionError (alone_text t e P) Ru D). auto. }
    destruct (roll_semantics R s [t] _ (alone_text t e P) Ru D) as [_ [W L]]. specialize (L Nn). rewrite rolled_program_one in *.
    split; [exact Nn|]. split; [exact W|]. split; [exact L|]. apply rolled_nonempty. intros m I. apply D. unfold program_dice. cbn [flat_map snd]. now rewrite app_nil_r.
  Qed.
  Lemma rolls_scaled : forall e e', samer e e' -> (exists k k', 0 < k /\ 0 < k' /\ forall env, scaled k k' (rolled env e) (rolled env e')) /\ forall env, members (rolled env e) (rolled env e').
  Proof.
    intros e e' [A [A' [N [N' [D [D' [t [t' [s [s' [P [P' [C [C' W]]]]]]]]]]]]]].
    assert (X := roll_alone e t s A N D P C). assert (X' := roll_alone e' t' s' A' N' D' P' C').
    assert (T : 0 < roll_total R s [t]) by (destruct (X no_values) as [_ [_ [-> E]]]; destruct (rolled no_values e); [contradiction | cbn [length]; lia]).
    assert (T' : 0 < roll_total R s' [t']) by (destruct (X' no_values) as [_ [_ [-> E]]]; destruct (rolled no_values e'); [contradiction | cbn [length]; lia]).
    assert (O : forall env v, roll_total R s' [t'] * occurrences v (rolled env e) = roll_total R s [t] * occurrences v (rolled env e')).
    { intros env v. destruct (X env) as [_ [<- _]]. destruct (X' env) as [_ [<- _]]. specialize (W v). lia. }
    split.
    - exists (roll_total R s' [t']), (roll_total R s [t]). split; [lia|]. split; [lia|]. intros env. apply counted_scaled; [apply X | apply X' | apply O].
    - intros env. destruct (X env) as [Nn _]. destruct (X' env) as [Nn' _]. intros [v|]; [|tauto]. specialize (O env v).
      assert (In_occ : forall l, In (Some v) l <-> occurrences v l <> 0).
      { clear. intros l. unfold occurrences. induction l as [|[x|] l IH]; [split; [intros [] | intros H; now destruct H]| |]; cbn [filter In].
        - destruct (x =? v) eqn:E; [apply Z.eqb_eq in E; subst; cbn [length]; split; [lia | auto] | apply Z.eqb_neq in E; rewrite <- IH; split; [intros [Q|Q]; [congruence | auto] | auto]].
        - rewrite <- IH. split; [intros [Q|Q]; [discriminate | auto] | auto]. }
      rewrite !In_occ. clear - O T T'. split; intros Z1 Z2; rewrite Z2, Z.mul_0_r in O; nia.
  Qed.
  Lemma rolls_runnable : forall p q, exchanged_program samer p q -> runnable p -> runnable q.
  Proof.
    apply exchanged_runnable.
    - intros e e' [_ [_ [N [N' _]]]]. congruence.
    - intros e e' [_ [A' [_ [_ [_ [_ [t [t' [_ [_ [_ [P' _]]]]]]]]]]]]. split; [now apply (parse_wf t') | exact A'].
  Qed.
  Lemma rolls_drawable : forall p q, exchanged_program samer p q -> drawable p -> drawable q.
  Proof.
    intros p q H S. unfold drawable. apply (exchanged_program_dice samer) with (p := p); auto. intros e e' [_ [_ [_ [_ [_ [D' _]]]]]] m I. apply D'.
    unfold program_dice. cbn [flat_map snd]. now rewrite app_nil_r.
  Qed.

  Lemma exchange_roll : forall p q lines lines' s s', exchanged_program samer p q -> runnable p -> drawable p -> program_text lines p -> program_text lines' q ->
    (forall x, can_raise R s lines x <-> can_raise R s' lines' x) /\
    (forall v, can_roll R s lines v <-> can_roll R s' lines' v) /\
    (forall v w, roll_weight R s lines v * roll_weight R s' lines' w = roll_weight R s' lines' v * roll_weight R s lines w) /\
    ((forall x, ~ can_raise R s lines x) -> forall v, roll_weight R s lines v * roll_total R s' lines' = roll_weight R s' lines' v * roll_total R s lines).
  Proof.
    intros p q lines lines' s s' H Ru D T T'. assert (Ru' := rolls_runnable p q H Ru). assert (D' := rolls_drawable p q H D).
    assert (M : forall env, members (rolled_program env p) (rolled_program env q)).
    { apply (exchanged_program_members samer rolled); auto using rolled_program_one, rolled_program_cons.
      apply exchanged_members; [intros e e' X; apply (rolls_scaled e e' X) | reflexivity | eexists; intros; reflexivity | eexists; intros; reflexivity | apply rolled_shape]. }
    assert (V : exists k k', 0 < k /\ 0 < k' /\ forall env, vscaled k k' (rolled_program env p) (rolled_program env q)).
    { apply (exchanged_program_scaled samer rolled); auto using rolled_program_one, rolled_program_cons.
      apply exchanged_scaled; [intros e e' X; apply (rolls_scaled e e' X) | reflexivity | eexists; intros; reflexivity | eexists; intros; reflexivity | apply rolled_shape]. }
    destruct V as [k [k' [K [K' V]]]]. specialize (V no_values). specialize (M no_values).
    assert (C : forall x, can_raise R s lines x <-> can_raise R s' lines' x).
    { intros x. rewrite (roll_raises R s lines p x T Ru D), (roll_raises R s' lines' q x T' Ru' D'), (M None). reflexivity. }
    destruct (roll_semantics R s lines p T Ru D) as [C1 [W1 L1]]. destruct (roll_semantics R s' lines' q T' Ru' D') as [C2 [W2 L2]].
    split; [exact C|]. split; [intros v; rewrite C1, C2; apply M|].
    assert (O := fun v => vscaled_occurrences _ _ _ _ v V). split.
    - intros v w. rewrite !W1, !W2. pose proof (O v) as Ov. pose proof (O w) as Ow.
      apply (Z.mul_reg_l _ _ (k * k')); [nia|].
      transitivity ((k * occurrences v (rolled_program no_values p)) * (k' * occurrences w (rolled_program no_values q))); [ring|]. rewrite Ov, <- Ow. ring.
    - intros Nr v. assert (N1 : ~ In None (rolled_program no_values p)).
      { intros X. apply (Nr ZeroDivisionError). apply (roll_raises R s lines p _ T Ru D). auto. }
      assert (N2 : ~ In None (rolled_program no_values q)) by (intros X; now apply N1, M).
      rewrite W1, W2, (L1 N1), (L2 N2). pose proof (O v) as Ov. pose proof (vscaled_length _ _ _ _ V N1 N2) as Ol.
      apply (Z.mul_reg_l _ _ (k * k')); [nia|].
      transitivity ((k * occurrences v (rolled_program no_values p)) * (k' * Z.of_nat (length (rolled_program no_values q)))); [ring|]. rewrite Ov, <- Ol. ring.
  Qed.

  (** *** The same floats *)
  Lemma shares_ratio : forall a b T T', 0 < T -> 0 < T' -> a * T' = b * T -> (inject_Z a / inject_Z T == inject_Z b / inject_Z T')%Q.
  Proof.
    intros a b T T' HT HT' E. apply (Qmult_inj_r _ _ (inject_Z T * inject_Z T')).
    - intros Z0. unfold Qeq, inject_Z, Qmult in Z0. cbn in Z0. nia.
    - assert (A : ~ (inject_Z T == 0)%Q) by (unfold Qeq, inject_Z; cbn; lia). assert (B : ~ (inject_Z T' == 0)%Q) by (unfold Qeq, inject_Z; cbn; lia).
      transitivity (inject_Z a * inject_Z T')%Q; [now field|]. transitivity (inject_Z b * inject_Z T)%Q; [|now field]. rewrite <- !inject_Z_mult, E. reflexivity.
  Qed.
  Lemma shares_probability : forall d d' : dist, obtainable R d -> obtainable R d' -> same_shares R d d' -> forall v, (probability R d v == probability R d' v)%Q.
  Proof.
    intros d d' O O' [Z0 S] v. destruct (S v) as [_ E]. unfold probability.
    pose proof (reported_range R d v O). pose proof (reported_range R d' v O').
    destruct (Z.eq_dec (total_ways R d) 0) as [Z1|N1]; [|apply shares_ratio; [lia | assert (total_ways R d' <> 0) by tauto; lia | exact E]].
    assert (Z2 := proj1 Z0 Z1). replace (reported R d v) with 0 by lia. replace (reported R d' v) with 0 by lia. now rewrite Z1, Z2.
  Qed.
  Lemma shares_dict : forall d d' : dist, obtainable R d -> obtainable R d' -> same_shares R d d' ->
    (forall x, get_dict_form R d = Raise x <-> get_dict_form R d' = Raise x) /\
    forall m m', get_dict_form R d = Ok m -> get_dict_form R d' = Ok m' -> (forall v, In v (map fst m) <-> In v (map fst m')) /\
      forall v f f', In (v, f) m -> In (v, f') m' -> exists x, has_value f x /\ has_value f' x.
  Proof.
    intros d d' O O' S. split.
    - intros x. rewrite (dict_raises R d x O), (dict_raises R d' x O'). unfold no_ways. destruct S as [Z0 S].
      assert (L : (exists v, listed R d v) <-> exists v, listed R d' v) by (split; intros [v L]; exists v; now apply S). tauto.
    - intros m m' E E'. destruct (dict_nearest R d m O E) as [K N]. destruct (dict_nearest R d' m' O' E') as [K' N'].
      split; [rewrite K, K'; intros v; apply S|]. intros v f f' I I'. destruct (N v f I) as [Nf [x [Ex _]]]. destruct (N' v f' I') as [Nf' [x' [Ex' _]]].
      exists x. split; [exists x; split; [exact Ex | reflexivity]|]. exists x'. split; [exact Ex'|].
      apply (nearest_unique (probability R d v) f' f); auto. apply (nearest_ext (probability R d' v)); auto. symmetry. now apply shares_probability.
  Qed.

  Lemma sum_reported : forall d : dist, dinv R d -> sum_of_results R d = lsum (fun v => v * reported R d v) (map fst (get_result_map R d)).
  Proof.
    intros d D. unfold sum_of_results, lsum. rewrite map_map. pose proof (result_map_nodup R d) as ND. unfold reported. f_equal.
    apply map_ext_in. intros [v c] Hvc. cbn [fst snd].
    enough (E : dget Z.eqb (get_result_map R d) v = Some c) by now rewrite E.
    clear - ND Hvc. induction (get_result_map R d) as [|[k x] l IH]; [destruct Hvc|]. cbn [dget map fst] in *. inversion ND; subst.
    destruct Hvc as [E|Hvc]; [injection E as -> ->; now rewrite Z.eqb_refl|].
    destruct (k =? v) eqn:E; [|auto]. apply Z.eqb_eq in E. subst k. exfalso. apply H1. apply (in_map fst) in Hvc. exact Hvc.
  Qed.
  Lemma shares_mean : forall d d' : dist, obtainable R d -> obtainable R d' -> same_shares R d d' -> (mean R d == mean R d')%Q.
  Proof.
    intros d d' O O' [Z0 S]. pose proof (obtainable_dinv R d O) as D. pose proof (obtainable_dinv R d' O') as D'. unfold mean.
    assert (E : sum_of_results R d * total_ways R d' = sum_of_results R d' * total_ways R d).
    { rewrite (sum_reported d D), (sum_reported d' D'), !(Z.mul_comm (lsum _ _)), <- !lsum_scale.
      rewrite (lsum_ext _ (fun v => total_ways R d' * (v * reported R d v)) (fun v => total_ways R d * (v * reported R d' v))) by (intros v _; destruct (S v) as [_ Ev]; transitivity (v * (reported R d v * total_ways R d')); [ring | rewrite Ev; ring]).
      apply (lsum_same_support _ Z.eq_dec); try apply result_map_nodup; intros v I _; now apply S. }
    pose proof (total_nonneg R d D). pose proof (total_nonneg R d' D').
    destruct (Z.eq_dec (total_ways R d) 0) as [Z1|N1]; [|apply shares_ratio; [lia | assert (total_ways R d' <> 0) by tauto; lia | exact E]].
    rewrite Z1, (proj1 Z0 Z1). unfold Qdiv. cbn. ring.
  Qed.
  Lemma shares_average : forall d d' : dist, obtainable R d -> obtainable R d' -> same_shares R d d' ->
    (forall x, d_average R d = Raise x <-> d_average R d' = Raise x) /\
    forall f f', d_average R d = Ok f -> d_average R d' = Ok f' -> exists x, has_value f x /\ has_value f' x.
  Proof.
    intros d d' O O' S. assert (M := shares_mean d d' O O' S). split.
    - intros x. rewrite (average_raises R d x O), (average_raises R d' x O'). destruct S as [Z0 _].
      assert (L : too_large (mean R d) <-> too_large (mean R d')) by (unfold too_large; now rewrite M). tauto.
    - intros f f' E E'. destruct (average_nearest R d f O E) as [_ [N _]]. destruct (average_nearest R d' f' O' E') as [_ [N' _]].
      destruct (N) as [x [Ex _]]. destruct (N') as [x' [Ex' _]]. exists x. split; [exists x; split; [exact Ex | reflexivity]|]. exists x'. split; [exact Ex'|].
      apply (nearest_unique (mean R d) f' f); auto. apply (nearest_ext (mean R d')); auto. now symmetry.
  Qed.
End Interpreter.
