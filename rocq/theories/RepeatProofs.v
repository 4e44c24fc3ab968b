(** * RepeatProofs: calls of roll() one after the other are independent (C75) *)
From Verif Require Import Py PyFacts PyFloat Constraint Distribution DiceModel Expr Parser Interp SpecDice SpecProgram SpecInterp SpecRoll SpecFrame SpecProb DistFacts ExprFacts StateFacts DiceFacts DiceProofs
  CostProofs WfFacts ProgramProofs RollFacts RollProofs Random SpecRandom SpecNear RandomFacts RandomProofs NearFacts NearProofs
  AlgebraFacts InterpRun Checks BetterProofs SumProofs SpecRepeat.
From Coq Require Import QArith Qabs Lqa.
Open Scope Z_scope.

(** ** A self-contained program gives the same whatever the state *)
Section State.
  Context (R : Runtime) (G : Generator).
  Notation state := (state R).

  Definition agree (known : list text) (s1 s2 : state) : Prop := forall n, In n known -> dget text_eqb (st_const s1) n = dget text_eqb (st_const s2) n.
  Definition alike {A} (s1 s2 : state) (o1 o2 : (state * res A) * gen G) : Prop := exists r g, o1 = ((s1, r), g) /\ o2 = ((s2, r), g).

  Lemma alike_bind : forall A B (c : D R G A) (f : A -> D R G B) s1 s2 g, alike s1 s2 (c s1 g) (c s2 g) ->
    (forall a g', alike s1 s2 (f a s1 g') (f a s2 g')) -> alike s1 s2 (gbind R G c f s1 g) (gbind R G c f s2 g).
  Proof.
    intros A B c f s1 s2 g [r [g' [E1 E2]]] H. unfold gbind. rewrite E1, E2. destruct r as [a|x]; [apply H|]. now exists (Raise x), g'.
  Qed.
  Lemma alike_one : forall A (r : res A) s1 s2 g, alike s1 s2 (s1, r, g) (s2, r, g).
  Proof. intros A r s1 s2 g. now exists r, g. Qed.
  Lemma alike_binop : forall f a b s1 s2 g, alike s1 s2 (a s1 g) (a s2 g) -> (forall g', alike s1 s2 (b s1 g') (b s2 g')) ->
    alike s1 s2 (gbinop R G f a b s1 g) (gbinop R G f a b s2 g).
  Proof. intros f a b s1 s2 g Ha Hb. apply alike_bind; auto. intros x g'. apply alike_bind; auto. intros y g2. apply alike_one. Qed.
  Lemma alike_choices : forall m k f s1 s2 g, alike s1 s2 (gchoices R G m k f s1 g) (gchoices R G m k f s2 g).
  Proof. intros m k f s1 s2 g. unfold gchoices. destruct (choices_drawn m []); [|apply alike_one]. destruct (draw G (Z.to_nat k) g). apply alike_one. Qed.

  Lemma alike_of : forall e known s1 s2, no_assignment e -> (forall n, In n (reads e) -> In n known) -> agree known s1 s2 ->
    forall g, alike s1 s2 (drawn_of R G e s1 g) (drawn_of R G e s2 g).
  Proof.
    induction e; intros known s1 s2 N Rd A g; cbn [no_assignment reads drawn_of] in *;
      try (apply alike_choices); try (apply alike_one);
      try (apply alike_binop; [apply (IHe1 known); try tauto; intros; apply Rd, in_or_app; auto|intros; apply (IHe2 known); try tauto; intros; apply Rd, in_or_app; auto]).
    - now apply (IHe known).
    - apply alike_bind; [now apply (IHe known)|]. intros. apply alike_one.
    - destruct (dk_simple d) as [[d0|t]|]; try apply alike_choices. apply alike_one.
    - apply alike_bind; [apply (IHe2 known); try tauto; intros; apply Rd, in_or_app; auto|]. intros a g'. destruct (a =? 0); [apply alike_one|].
      apply alike_bind; [apply (IHe1 known); try tauto; intros; apply Rd, in_or_app; auto|]. intros. apply alike_one.
    - destruct (int_operator operator); [|apply alike_one].
      apply alike_binop; [apply (IHe1 known); try tauto; intros; apply Rd, in_or_app; auto|intros; apply (IHe2 known); try tauto; intros; apply Rd, in_or_app; auto].
    - destruct (minmax_operator min_max); [|apply alike_one].
      apply alike_binop; [apply (IHe1 known); try tauto; intros; apply Rd, in_or_app; auto|intros; apply (IHe2 known); try tauto; intros; apply Rd, in_or_app; auto].
    - apply alike_bind; [now apply (IHe known)|]. intros. apply alike_one.
    - destruct N.
    - unfold get_constant. rewrite (A name) by (apply Rd; now left). apply alike_one.
  Qed.

  Definition seen_of (o : state * res const_dict) : res (option Z) :=
    match o with (s', Ok d) => Ok (dget text_eqb (read_dict R s' d) stdout) | (_, Raise x) => Raise x end.

  Lemma agree_set : forall known n v s1 s2, agree known s1 s2 -> agree (n :: known) (set_constant R n v s1) (set_constant R n v s2).
  Proof.
    intros known n v s1 s2 A m H. cbn [set_constant st_const]. destruct (text_eq_dec m n) as [->|Ne].
    - now rewrite !(dget_dset_same text_eqb text_eqb_eq).
    - rewrite !(dget_dset_other text_eqb text_eqb_eq) by exact Ne. apply A. destruct H; [congruence|assumption].
  Qed.
  Lemma agree_stdout : forall known v s1 s2, agree known s1 s2 -> agree (stdout :: known) (set_stdout_const R v s1) (set_stdout_const R v s2).
  Proof.
    intros known v s1 s2 A m H. cbn [set_stdout_const st_const]. destruct (text_eq_dec m stdout) as [->|Ne].
    - now rewrite !(dget_dset_same text_eqb text_eqb_eq).
    - rewrite !(dget_dset_other text_eqb text_eqb_eq) by exact Ne. apply A. destruct H; [congruence|assumption].
  Qed.
  Lemma agree_less : forall known n s1 s2, agree (n :: known) s1 s2 -> agree known s1 s2.
  Proof. intros known n s1 s2 A m H. apply A. now right. Qed.

  Lemma from_alike : forall p lines, program_text lines p -> (forall n e, In (n, e) p -> no_assignment e) -> forall known d s1 s2 g, closed known p -> agree known s1 s2 ->
    dget text_eqb (read_dict R s1 d) stdout = dget text_eqb (read_dict R s2 d) stdout ->
    snd (drawn_from R G d lines s1 g) = snd (drawn_from R G d lines s2 g) /\ seen_of (fst (drawn_from R G d lines s1 g)) = seen_of (fst (drawn_from R G d lines s2 g)).
  Proof.
    induction p as [|[n e] p IH]; intros lines T N known d s1 s2 g C A E; inversion T as [|t ? lines' ? P T']; subst; clear T; cbn [drawn_from].
    - split; [reflexivity|]. unfold gret. cbn [fst seen_of]. now rewrite E.
    - cbn [closed] in C. destruct C as [C1 C2]. rename lines' into lines. rename T' into T.
      destruct (alike_of e known s1 s2 (N n e (or_introl eq_refl)) C1 A g) as [r [g' [E1 E2]]].
      assert (L : forall s, drawn_line R G t s g = match drawn_of R G (line_expr (n, e)) s g with
        ((s', Ok v), g') => ((set_stdout_const R v s', Ok LiveConstants), g') | ((s', Raise x), g') => ((s', Raise x), g') end).
      { intros s. unfold drawn_line, gbind, glift. rewrite P. reflexivity. }
      unfold gbind. rewrite !L. clear L. destruct n as [n|]; cbn [line_expr] in *.
      + cbn [drawn_of]. unfold gbind. rewrite E1, E2. destruct r as [v|x]; [|split; reflexivity].
        apply (IH lines T (fun n e H => N n e (or_intror H)) (n :: known)); [exact C2| |].
        * apply (agree_less _ stdout). apply agree_stdout. now apply agree_set.
        * cbn [read_dict]. apply (agree_stdout [] v); [intros m []|now left].
      + rewrite E1, E2. destruct r as [v|x]; [|split; reflexivity].
        apply (IH lines T (fun n e H => N n e (or_intror H)) known); [exact C2| |].
        * apply (agree_less _ stdout). now apply agree_stdout.
        * cbn [read_dict]. apply (agree_stdout [] v); [intros m []|now left].
  Qed.

  Lemma result_seen : forall s lines g, drawn_result R G s lines g = seen_of (fst (roll_drawn R G lines s g)).
  Proof. intros s lines g. unfold drawn_result. destruct (roll_drawn R G lines s g) as [[s' [d|x]] g']; reflexivity. Qed.

  Lemma same_anywhere : forall lines s1 s2 g, self_contained lines ->
    drawn_result R G s1 lines g = drawn_result R G s2 lines g /\ snd (roll_drawn R G lines s1 g) = snd (roll_drawn R G lines s2 g).
  Proof.
    intros lines s1 s2 g [p [T [_ [C W]]]]. rewrite !result_seen. unfold roll_drawn.
    destruct (from_alike p lines T (fun n e H => proj1 (proj2 (W n e H))) [] EmptyDict s1 s2 g C) as [X Y]; [intros n []|reflexivity|]. auto.
  Qed.
  Lemma same_results_anywhere : forall programs s1 s2 g, Forall self_contained programs -> drawn_results R G s1 programs g = drawn_results R G s2 programs g.
  Proof.
    induction programs as [|lines programs IH]; intros s1 s2 g F; [reflexivity|]. inversion F as [|? ? F1 F2]; subst. cbn [drawn_results].
    destruct (same_anywhere lines s1 s2 g F1) as [E1 E2]. rewrite E1. f_equal.
    destruct (roll_drawn R G lines s1 g) as [[t1 r1] g1]. destruct (roll_drawn R G lines s2 g) as [[t2 r2] g2]. cbn [snd] in E2. subst. now apply IH.
  Qed.
End State.

(** ** Computations that read a bounded number of random numbers *)
Section Stops.
  Notation B := (2 ^ 53).
  Notation dsum := (dsum bits53).

  Inductive stops {A : Type} : nat -> (list Z -> A * list Z) -> Prop :=
  | stop_done : forall n c o, (forall l, c l = (o, l)) -> stops n c
  | stop_draw : forall n c, (forall r, In r bits53 -> stops n (fun l => c (r :: l))) -> stops (S n) c.

  Lemma stops_ext : forall A n (c c' : list Z -> A * list Z), stops n c -> (forall l, c' l = c l) -> stops n c'.
  Proof.
    intros A n c c' H. revert c'. induction H as [n c o H|n c H IH]; intros c' E.
    - apply (stop_done n c' o). intros l. now rewrite E.
    - apply stop_draw. intros r Hr. apply (IH r Hr). intros l. apply E.
  Qed.
  Lemma stops_more : forall A n n' (c : list Z -> A * list Z), stops n c -> (n <= n')%nat -> stops n' c.
  Proof.
    intros A n n' c H. revert n'. induction H as [n c o H|n c H IH]; intros n' L; [now apply (stop_done n' c o)|].
    destruct n' as [|n']; [lia|]. apply stop_draw. intros r Hr. apply (IH r Hr). lia.
  Qed.
  Lemma stops_bind : forall A C n1 n2 (c : list Z -> A * list Z) (f : A -> list Z -> C * list Z), stops n1 c -> (forall a, stops n2 (f a)) ->
    stops (n1 + n2) (fun l => let (a, l') := c l in f a l').
  Proof.
    intros A C n1 n2 c f H F. induction H as [n c o H|n c H IH].
    - apply (stops_ext _ _ (f o)); [apply (stops_more _ n2); [apply F|lia]|]. intros l. now rewrite H.
    - cbn [Nat.add]. apply stop_draw. exact IH.
  Qed.

  (** The rest is summed up in the same way whatever was read before *)
  Lemma stops_sum : forall A n (c : list Z -> A * list Z), stops n c -> forall (h : A -> list Z -> Z) (q : A -> Z) m N, (n + m <= N)%nat ->
    (forall a M, (m <= M)%nat -> dsum M (h a) = q a * B ^ Z.of_nat (M - m)) ->
    dsum N (fun l => let (a, l') := c l in h a l') = dsum n (fun l => q (fst (c l))) * B ^ Z.of_nat (N - n - m).
  Proof.
    intros A n c H. induction H as [n c o H|n c H IH]; intros h q m N L Hq.
    - rewrite (dsum_ext bits53 N _ (h o)) by (intros l _; now rewrite H). rewrite (dsum_ext bits53 n _ (fun _ => q o)) by (intros l _; now rewrite H).
      rewrite dsum_const, bits53_length, Hq by lia. replace (N - m)%nat with (n + (N - n - m))%nat by lia. rewrite Nat2Z.inj_add, Z.pow_add_r by lia. ring.
    - destruct N as [|N]; [lia|]. cbn [NearFacts.dsum]. rewrite <- zsum_map_mul_r. apply zsum_map_ext_in. intros r Hr.
      rewrite (IH r Hr h q m N) by (auto; lia). rewrite Nat.sub_succ. reflexivity.
  Qed.
End Stops.

Section Repeat.
  Context (R : Runtime).
  Notation state := (state R).
  Notation D := (D R list_gen).

  Lemma stops_gbind : forall A C n1 n2 (c : D A) (f : A -> D C) s, stops n1 (c s) -> (forall a s', stops n2 (f a s')) -> stops (n1 + n2) (gbind R list_gen c f s).
  Proof.
    intros A C n1 n2 c f s H F. 
    apply (stops_ext _ _ (fun l => let (o, l') := c s l in (match o with (s', Ok a) => f a s' | (s', Raise x) => fun l => ((s', Raise x), l) end) l')).
    - apply stops_bind; [exact H|]. intros [s' [a|x]]; [apply F|]. now apply (stop_done _ _ (s', Raise x)).
    - intros l. unfold gbind. destruct (c s l) as [[s' [a|x]] l']; reflexivity.
  Qed.
  Lemma stops_one : forall A n (o : state * res A), stops n (fun l : list Z => (o, l)).
  Proof. intros A n o. now apply (stop_done _ _ o). Qed.
  Lemma stops_then : forall A C n (c : D A) (f : A -> state -> state * res C) s, stops n (c s) -> stops n (gbind R list_gen c (fun a s g => (f a s, g)) s).
  Proof. intros A C n c f s H. rewrite <- (Nat.add_0_r n). apply stops_gbind; [exact H|]. intros a s'. apply stops_one. Qed.
  Lemma stops_binop : forall n1 n2 f a b s, stops n1 (a s) -> (forall s', stops n2 (b s')) -> stops (n1 + n2) (gbinop R list_gen f a b s).
  Proof. intros n1 n2 f a b s Ha Hb. apply stops_gbind; [exact Ha|]. intros x s'. apply (stops_then _ _ _ _ (fun y s => (s, Ok (f x y)))). apply Hb. Qed.
  Lemma stops_numbers : forall k, stops k (draw list_gen k).
  Proof.
    induction k as [|k IH]; [now apply (stop_done _ _ [])|]. apply stop_draw. intros r Hr.
    apply (stops_ext _ _ (fun l => let (rs, l') := draw list_gen k l in (r mod 2 ^ 53 :: rs, l'))); [|reflexivity].
    rewrite <- (Nat.add_0_r k) at 1. apply (stops_bind _ _ k 0 (draw list_gen k) (fun rs l' => (r mod 2 ^ 53 :: rs, l'))); [exact IH|].
    intros a. now apply (stop_done _ _ (r mod 2 ^ 53 :: a)).
  Qed.
  Lemma stops_choices : forall m k f s, stops (Z.to_nat k) (gchoices R list_gen m k f s).
  Proof.
    intros m k f s. unfold gchoices. destruct (choices_drawn m []) as [x|x]; [|apply stops_one]. rewrite <- (Nat.add_0_r (Z.to_nat k)) at 1.
    apply (stops_bind _ _ _ 0 (draw list_gen (Z.to_nat k)) (fun rs g' => ((s, rmap f (choices_drawn m rs)), g'))); [apply stops_numbers|]. intros a. apply stops_one.
  Qed.
  Lemma stops_of : forall e s, stops (length (used e)) (drawn_of R list_gen e s).
  Proof.
    induction e; intros s; cbn [used drawn_of]; try apply stops_one; rewrite ?app_length, ?repeat_length; try (apply stops_binop; auto; fail).
    - auto.
    - apply (stops_then _ _ _ _ (fun x s => (s, Ok (if x =? 0 then 1 else 0)))). auto.
    - destruct (dk_simple d) as [[d0|t]|]; rewrite ?repeat_length; try apply stops_choices. apply stops_one.
    - apply stops_choices.
    - apply stops_gbind; [auto|]. intros y s'. destruct (y =? 0); [apply stops_one|]. apply (stops_then _ _ _ _ (fun x s => (s, Ok (x / y)))). auto.
    - destruct (int_operator operator); [|apply stops_one]. apply stops_binop; auto.
    - destruct (minmax_operator min_max); [|apply stops_one]. apply stops_binop; auto.
    - apply (stops_then _ _ _ _ (fun x s => (s, Ok (Z.abs x)))). auto.
    - apply (stops_then _ _ _ _ (fun x s => (set_constant R name x s, Ok x))). auto.
  Qed.
  Lemma stops_line : forall t s, stops (length (line_used t)) (drawn_line R list_gen t s).
  Proof.
    intros t s. unfold drawn_line, line_used. change (length (match parse t with Ok e => used e | Raise _ => [] end)) with (0 + length (match parse t with Ok e => used e | Raise _ => [] end))%nat.
    destruct (parse t) as [e|x].
    - apply (stops_ext _ _ (gbind R list_gen (drawn_of R list_gen e) (fun v s g => ((set_stdout_const R v s, Ok LiveConstants), g)) s)); [|reflexivity].
      apply (stops_then _ _ _ _ (fun v s => (set_stdout_const R v s, Ok LiveConstants))). apply stops_of.
    - apply (stops_one _ _ (s, Raise x)).
  Qed.
  Lemma stops_from : forall lines d s, stops (length (lines_used lines)) (drawn_from R list_gen d lines s).
  Proof.
    induction lines as [|t lines IH]; intros d s; cbn [drawn_from]; [apply (stops_one _ _ (s, Ok d))|].
    unfold lines_used. cbn [flat_map]. rewrite app_length. apply stops_gbind; [apply stops_line|]. intros d' s'. apply IH.
  Qed.
  Lemma stops_roll : forall lines s, stops (length (dice_thrown lines)) (roll_drawn R list_gen lines s).
  Proof. intros lines s. apply (stops_more _ (length (lines_used lines))); [apply stops_from|]. apply lines_thrown. Qed.

  (** ** Counting *)
  Notation B := (2 ^ 53).
  Lemma count_call : forall lines s (P : res (option Z) -> bool) n m, (length (dice_thrown lines) <= n)%nat -> (n <= m)%nat ->
    count_draws m (fun bits => P (drawn_result R list_gen s lines bits)) = count_draws n (fun bits => P (drawn_result R list_gen s lines bits)) * B ^ Z.of_nat (m - n).
  Proof.
    assert (X : forall lines s (P : res (option Z) -> bool) m, (length (dice_thrown lines) <= m)%nat -> count_draws m (fun bits => P (drawn_result R list_gen s lines bits)) =
      dsum bits53 (length (dice_thrown lines)) (fun l => if P (seen_of R (fst (roll_drawn R list_gen lines s l))) then 1 else 0) * B ^ Z.of_nat (m - length (dice_thrown lines))).
    { intros lines s P m L. rewrite bits53_draws.
      rewrite (dsum_ext bits53 m _ (fun l => let (o, l') := roll_drawn R list_gen lines s l in (fun o (_ : list Z) => if P (seen_of R o) then 1 else 0) o l')).
      - rewrite (stops_sum _ _ _ (stops_roll lines s) _ (fun o => if P (seen_of R o) then 1 else 0) 0 m) by (try lia; intros a M _; rewrite dsum_const, bits53_length, Nat.sub_0_r; reflexivity).
        now rewrite Nat.sub_0_r.
      - intros l _. rewrite result_seen. destruct (roll_drawn R list_gen lines s l) as [o l']. reflexivity. }
    intros lines s P n m L1 L2. rewrite (X lines s P m), (X lines s P n) by lia. rewrite <- Z.mul_assoc, <- Z.pow_add_r by lia. f_equal. f_equal. lia.
  Qed.

  Lemma all_dice_cons : forall lines rest, all_dice (lines :: rest) = (length (dice_thrown lines) + all_dice rest)%nat.
  Proof. intros lines rest. unfold all_dice. cbn [flat_map]. apply app_length. Qed.

  Fixpoint counts (s0 : state) (calls : list (list text * (res (option Z) -> bool))) : Z :=
    match calls with
    | [] => 1
    | c :: calls' => count_draws (length (dice_thrown (fst c))) (fun bits => snd c (drawn_result R list_gen s0 (fst c) bits)) * counts s0 calls'
    end.

  Lemma count_calls : forall s0 calls, Forall self_contained (map fst calls) -> forall s N, (all_dice (map fst calls) <= N)%nat ->
    count_draws N (fun bits => all_hold (map snd calls) (drawn_results R list_gen s (map fst calls) bits)) = counts s0 calls * B ^ Z.of_nat (N - all_dice (map fst calls)).
  Proof.
    intros s0. induction calls as [|[lines P] calls IH]; intros F s N L; cbn [map fst snd counts] in *.
    - rewrite bits53_draws. rewrite (dsum_ext bits53 N _ (fun _ => 1)) by reflexivity. rewrite dsum_const, bits53_length. unfold all_dice. cbn [flat_map length]. now rewrite Nat.sub_0_r.
    - inversion F as [|? ? F1 F2]; subst. rewrite all_dice_cons in *. specialize (IH F2). set (m := all_dice (map fst calls)) in *. set (n := length (dice_thrown lines)) in *.
      rewrite bits53_draws.
      set (h := fun (o : state * res const_dict) (l : list Z) => if P (seen_of R o) then if all_hold (map snd calls) (drawn_results R list_gen (fst o) (map fst calls) l) then 1 else 0 else 0).
      pose proof (stops_sum _ n _ (stops_roll lines s) h (fun o => (if P (seen_of R o) then 1 else 0) * counts s0 calls) m N L) as X.
      transitivity (dsum bits53 N (fun l => let (o, l') := roll_drawn R list_gen lines s l in h o l')); [|etransitivity; [apply X|]]; clear X.
      + apply dsum_ext. intros l _. cbn [drawn_results all_hold]. rewrite result_seen. unfold h.
        destruct (roll_drawn R list_gen lines s l) as [[s' r] l']. cbn [fst]. destruct (P (seen_of R (s', r))); reflexivity.
      + intros o M HM. unfold h. destruct (P (seen_of R o)).
        * specialize (IH (fst o) M HM). rewrite bits53_draws in IH. rewrite IH. ring.
        * rewrite dsum_const. ring.
      + rewrite Nat.sub_add_distr. f_equal.
        rewrite (dsum_mul bits53 n (fun l => if P (seen_of R (fst (roll_drawn R list_gen lines s l))) then 1 else 0)). f_equal. rewrite bits53_draws. apply dsum_ext.
        intros l _. rewrite (proj1 (same_anywhere R list_gen lines s0 s l F1)), result_seen. reflexivity.
  Qed.

  Lemma share_call : forall lines s (P : res (option Z) -> bool) n, (length (dice_thrown lines) <= n)%nat ->
    (share n (fun bits => P (drawn_result R list_gen s lines bits)) ==
     inject_Z (count_draws (length (dice_thrown lines)) (fun bits => P (drawn_result R list_gen s lines bits))) / inject_Z (B ^ Z.of_nat (length (dice_thrown lines))))%Q.
  Proof.
    intros lines s P n L. unfold share. rewrite (count_call lines s P (length (dice_thrown lines)) n) by lia. set (k := length (dice_thrown lines)) in *.
    set (c := count_draws k _). clearbody c. rewrite (Z.pow_mul_r 2 53) by lia. replace (Z.of_nat n) with (Z.of_nat k + Z.of_nat (n - k)) by lia. rewrite Z.pow_add_r by lia.
    assert (Pa : 0 < B ^ Z.of_nat k) by (apply Z.pow_pos_nonneg; lia). assert (Pb : 0 < B ^ Z.of_nat (n - k)) by (apply Z.pow_pos_nonneg; lia).
    set (a := B ^ Z.of_nat k) in *. set (b := B ^ Z.of_nat (n - k)) in *. clearbody a b. rewrite !inject_Z_mult. field. split; intros E; unfold Qeq in E; cbn in E; lia.
  Qed.

  Lemma shares_multiply : forall s calls n, Forall self_contained (map fst calls) -> (all_dice (map fst calls) <= n)%nat ->
    (share n (fun bits => all_hold (map snd calls) (drawn_results R list_gen s (map fst calls) bits)) ==
     product (map (fun c => share n (fun bits => snd c (drawn_result R list_gen s (fst c) bits))) calls))%Q.
  Proof.
    intros s calls n F L. unfold share at 1. rewrite (count_calls s calls F s n L).
    assert (X : forall cs, (all_dice (map fst cs) <= n)%nat -> (product (map (fun c => share n (fun bits => snd c (drawn_result R list_gen s (fst c) bits))) cs) ==
      inject_Z (counts s cs) / inject_Z (B ^ Z.of_nat (all_dice (map fst cs))))%Q).
    { induction cs as [|[lines P] cs IH]; intros Lc; [reflexivity|]. cbn [map fst snd counts product fold_right] in *. fold (product (map (fun c => share n (fun bits => snd c (drawn_result R list_gen s (fst c) bits))) cs)).
      rewrite all_dice_cons in *. rewrite IH by lia. rewrite (share_call lines s P n) by lia. rewrite Nat2Z.inj_add, Z.pow_add_r by lia.
      set (a := B ^ Z.of_nat (length (dice_thrown lines))). set (b := B ^ Z.of_nat (all_dice (map fst cs))).
      assert (Pa : 0 < a) by (apply Z.pow_pos_nonneg; lia). assert (Pb : 0 < b) by (apply Z.pow_pos_nonneg; lia). clearbody a b.
      rewrite !inject_Z_mult. field. split; intros E; unfold Qeq in E; cbn in E; lia. }
    rewrite X by exact L. set (k := all_dice (map fst calls)) in *. rewrite (Z.pow_mul_r 2 53) by lia.
    replace (Z.of_nat n) with (Z.of_nat k + Z.of_nat (n - k)) by lia. rewrite Z.pow_add_r by lia.
    assert (Pa : 0 < B ^ Z.of_nat k) by (apply Z.pow_pos_nonneg; lia). assert (Pb : 0 < B ^ Z.of_nat (n - k)) by (apply Z.pow_pos_nonneg; lia).
    set (a := B ^ Z.of_nat k) in *. set (b := B ^ Z.of_nat (n - k)) in *. clearbody a b. rewrite !inject_Z_mult. field. split; intros E; unfold Qeq in E; cbn in E; lia.
  Qed.
End Repeat.

(** ** The probabilities reported, and the ideal weights *)
Section Reported.
  Context (R : Runtime).
  Notation state := (state R).
  Notation dist := (dist R).

  Lemma product_near : forall (l : list (Q * Q * Q)), (forall a b e, In (a, b, e) l -> 0 <= a <= 1 /\ 0 <= b <= 1 /\ Qabs (a - b) <= e)%Q ->
    (0 <= product (map (fun x => fst (fst x)) l) <= 1 /\ 0 <= product (map (fun x => snd (fst x)) l) <= 1 /\
     Qabs (product (map (fun x => fst (fst x)) l) - product (map (fun x => snd (fst x)) l)) <= fold_right Qplus 0 (map snd l))%Q.
  Proof.
    induction l as [|[[a b] e] l IH]; intros H; [cbn; repeat split; discriminate|].
    destruct (IH (fun a b e I => H a b e (or_intror I))) as [[A1 A2] [[B1 B2] E]]. clear IH. destruct (H a b e (or_introl eq_refl)) as [[a1 a2] [[b1 b2] ae]]. clear H.
    unfold product in *. cbn [map fold_right fst snd]. set (x := fold_right Qmult 1%Q (map (fun x => fst (fst x)) l)) in *. set (y := fold_right Qmult 1%Q (map (fun x => snd (fst x)) l)) in *.
    set (z := fold_right Qplus 0%Q (map snd l)) in *. clearbody x y z. split; [split; nra|]. split; [split; nra|].
    assert (X : (a * x - b * y == (a - b) * x + b * (x - y))%Q) by ring. rewrite X. eapply Qle_trans; [apply Qabs_triangle|]. rewrite !Qabs_Qmult.
    rewrite (Qabs_pos x), (Qabs_pos b) by assumption. pose proof (Qabs_nonneg (a - b)). pose proof (Qabs_nonneg (x - y)). set (u := Qabs (a - b)) in *. set (v := Qabs (x - y)) in *. clearbody u v. nra.
  Qed.

  Lemma share_unit : forall n P, (0 <= share n P <= 1)%Q.
  Proof.
    intros n P. unfold share. rewrite bits53_draws. destruct (dsum_bounds bits53 n (fun l => if P l then 1 else 0) 1) as [A C]; [intros l _; destruct (P l); lia|].
    rewrite bits53_length in C. rewrite Z.pow_mul_r by lia. assert (Pb : 0 < (2 ^ 53) ^ Z.of_nat n) by (apply Z.pow_pos_nonneg; lia). set (b := (2 ^ 53) ^ Z.of_nat n) in *.
    set (c := dsum bits53 n _) in *. clearbody b c. assert (Pq : (0 < inject_Z b)%Q) by (change 0%Q with (inject_Z 0); rewrite <- Zlt_Qlt; lia). split.
    - apply Qle_shift_div_l; [exact Pq|]. rewrite Qmult_0_l. change 0%Q with (inject_Z 0). rewrite <- Zle_Qle. lia.
    - apply Qle_shift_div_r; [exact Pq|]. rewrite Qmult_1_l, <- Zle_Qle. lia.
  Qed.

  Lemma value_event : forall lines s v bits, is_value v (drawn_result R list_gen s lines bits) = drawn_event R s lines (stdout_is v) bits.
  Proof.
    intros lines s v bits. unfold drawn_result, drawn_event. destruct (roll_drawn R list_gen lines s bits) as [[s' [d|x]] g]; reflexivity.
  Qed.
  Lemma share_ext : forall n (P Q : list Z -> bool), (forall l, P l = Q l) -> share n P = share n Q.
  Proof. intros n P Q H. unfold share. rewrite !bits53_draws. rewrite (dsum_ext bits53 n _ (fun l => if Q l then 1 else 0)); [reflexivity|]. intros l _. now rewrite H. Qed.

  Lemma share_reported : forall lines d s1 v n, well_reported R lines d -> (length (dice_thrown lines) <= n)%nat ->
    (0 <= probability R d v <= 1 /\
     Qabs (share n (fun bits => is_value v (drawn_result R list_gen s1 lines bits)) - probability R d v) <= inject_Z (7 * sides_thrown (dice_thrown lines)) / inject_Z (2 ^ 53))%Q.
  Proof.
    intros lines d s1 v n [s [p [Hs [T [G [D [L [U Rp]]]]]]]] Hn. pose proof (reports_obtainable R s lines d Hs Rp) as O.
    destruct (uniform_sum R s lines p d (fun _ => 1) Hs T G (drawable_rollable p D) U Rp) as [Tp _]. split; [apply probability_unit; [exact O|lia]|].
    pose proof (reported_near R s s1 lines p d v n Hs T G D L U Rp Hn) as X. rewrite (share_ext n _ (drawn_event R s1 lines (stdout_is v))) by (apply value_event).
    unfold share, probability. rewrite (total_count R d (obtainable_dinv R d O)) in *. set (c := count_draws n _) in *. set (w := reported R d v) in *. set (t := d_count d) in *.
    set (sd := sides_thrown _) in *. assert (Pq : 0 < 2 ^ (53 * Z.of_nat n)) by (apply Z.pow_pos_nonneg; lia). set (q := 2 ^ (53 * Z.of_nat n)) in *. assert (Pb : 0 < 2 ^ 53) by lia. set (b := 2 ^ 53) in *.
    clearbody c w t sd q b.
    assert (Iq : (0 < inject_Z q)%Q) by (change 0%Q with (inject_Z 0); now rewrite <- Zlt_Qlt). assert (It : (0 < inject_Z t)%Q) by (change 0%Q with (inject_Z 0); now rewrite <- Zlt_Qlt).
    assert (Ib : (0 < inject_Z b)%Q) by (change 0%Q with (inject_Z 0); now rewrite <- Zlt_Qlt).
    assert (E : (inject_Z c / inject_Z q - inject_Z w / inject_Z t == inject_Z (c * t - w * q) / (inject_Z q * inject_Z t))%Q).
    { unfold Z.sub. rewrite inject_Z_plus, inject_Z_opp, !inject_Z_mult. field. split; intros F; rewrite F in *; now apply Qlt_irrefl in It + now apply Qlt_irrefl in Iq. }
    rewrite E. unfold Qdiv. rewrite Qabs_Qmult, (Qabs_pos (/ (inject_Z q * inject_Z t))) by (apply Qinv_le_0_compat; apply Qmult_le_0_compat; now apply Qlt_le_weak).
    change (Qabs (inject_Z (c * t - w * q))) with (inject_Z (Z.abs (c * t - w * q))). fold (inject_Z (Z.abs (c * t - w * q)) / (inject_Z q * inject_Z t))%Q.
    apply Qle_shift_div_r; [now apply Qmult_lt_0_compat|]. set (u := Z.abs _) in *. clearbody u. 
    apply (Qmult_le_l _ _ (inject_Z b) Ib).
    assert (F : (inject_Z b * (inject_Z (7 * sd) * / inject_Z b * (inject_Z q * inject_Z t)) == inject_Z (7 * sd * t * q))%Q).
    { rewrite !inject_Z_mult. field. intros F. rewrite F in Ib. now apply Qlt_irrefl in Ib. }
    rewrite F, <- inject_Z_mult, <- Zle_Qle. exact X.
  Qed.

  Lemma well_reported_self : forall lines d, well_reported R lines d -> self_contained lines.
  Proof. intros lines d [s [p [_ [T [G _]]]]]. exists p. split; [exact T|]. now apply good_runnable. Qed.

  Lemma calls_reported : forall s (calls : list (list text * (dist * Z))) n, Forall (fun c => well_reported R (fst c) (fst (snd c))) calls -> (all_dice (map fst calls) <= n)%nat ->
    (Qabs (share n (fun bits => all_hold (map (fun c => is_value (snd (snd c))) calls) (drawn_results R list_gen s (map fst calls) bits)) -
       product (map (fun c => probability R (fst (snd c)) (snd (snd c))) calls)) <= inject_Z (7 * sides_thrown (flat_map dice_thrown (map fst calls))) / inject_Z (2 ^ 53))%Q.
  Proof.
    intros s calls n F L. set (ev := map (fun c : list text * (dist * Z) => (fst c, is_value (snd (snd c)))) calls).
    assert (Fe : map fst ev = map fst calls) by (unfold ev; rewrite map_map; reflexivity). assert (Se : map snd ev = map (fun c => is_value (snd (snd c))) calls) by (unfold ev; rewrite map_map; reflexivity).
    assert (Sc : Forall self_contained (map fst ev)).
    { rewrite Fe. apply Forall_map. revert F. apply Forall_impl. intros c. apply well_reported_self. }
    pose proof (shares_multiply R s ev n Sc) as M. rewrite Fe, Se in M. rewrite (M L). clear M Fe Se Sc. unfold ev. rewrite map_map. clear ev. cbn [fst snd].
    set (sh := fun c : list text * (dist * Z) => share n (fun bits => is_value (snd (snd c)) (drawn_result R list_gen s (fst c) bits))).
    set (er := fun c : list text * (dist * Z) => (inject_Z (7 * sides_thrown (dice_thrown (fst c))) / inject_Z (2 ^ 53))%Q).
    set (pr := fun c : list text * (dist * Z) => probability R (fst (snd c)) (snd (snd c))).
    destruct (product_near (map (fun c => (sh c, pr c, er c)) calls)) as [_ [_ X]].
    - intros a b e I. apply in_map_iff in I. destruct I as [c [E I]]. injection E as <- <- <-. split; [apply share_unit|].
      pose proof (proj1 (Forall_forall _ _) F c I) as W. apply (share_reported (fst c) (fst (snd c)) s (snd (snd c)) n W).
      revert L. clear - I. unfold all_dice. induction calls as [|x calls IH]; [destruct I|]. cbn [map flat_map]. rewrite app_length. destruct I as [->|I]; [lia|]. intros L. apply IH; [exact I|lia].
    - rewrite !map_map in X. cbn [fst snd] in X. eapply Qle_trans; [exact X|]. apply Qle_lteq. right. clear. unfold er. clear. induction calls as [|c calls IH]; [reflexivity|].
      cbn [map fold_right flat_map]. rewrite IH, sides_app. set (a := sides_thrown (dice_thrown (fst c))). set (b := sides_thrown _). set (k := 2 ^ 53). assert (K : 0 < k) by (unfold k; lia). clearbody a b k.
      rewrite Z.mul_add_distr_l, inject_Z_plus. field. intros E. unfold Qeq in E. cbn in E. lia.
  Qed.

  (** *** Ideal weights *)
  Lemma weight_flat : forall A (L : list (Z * A)) (st : A -> option Z) (K : A -> list (Z * list (option Z))) v vs,
    weight_of (flat_map (fun run => map (fun wl => (fst run * fst wl, st (snd run) :: snd wl)) (K (snd run))) L) (v :: vs) =
    zsum (map (fun run => fst run * (if match st (snd run) with Some x => x =? v | None => false end then 1 else 0) * weight_of (K (snd run)) vs) L).
  Proof.
    intros A L st K v vs. unfold weight_of. induction L as [|[w a] L IH]; [reflexivity|]. cbn [flat_map map fst snd]. rewrite filter_app, map_app, zsum_app, IH, zsum_cons. f_equal.
    clear IH. generalize (K a). induction l as [|[x l0] l IH]; [destruct (st a) as [y|]; [destruct (y =? v)|]; cbn; lia|]. cbn [map filter fst snd same_values].
    destruct (st a) as [y|]; [destruct (y =? v)|]; cbn [andb] in *; [destruct (same_values l0 vs)| |]; cbn [map fst]; rewrite ?zsum_cons, IH; lia.
  Qed.
  Lemma weights_multiply : forall s0 s calls, Forall (fun c => exists p, program_text (fst c) p /\ runnable p /\ drawable p) calls ->
    weight_of (weighted_rolls R s (map fst calls)) (map snd calls) = fold_right Z.mul 1 (map (fun c => roll_weight R s0 (fst c) (snd c)) calls).
  Proof.
    intros s0 s calls F. revert s. induction calls as [|[lines v] calls IH]; intros s; [reflexivity|]. inversion F as [|? ? [p [T [P D]]] F2]; subst. specialize (IH F2). cbn [map fst snd fold_right weighted_rolls] in *.
    rewrite (weight_flat _ (roll R lines s) (stdout_of R) (fun run => weighted_rolls R (fst run) (map fst calls)) v (map snd calls)).
    set (k := fold_right Z.mul 1 (map (fun c => roll_weight R s0 (fst c) (snd c)) calls)) in *.
    rewrite (zsum_map_ext_in _ _ (fun run => fst run * (if match stdout_of R (snd run) with Some x => x =? v | None => false end then 1 else 0) * k) (roll R lines s)) by (intros run _; now rewrite IH).
    destruct (roll_semantics R s0 lines p T P D) as [_ [W0 _]]. destruct (roll_semantics R s lines p T P D) as [_ [W1 _]]. rewrite W0, <- W1. unfold roll_weight. clear.
    generalize (roll R lines s). induction l as [|[w run] l IH]; [reflexivity|]. cbn [map filter fst snd]. rewrite zsum_cons, IH. destruct (match stdout_of R run with Some x => x =? v | None => false end); cbn [map fst]; rewrite ?zsum_cons; lia.
  Qed.
End Reported.
