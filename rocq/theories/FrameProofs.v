(** * FrameProofs: exchanging and leaving out lines that do not matter *)
From Verif Require Import Py PyFacts PyFloat Constraint Distribution DiceModel Expr Parser Interp SpecProgram SpecInterp SpecCalls SpecFrame StateFacts CallFacts.

Section Proofs.
  Context (R : Runtime).
  Notation state := (state R).
  Notation dist := (dist R).

  (** ** Computations that live on some names *)
  Definition same_at (n : text) (s s' : state) : Prop := constant R s n = constant R s' n /\ variable R s n = variable R s' n /\ times_of R s n = times_of R s' n.
  Definition agree (N : text -> Prop) (s s' : state) : Prop := forall n, N n -> same_at n s s'.
  (** [m] only depends on the names in [N] and only changes those in [K] *)
  Definition local {A} (N K : text -> Prop) (m : M R A) : Prop := forall s,
    (forall s', agree N s s' -> snd (m s) = snd (m s') /\ agree N (fst (m s)) (fst (m s'))) /\ agree (fun n => ~ K n) s (fst (m s)).

  Lemma same_at_refl : forall n s, same_at n s s.
  Proof. repeat split. Qed.
  Lemma same_at_sym : forall n s s', same_at n s s' -> same_at n s' s.
  Proof. intros n s s' [A [B C]]. repeat split; congruence. Qed.
  Lemma same_at_trans : forall n a b c, same_at n a b -> same_at n b c -> same_at n a c.
  Proof. intros n a b c [A [B C]] [A' [B' C']]. repeat split; congruence. Qed.

  Lemma local_lift : forall A N K (r : res A), local N K (lift R r).
  Proof. intros A N K r s. split; [intros s' H; now split|]. intros n _. apply same_at_refl. Qed.
  Lemma local_bind : forall A B N K (m : M R A) (f : A -> M R B), local N K m -> (forall a, local N K (f a)) -> local N K (bind R m f).
  Proof.
    intros A B N K m f Hm Hf s. destruct (Hm s) as [Hs Ho]. unfold bind. split.
    - intros s' G. destruct (Hs s' G) as [E G']. destruct (m s) as [s1 [a|x]], (m s') as [s1' [a'|x']]; cbn [fst snd] in *; try discriminate; [|split; [congruence|exact G']].
      injection E as ->. now apply Hf.
    - destruct (m s) as [s1 [a|x]]; cbn [fst snd] in *; [|exact Ho]. intros n Kn. eapply same_at_trans; [now apply Ho|]. now apply Hf.
  Qed.

  Lemma text_neq : forall n m : text, n = m \/ n <> m.
  Proof. intros n m. destruct (text_eqb n m) eqn:E; [left; now apply text_eqb_eq|right; intros ->; rewrite text_eqb_refl in E; discriminate]. Qed.

  Lemma same_bumped : forall m n s s', same_at m s s' -> times_of R (bumped R s n) m = times_of R (bumped R s' n) m.
  Proof. intros m n s s' [_ [_ T]]. destruct (text_neq m n) as [->|D]; [rewrite !times_bumped_same; congruence|rewrite !times_bumped_other by auto; exact T]. Qed.

  Lemma local_set_const : forall (N K : text -> Prop) n v, N n -> K n -> local N K (set_const_m R n v).
  Proof.
    intros N K n v Nn Kn s. unfold set_const_m. cbn [fst snd]. split.
    - intros s' G. split; [reflexivity|]. intros m Nm. pose proof (G m Nm) as S0. split; [|split].
      + unfold constant. cbn [set_constant st_const]. destruct (text_neq m n) as [->|D]; [now rewrite !dget_dset_same by auto using text_eqb_iff|].
        rewrite !dget_dset_other by auto using text_eqb_iff. apply S0.
      + exact (proj1 (proj2 S0)).
      + exact (same_bumped m n s s' S0).
    - intros m Km. assert (D : m <> n) by (intros ->; auto). split; [|split].
      + unfold constant. cbn [set_constant st_const]. now rewrite dget_dset_other by auto using text_eqb_iff.
      + reflexivity.
      + symmetry. exact (times_bumped_other R s n m D).
  Qed.

  Lemma local_set_var : forall (N K : text -> Prop) n d, N n -> K n -> local N K (set_var R n d).
  Proof.
    intros N K n d Nn Kn s. split.
    - intros s' G. pose proof (same_bumped n n s s' (G n Nn)) as B. unfold set_var. fold (bumped R s n). fold (bumped R s' n). rewrite B.
      destruct (tag_dist R _ d) as [d'|x]; cbn [fst snd]; (split; [reflexivity|]); intros m Nm; pose proof (G m Nm) as S0; pose proof (same_bumped m n s s' S0) as Bm.
      + split; [exact (proj1 S0)|]. split; [|exact Bm]. unfold variable. cbn [st_var bumped]. destruct (text_neq m n) as [->|D]; [now rewrite !dget_dset_same by auto using text_eqb_iff|].
        rewrite !dget_dset_other by auto using text_eqb_iff. apply S0.
      + split; [exact (proj1 S0)|]. split; [exact (proj1 (proj2 S0))|exact Bm].
    - intros m Km. assert (D : m <> n) by (intros ->; auto). unfold set_var. fold (bumped R s n). destruct (tag_dist R _ d) as [d'|x]; cbn [fst snd].
      + split; [reflexivity|]. split; [|symmetry; exact (times_bumped_other R s n m D)]. unfold variable. cbn [st_var bumped]. now rewrite dget_dset_other by auto using text_eqb_iff.
      + split; [reflexivity|]. split; [reflexivity|]. symmetry; exact (times_bumped_other R s n m D).
  Qed.
  Lemma local_get_var : forall (N K : text -> Prop) n, N n -> local N K (fun s => (s, get_var R n s)).
  Proof.
    intros N K n Nn s. split; [|intros m _; apply same_at_refl]. intros s' G. split; [|exact G]. cbn [snd]. unfold get_var. destruct (G n Nn) as [_ [V _]]. unfold variable in V. now rewrite V.
  Qed.
  Lemma local_get_constant : forall (N K : text -> Prop) n, N n -> local N K (fun s => (s, get_constant R n s)).
  Proof.
    intros N K n Nn s. split; [|intros m _; apply same_at_refl]. intros s' G. split; [|exact G]. cbn [snd]. unfold get_constant. destruct (G n Nn) as [V _]. unfold constant in V. now rewrite V.
  Qed.

  Definition within_names (N K : text -> Prop) (e : expr) : Prop := (forall n, In n (reads e) -> N n) /\ (forall n, In n (assigned e) -> N n /\ K n).
  Lemma within_left : forall N K a b e, within_names N K e -> reads e = reads a ++ reads b -> assigned e = assigned a ++ assigned b -> within_names N K a /\ within_names N K b.
  Proof.
    intros N K a b e [H1 H2] E1 E2. rewrite E1 in H1. rewrite E2 in H2.
    split; (split; intros n I; [apply H1|apply H2]; apply in_or_app; auto).
  Qed.

  Lemma local_binop : forall N K op a b, local N K a -> local N K b -> local N K (binop_m R op a b).
  Proof. intros N K op a b A B. apply local_bind; [exact A|]. intros x. apply local_bind; [exact B|]. intros y. apply local_lift. Qed.

  Lemma local_dist : forall N K e, within_names N K e -> local N K (dist_of R e).
  Proof.
    intros N K. induction e; intros W; cbn [dist_of]; try (apply within_left with (a := e1) (b := e2) in W; [destruct W as [W1 W2]|reflexivity..]);
      try (now apply local_binop; auto); try apply local_lift.
    - now apply IHe.
    - apply local_bind; [now apply IHe|]. intros x. apply local_lift.
    - destruct (dk_simple d) as [[]|]; apply local_lift.
    - destruct (dist_operator _); [now apply local_binop; auto|apply local_lift].
    - apply local_bind; [now apply IHe|]. intros x. apply local_lift.
    - destruct W as [W1 W2]. destruct (W2 name (or_introl eq_refl)) as [Nn Kn]. apply local_bind; [apply IHe; split; [exact W1|intros m I; apply W2; now right]|]. intros d.
      apply local_bind; [now apply local_set_var|]. intros _. apply local_lift.
    - apply local_get_var. apply (proj1 W). now left.
  Qed.

  Lemma local_via : forall N K mx e, within_names N K e -> local N K (ext_via_dist R mx e).
  Proof. intros N K mx e W. apply local_bind; [now apply local_dist|]. intros d. apply local_lift. Qed.
  Lemma local_ext : forall N K mx e, within_names N K e -> local N K (ext_of R mx e).
  Proof.
    intros N K mx. induction e; intros W; cbn [ext_of]; try (now apply local_via); try apply local_lift.
    - now apply IHe.
    - destruct (dk_simple d) as [[]|]; apply local_lift.
    - pose proof W as W'. apply within_left with (a := e1) (b := e2) in W'; [|reflexivity..]. apply local_bind; [now apply local_dist|]. intros d.
      destruct (contains_zero R d); [apply local_lift|now apply local_via].
    - apply within_left with (a := e1) (b := e2) in W; [|reflexivity..]. destruct W as [W1 W2]. destruct (minmax_operator _); [|apply local_lift].
      apply local_bind; [now apply IHe1|]. intros x. apply local_bind; [now apply IHe2|]. intros y. apply local_lift.
    - destruct W as [W1 W2]. destruct (W2 name (or_introl eq_refl)) as [Nn Kn]. assert (W : within_names N K e) by (split; [exact W1|intros m I; apply W2; now right]).
      apply local_bind; [now apply IHe|]. intros v. apply local_bind; [now apply local_set_const|]. intros _. apply local_bind; [now apply local_dist|]. intros d.
      apply local_bind; [now apply local_set_var|]. intros _. apply local_lift.
    - apply local_get_constant. apply (proj1 W). now left.
  Qed.
  Lemma local_cost : forall N K e, within_names N K e -> local N K (cost_of R e).
  Proof.
    assert (S0 : forall N K a b, local N K a -> local N K b -> local N K (cost_sum R a b)).
    { intros N K a b A B. apply local_bind; [exact A|]. intros x. apply local_bind; [exact B|]. intros y. apply local_lift. }
    intros N K. induction e; intros W; cbn [cost_of]; try (apply within_left with (a := e1) (b := e2) in W; [destruct W as [W1 W2]|reflexivity..]);
      try (now apply S0; auto); try (now apply IHe); try apply local_lift.
    - apply local_bind; [now apply IHe|]. intros x. apply local_lift.
    - destruct (dk_simple d) as [[]|]; apply local_lift.
    - destruct W as [W1 W2]. destruct (W2 name (or_introl eq_refl)) as [Nn Kn]. apply local_bind; [apply IHe; split; [exact W1|intros m I; apply W2; now right]|]. intros c.
      apply local_bind; [now apply local_set_const|]. intros _. apply local_lift.
    - apply local_get_constant. apply (proj1 W). now left.
  Qed.

  (** ** The names of lines *)
  Definition line_assigns (lines : list text) : list text := flat_map (fun t => match parse t with Ok e => assigned e | Raise _ => [] end) lines.
  Lemma assigns_iff : forall lines n, assigns lines n <-> In n (line_assigns lines).
  Proof.
    intros lines n. unfold assigns, line_assigns. rewrite in_flat_map. split.
    - intros [t [e [I [P H]]]]. exists t. split; [exact I|]. now rewrite P.
    - intros [t [I H]]. destruct (parse t) as [e|x] eqn:P; [|destruct H]. now exists t, e.
  Qed.
  Lemma assigns_dec : forall lines n, {assigns lines n} + {~ assigns lines n}.
  Proof.
    intros lines n. destruct (in_dec (list_eq_dec Ascii.ascii_dec) n (line_assigns lines)) as [H|H]; [left|right]; now rewrite assigns_iff.
  Qed.
  Lemma touches_app : forall l1 l2 n, touches (l1 ++ l2) n <-> touches l1 n \/ touches l2 n.
  Proof.
    intros l1 l2 n. unfold touches, mentions_name, assigns. split.
    - intros [[t [e [I H]]]|[t [e [I H]]]]; apply in_app_or in I; destruct I as [I|I]; [left; left|right; left|left; right|right; right]; exists t, e; tauto.
    - intros [[[t [e [I H]]]|[t [e [I H]]]]|[[t [e [I H]]]|[t [e [I H]]]]]; [left|right|left|right]; exists t, e; (split; [apply in_or_app; tauto|tauto]).
  Qed.
  (** The names that a line may change: it also sets stdout *)
  Definition changes (lines : list text) (n : text) : Prop := n = stdout \/ assigns lines n.
  Lemma changes_dec : forall lines n, {changes lines n} + {~ changes lines n}.
  Proof.
    intros lines n. destruct (list_eq_dec Ascii.ascii_dec n stdout) as [->|D]; [left; now left|]. destruct (assigns_dec lines n); [left; now right|right]. intros [E|E]; auto.
  Qed.
  Lemma line_within : forall lines l e, In l lines -> parse l = Ok e -> within_names (touches lines) (changes lines) e.
  Proof.
    intros lines l e I P. split; intros n H.
    - left. now exists l, e.
    - split; right; now exists l, e.
  Qed.

  Definition lives (A : Type) (step : text -> M R A) : Prop := forall lines l, In l lines -> local (touches lines) (changes lines) (step l).

  (** ** Lines one after the other *)
  Section Steps.
    Context {A : Type} (step : text -> M R A) (Hstep : lives A step).
    Fixpoint run (lines : list text) : M R unit := match lines with [] => ret R tt | l :: lines' => bind R (step l) (fun _ => run lines') end.
    (** Runs the lines and returns the result of the last one *)
    Fixpoint steps (last : option A) (lines : list text) : M R (option A) :=
      match lines with [] => ret R last | l :: lines' => bind R (step l) (fun a => steps (Some a) lines') end.
    Lemma steps_run : forall l1 l2 a b s, l2 <> [] -> steps a (l1 ++ l2) s = bind R (run l1) (fun _ => steps b l2) s.
    Proof.
      induction l1 as [|l l1 IH]; intros l2 a b s N; [now destruct l2|]. cbn [app steps run]. unfold bind at 1 2 3. destruct (step l s) as [s' [c|x]]; [|reflexivity]. now rewrite (IH l2 (Some c) b).
    Qed.
    Lemma run_raises : forall lines a s x, snd (run lines s) = Raise x <-> snd (steps a lines s) = Raise x.
    Proof.
      induction lines as [|l lines IH]; intros a s x; cbn [steps run]; [split; discriminate|]. unfold bind. destruct (step l s) as [s' [c|y]]; [apply IH|]. cbn [snd]. split; intros E; injection E as ->; reflexivity.
    Qed.
    Lemma run_app : forall l1 l2 s, run (l1 ++ l2) s = bind R (run l1) (fun _ => run l2) s.
    Proof. induction l1 as [|l l1 IH]; intros l2 s; [reflexivity|]. cbn [app run]. unfold bind at 1 2 3. destruct (step l s) as [s' [c|x]]; [apply IH|reflexivity]. Qed.

    Lemma local_run : forall lines, local (touches lines) (changes lines) (run lines).
    Proof.
      intros lines. assert (X : forall l, (forall x, In x l -> In x lines) -> local (touches lines) (changes lines) (run l)); [|now apply X].
      induction l as [|x l IH]; intros H; cbn [run]; [apply local_lift|]. apply local_bind; [apply Hstep; apply H; now left|]. intros _. apply IH. intros y I. apply H. now right.
    Qed.
    Lemma local_steps : forall a lines, local (touches lines) (changes lines) (steps a lines).
    Proof.
      intros a lines. assert (X : forall l a, (forall x, In x l -> In x lines) -> local (touches lines) (changes lines) (steps a l)); [|now apply X].
      induction l as [|x l IH]; intros b H; cbn [steps]; [apply local_lift|]. apply local_bind; [apply Hstep; apply H; now left|]. intros c. apply IH. intros y I. apply H. now right.
    Qed.
  End Steps.

  Lemma swap : forall A B (N1 K1 N2 K2 : text -> Prop) (m1 : M R A) (m2 : M R B), local N1 K1 m1 -> local N2 K2 m2 -> (forall n, K1 n -> ~ N2 n) -> (forall n, K2 n -> ~ N1 n) ->
    (forall n, {K1 n} + {~ K1 n}) -> (forall n, {K2 n} + {~ K2 n}) -> (forall n, K1 n -> N1 n \/ K2 n) -> (forall n, K2 n -> N2 n \/ K1 n) -> forall s s1 a s12 b, m1 s = (s1, Ok a) -> m2 s1 = (s12, Ok b) ->
    exists s2 s21, m2 s = (s2, Ok b) /\ m1 s2 = (s21, Ok a) /\ agree (fun n => ~ (K1 n /\ K2 n)) s12 s21.
  Proof.
    intros A B N1 K1 N2 K2 m1 m2 L1 L2 D1 D2 Dec1 Dec2 C1 C2 s s1 a s12 b E1 E2.
    destruct (L1 s) as [_ O1]. rewrite E1 in O1. cbn [fst] in O1.
    destruct (L2 s) as [H2 O2]. destruct (L2 s1) as [_ O12]. rewrite E2 in O12. cbn [fst] in O12.
    assert (G2 : agree N2 s s1) by (intros n Nn; apply O1; intros Kn; now apply (D1 n Kn)).
    destruct (H2 s1 G2) as [R2 A2]. rewrite E2 in R2, A2. cbn [fst snd] in R2, A2. destruct (m2 s) as [s2 r2] eqn:M2. cbn [fst snd] in *. subst r2. exists s2.
    assert (G1 : agree N1 s s2) by (intros n Nn; apply O2; intros Kn; now apply (D2 n Kn)).
    destruct (L1 s) as [H1 _]. destruct (H1 s2 G1) as [R1 A1]. rewrite E1 in R1, A1. cbn [fst snd] in R1, A1. destruct (L1 s2) as [_ O21]. destruct (m1 s2) as [s21 r1] eqn:M1. cbn [fst snd] in *. subst r1.
    exists s21. split; [reflexivity|]. split; [reflexivity|]. intros n Hn. destruct (Dec1 n) as [K|K].
    - assert (K2n : ~ K2 n) by tauto. apply same_at_trans with s1; [apply same_at_sym; now apply O12|]. apply A1. destruct (C1 n K); [assumption|tauto].
    - apply same_at_trans with s2; [|now apply O21]. destruct (Dec2 n) as [K'|K'].
      + apply same_at_sym, A2. destruct (C2 n K'); [assumption|tauto].
      + apply same_at_trans with s1; [apply same_at_sym; now apply O12|]. apply same_at_trans with s; [apply same_at_sym; now apply O1|now apply O2].
  Qed.

  Lemma local_result : forall A (N K : text -> Prop) (m : M R A) s s', local N K m -> agree N s s' -> snd (m s) = snd (m s').
  Proof. intros A N K m s s' L G. now apply (L s). Qed.
  (** States that agree except for stdout still do after the same lines *)
  Lemma local_after : forall A (m : M R A) lines s s', ~ touches lines stdout -> local (touches lines) (changes lines) m -> agree (fun n => n <> stdout) s s' ->
    snd (m s) = snd (m s') /\ agree (fun n => n <> stdout) (fst (m s)) (fst (m s')).
  Proof.
    intros A m lines s s' St L G. destruct (L s) as [H O]. destruct (L s') as [_ O']. destruct (H s') as [E G']; [intros n T; apply G; intros ->; auto|]. split; [exact E|].
    intros n Nn. destruct (assigns_dec lines n) as [An|An].
    - apply G'. now right.
    - apply same_at_trans with s; [apply same_at_sym, O; intros [X|X]; auto|]. apply same_at_trans with s'; [now apply G|]. apply O'. intros [X|X]; auto.
  Qed.

  Section Exchange.
    Context {A : Type} (step : text -> M R A) (Hstep : lives A step).
    Lemma exchange_steps : forall d1 d2 l2 a s, separate d1 d2 -> ~ touches (d1 ++ d2 ++ l2) stdout -> l2 <> [] ->
      match steps step a (d1 ++ d2 ++ l2) s, steps step a (d2 ++ d1 ++ l2) s with
      | (s', Ok o), (t', Ok o') => o = o' /\ agree (fun n => n <> stdout) s' t'
      | (_, Raise x), (_, Raise y) => x = y \/ (snd (run step d1 s) = Raise x /\ snd (run step d2 s) = Raise y)
      | _, _ => False
      end.
    Proof.
      intros d1 d2 l2 a s Sep St Nl. rewrite !touches_app in St.
      assert (N1 : d1 ++ l2 <> []) by (destruct d1; [exact Nl|discriminate]). assert (N2 : d2 ++ l2 <> []) by (destruct d2; [exact Nl|discriminate]).
      rewrite (steps_run step d1 (d2 ++ l2) a None s N2), (steps_run step d2 (d1 ++ l2) a None s N1). unfold bind.
      assert (L1 : local (touches d1) (changes d1) (run step d1)) by now apply local_run.
      assert (L2 : local (touches d2) (changes d2) (run step d2)) by now apply local_run.
      assert (L3 : local (touches l2) (changes l2) (steps step None l2)) by now apply local_steps.
      assert (D1 : forall n, changes d1 n -> ~ touches d2 n) by (intros n [->|H]; [tauto|now apply (Sep n)]).
      assert (D2 : forall n, changes d2 n -> ~ touches d1 n) by (intros n [->|H]; [tauto|now apply (Sep n)]).
      pose proof (fun s1 => local_result _ _ _ _ s s1 L2) as R2. pose proof (fun s2 => local_result _ _ _ _ s s2 L1) as R1.
      destruct (L1 s) as [_ O1]. destruct (L2 s) as [_ O2].
      destruct (run step d1 s) as [s1 r1] eqn:E1. destruct (run step d2 s) as [s2 r2] eqn:E2. cbn [fst snd] in *.
      assert (G2 : agree (touches d2) s s1) by (intros n H; apply O1; intros X; now apply (D1 n X)).
      assert (G1 : agree (touches d1) s s2) by (intros n H; apply O2; intros X; now apply (D2 n X)).
      specialize (R2 s1 G2). specialize (R1 s2 G1). destruct r1 as [[]|x].
      - rewrite (steps_run step d2 l2 None None s1 Nl). unfold bind. destruct (run step d2 s1) as [s12 r12] eqn:E12. cbn [snd] in R2. subst r12. destruct r2 as [[]|y].
        + rewrite (steps_run step d1 l2 None None s2 Nl). unfold bind. destruct (run step d1 s2) as [s21 r21] eqn:E21. cbn [snd] in R1. subst r21.
          assert (G : agree (fun n => n <> stdout) s12 s21).
          { destruct (swap unit unit (touches d1) (changes d1) (touches d2) (changes d2) (run step d1) (run step d2)) with (s := s) (s1 := s1) (a := tt) (s12 := s12) (b := tt) as [t2 [t21 [X1 [X2 X3]]]];
              auto using changes_dec.
            - intros n [->|H]; [right; now left|left; now right].
            - intros n [->|H]; [right; now left|left; now right].
            - rewrite E2 in X1. injection X1 as <-. rewrite E21 in X2. injection X2 as <-. intros n Nn. apply X3. intros [[H1|H1] [H2|H2]]; try congruence. destruct (Sep n) as [Y _]. apply (Y H1). now right. }
          destruct (local_after _ _ l2 s12 s21 ltac:(tauto) L3 G) as [Er Gr].
          destruct (steps step None l2 s12) as [t r], (steps step None l2 s21) as [t' r']. cbn [fst snd] in *. subst r'. destruct r; [now split|now left].
        + now left.
      - destruct r2 as [[]|y].
        + rewrite (steps_run step d1 l2 None None s2 Nl). unfold bind. destruct (run step d1 s2) as [s21 r21]. cbn [snd] in R1. subst r21. now left.
        + now right.
    Qed.

    (** Leaving out lines *)
    Lemma omit_steps : forall d l2 a s s1 u, (forall n, assigns d n -> ~ touches l2 n) -> ~ touches l2 stdout -> l2 <> [] -> run step d s = (s1, Ok u) ->
      match steps step a (d ++ l2) s, steps step a l2 s with
      | (s', Ok o), (t', Ok o') => o = o' /\ agree (fun n => ~ changes d n) s' t'
      | (_, Raise x), (_, Raise y) => x = y
      | _, _ => False
      end.
    Proof.
      intros d l2 a s s1 u Sep St Nl E. assert (G : agree (fun n => ~ changes d n) s s1) by (destruct (local_run step Hstep d s) as [_ O]; now rewrite E in O). rewrite (steps_run step d l2 a a s Nl). unfold bind. rewrite E.
      assert (L : local (touches l2) (changes l2) (steps step a l2)) by now apply local_steps. destruct (L s1) as [H O]. destruct (L s) as [_ O'].
      destruct (H s) as [Er Gr]; [intros n T; apply same_at_sym, G; intros [->|X]; [auto|now apply (Sep n)]|].
      destruct (steps step a l2 s1) as [t r], (steps step a l2 s) as [t' r']. cbn [fst snd] in *. subst r'. destruct r; [|reflexivity]. split; [reflexivity|]. intros n Hn.
      destruct (assigns_dec l2 n) as [An|An]; [apply Gr; now right|].
      assert (Cn : ~ changes l2 n) by (intros [->|X]; [apply Hn; now left|auto]). apply same_at_trans with s1; [apply same_at_sym; now apply O|].
      apply same_at_trans with s; [apply same_at_sym; now apply G|now apply O'].
    Qed.
  End Exchange.

  (** ** Distributions *)
  Lemma local_stdout_var : forall (N K : text -> Prop) d, K stdout -> local N K (fun s => (set_stdout_var R d s, Ok d)).
  Proof.
    intros N K d Ks s. cbn [fst snd]. split.
    - intros s' G. split; [reflexivity|]. intros n Nn. destruct (G n Nn) as [C [V T]]. split; [exact C|]. split; [|exact T]. unfold variable. cbn [set_stdout_var st_var].
      destruct (text_neq n stdout) as [->|D]; [now rewrite !dget_dset_same by auto using text_eqb_iff|]. now rewrite !dget_dset_other by auto using text_eqb_iff.
    - intros n Kn. split; [reflexivity|]. split; [|reflexivity]. unfold variable. cbn [set_stdout_var st_var]. rewrite dget_dset_other; auto using text_eqb_iff. intros ->. auto.
  Qed.
  Lemma local_stdout_const : forall A (N K : text -> Prop) v (a : A), K stdout -> local N K (fun s => (set_stdout_const R v s, Ok a)).
  Proof.
    intros A N K v a Ks s. cbn [fst snd]. split.
    - intros s' G. split; [reflexivity|]. intros n Nn. destruct (G n Nn) as [C [V T]]. split; [|split; [exact V|exact T]]. unfold constant. cbn [set_stdout_const st_const].
      destruct (text_neq n stdout) as [->|D]; [now rewrite !dget_dset_same by auto using text_eqb_iff|]. now rewrite !dget_dset_other by auto using text_eqb_iff.
    - intros n Kn. split; [|split; reflexivity]. unfold constant. cbn [set_stdout_const st_const]. rewrite dget_dset_other; auto using text_eqb_iff. intros ->. auto.
  Qed.
  Lemma local_parsed : forall A (f : expr -> M R A) lines l, In l lines -> (forall e, within_names (touches lines) (changes lines) e -> local (touches lines) (changes lines) (f e)) ->
    local (touches lines) (changes lines) (bind R (lift R (parse l)) f).
  Proof.
    intros A f lines l I H. destruct (parse l) as [e|x] eqn:P.
    - intros s. apply (H e (line_within lines l e I P) s).
    - intros s. apply (local_lift A (touches lines) (changes lines) (Raise x) s).
  Qed.

  Lemma dist_lives : lives dist (dist_line R).
  Proof.
    intros lines l I. apply local_parsed; [exact I|]. intros e W. apply local_bind; [now apply local_dist|]. intros d. apply local_stdout_var. now left.
  Qed.
  Lemma dist_lines_steps : forall lines a s, dist_lines R true lines s = bind R (steps (dist_line R) a lines) (fun _ s' => (s', Ok (st_var s'))) s.
  Proof.
    induction lines as [|l lines IH]; intros a s; [reflexivity|]. cbn [dist_lines steps]. unfold bind at 1 2 3. destruct (dist_line R l s) as [s' [d|x]]; [apply IH|reflexivity].
  Qed.
  Lemma distributions_steps : forall lines s, lines <> [] ->
    get_probability_distributions R lines s = bind R (steps (dist_line R) None lines) (fun _ s' => (s', Ok (st_var s'))) s.
  Proof. intros [|l lines] s N; [congruence|]. exact (dist_lines_steps (l :: lines) None s). Qed.
  Lemma distributions_raise : forall lines s x, snd (run (dist_line R) lines s) = Raise x -> snd (get_probability_distributions R lines s) = Raise x.
  Proof.
    intros lines s x H. destruct lines as [|l lines]; [discriminate|]. rewrite distributions_steps by discriminate. apply (run_raises _ _ None) in H. unfold bind.
    destruct (steps _ _ _ s) as [s' [o|y]]; [discriminate|]. cbn [snd] in *. congruence.
  Qed.
  Lemma distributions_ok : forall lines s s' d, get_probability_distributions R lines s = (s', Ok d) -> run (dist_line R) lines s = (s', Ok tt).
  Proof.
    intros lines s s' d H. unfold get_probability_distributions in H. revert H. generalize false. revert s. induction lines as [|l lines IH]; intros s b H; [injection H as <- _; reflexivity|].
    cbn [dist_lines run] in *. unfold bind in *. destruct (dist_line R l s) as [s1 [x|x]]; [now apply (IH s1 true)|discriminate].
  Qed.
  Lemma steps_stdout : forall lines a s s' o, steps (dist_line R) a lines s = (s', Ok o) -> (forall d, a = Some d -> variable R s stdout = Some d) ->
    (lines <> [] \/ a <> None) -> exists d, o = Some d /\ variable R s' stdout = Some d.
  Proof.
    induction lines as [|l lines IH]; intros a s s' o H V Nl.
    - injection H as <- <-. destruct a as [d|]; [|destruct Nl; congruence]. exists d. auto.
    - cbn [steps] in H. unfold bind in H. destruct (dist_line R l s) as [s1 [d|x]] eqn:L; [|discriminate]. apply (IH (Some d) s1 s' o H); [|right; discriminate].
      intros d' E. injection E as <-. unfold dist_line, bind in L. destruct (lift R (parse l) s) as [s0 [e|x]]; [|discriminate]. destruct (dist_of R e s0) as [s2 [d2|x]]; [|discriminate].
      injection L as <- <-. unfold variable. cbn [set_stdout_var st_var]. apply dget_dset_same. apply text_eqb_iff.
  Qed.
  Lemma exchange_distributions : forall d1 d2 l2 s, separate d1 d2 -> ~ touches (d1 ++ d2 ++ l2) stdout -> l2 <> [] ->
    exchanged same_entries (snd (get_probability_distributions R d1 s)) (snd (get_probability_distributions R d2 s))
      (snd (get_probability_distributions R (d1 ++ d2 ++ l2) s)) (snd (get_probability_distributions R (d2 ++ d1 ++ l2) s)).
  Proof.
    intros d1 d2 l2 s Sep St Nl. pose proof (exchange_steps (dist_line R) dist_lives d1 d2 l2 None s Sep St Nl) as H.
    assert (M1 : d1 ++ d2 ++ l2 <> []) by (destruct d1, d2; auto; discriminate). assert (M2 : d2 ++ d1 ++ l2 <> []) by (destruct d1, d2; auto; discriminate).
    rewrite (distributions_steps _ s M1), (distributions_steps _ s M2). unfold bind.
    destruct (steps (dist_line R) None (d1 ++ d2 ++ l2) s) as [s' [o|x]] eqn:E1, (steps (dist_line R) None (d2 ++ d1 ++ l2) s) as [t' [o'|y]] eqn:E2; cbn [snd exchanged]; try contradiction.
    - destruct H as [<- G]. intros n. destruct (text_neq n stdout) as [->|D]; [|now apply (G n)].
      apply steps_stdout in E1; [|discriminate|now left]. apply steps_stdout in E2; [|discriminate|now left]. destruct E1 as [a [E1 V1]], E2 as [b [E2 V2]].
      rewrite E1 in E2. injection E2 as <-. unfold variable in *. congruence.
    - destruct H as [->|[H1 H2]]; [now left|right]. split; now apply distributions_raise.
  Qed.
  Lemma omit_distributions : forall d l2 s s1 dict, (forall n, assigns d n -> ~ touches l2 n) -> ~ touches l2 stdout -> l2 <> [] -> get_probability_distributions R d s = (s1, Ok dict) ->
    unaffected (fun a b => forall n, n = stdout \/ ~ assigns d n -> dget text_eqb a n = dget text_eqb b n) (snd (get_probability_distributions R (d ++ l2) s)) (snd (get_probability_distributions R l2 s)).
  Proof.
    intros d l2 s s1 dict Sep St Nl E. apply distributions_ok in E. pose proof (omit_steps (dist_line R) dist_lives d l2 None s s1 tt Sep St Nl E) as H.
    assert (M1 : d ++ l2 <> []) by (destruct d; auto; discriminate). rewrite (distributions_steps _ s M1), (distributions_steps _ s Nl). unfold bind.
    destruct (steps (dist_line R) None (d ++ l2) s) as [s' [o|x]] eqn:E1, (steps (dist_line R) None l2 s) as [t' [o'|y]] eqn:E2; cbn [snd unaffected]; try contradiction; [|exact H].
    destruct H as [<- G]. intros n An. destruct (text_neq n stdout) as [->|D]; [|apply (G n); intros [X|X]; tauto].
    apply steps_stdout in E1; [|discriminate|now left]. apply steps_stdout in E2; [|discriminate|now left]. destruct E1 as [a [E1 V1]], E2 as [b [E2 V2]].
    rewrite E1 in E2. injection E2 as <-. unfold variable in *. congruence.
  Qed.

  (** ** Histograms *)
  Definition shown_line (l : text) : M R dist := bind R (lift R (parse l)) (fun e => dist_of R e).
  Lemma shown_lives : lives dist shown_line.
  Proof. intros lines l I. apply local_parsed; [exact I|]. intros e W. now apply local_dist. Qed.
  Lemma last_dist_steps : forall lines a s, last_dist R a lines s = bind R (steps shown_line (Some a) lines) (fun o s' => (s', Ok (match o with Some d => d | None => a end))) s.
  Proof.
    induction lines as [|l lines IH]; intros a s; [reflexivity|]. cbn [last_dist steps]. unfold shown_line at 1. unfold bind at 1 2 3 4 5. destruct (lift R (parse l) s) as [s0 [e|x]]; [|reflexivity].
    destruct (dist_of R e s0) as [s1 [d|x]]; [|reflexivity]. rewrite IH. unfold bind. destruct (steps shown_line (Some d) lines s1) as [s2 [[o|]|x]] eqn:E; try reflexivity.
    exfalso. clear - E. revert d s1 E. induction lines as [|l lines IH]; intros d s1 E; [cbn in E; discriminate|]. cbn [steps] in E. unfold bind in E. destruct (shown_line l s1) as [s' [c|x]]; [eauto|discriminate].
  Qed.
  Lemma exchange_shown : forall d1 d2 l2 a s, separate d1 d2 -> ~ touches (d1 ++ d2 ++ l2) stdout -> l2 <> [] ->
    exchanged eq (snd (last_dist R a d1 s)) (snd (last_dist R a d2 s)) (snd (last_dist R a (d1 ++ d2 ++ l2) s)) (snd (last_dist R a (d2 ++ d1 ++ l2) s)).
  Proof.
    intros d1 d2 l2 a s Sep St Nl. pose proof (exchange_steps shown_line shown_lives d1 d2 l2 (Some a) s Sep St Nl) as H.
    assert (Ra : forall l x, snd (run shown_line l s) = Raise x -> snd (last_dist R a l s) = Raise x).
    { intros l x E. apply (run_raises _ _ (Some a)) in E. rewrite last_dist_steps. unfold bind. destruct (steps shown_line (Some a) l s) as [s' [o|y]]; [discriminate|]. cbn [snd] in *. congruence. }
    rewrite !(last_dist_steps (_ ++ _ ++ _)). unfold bind.
    destruct (steps shown_line (Some a) (d1 ++ d2 ++ l2) s) as [s' [o|x]], (steps shown_line (Some a) (d2 ++ d1 ++ l2) s) as [t' [o'|y]]; cbn [snd exchanged]; try contradiction.
    - now destruct H as [<- _].
    - destruct H as [->|[H1 H2]]; [now left|right]. split; now apply Ra.
  Qed.
  Lemma omit_shown : forall d l2 a s s1 b, (forall n, assigns d n -> ~ touches l2 n) -> ~ touches l2 stdout -> l2 <> [] -> last_dist R a d s = (s1, Ok b) ->
    snd (last_dist R a (d ++ l2) s) = snd (last_dist R a l2 s).
  Proof.
    intros d l2 a s s1 b Sep St Nl E.
    assert (X : exists s1, run shown_line d s = (s1, Ok tt)).
    { clear - E. revert a s E. induction d as [|l d IH]; intros a s E; [now exists s|]. cbn [last_dist run] in *. unfold shown_line at 1. unfold bind in *. destruct (lift R (parse l) s) as [s0 [e|x]]; [|discriminate].
      destruct (dist_of R e s0) as [s2 [c|x]]; [|discriminate]. now apply (IH c s2). }
    destruct X as [s2 X]. pose proof (omit_steps shown_line shown_lives d l2 (Some a) s s2 tt Sep St Nl X) as H. rewrite !last_dist_steps. unfold bind.
    destruct (steps shown_line (Some a) (d ++ l2) s) as [s' [o|x]], (steps shown_line (Some a) l2 s) as [t' [o'|y]]; cbn [snd]; try contradiction; [now destruct H as [<- _]|now subst].
  Qed.

  (** ** Extremes *)
  Definition ext_step (mx : bool) (l : text) : M R Z := bind R (lift R (parse l)) (fun e => bind R (ext_of R mx e) (fun v s => (set_stdout_const R v s, Ok v))).
  Lemma ext_lives : forall mx, lives Z (ext_step mx).
  Proof.
    intros mx lines l I. apply local_parsed; [exact I|]. intros e W. apply local_bind; [now apply local_ext|]. intros v. apply local_stdout_const. now left.
  Qed.
  Lemma ext_line_step : forall mx l s, ext_line R mx l s = bind R (ext_step mx l) (fun _ => ret R LiveConstants) s.
  Proof. intros mx l s. unfold ext_line, ext_step, bind. destruct (lift R (parse l) s) as [s0 [e|x]]; [|reflexivity]. destruct (ext_of R mx e s0) as [s1 [v|x]]; reflexivity. Qed.
  Lemma ext_from_steps : forall mx lines a s, ext_from R mx LiveConstants lines s = bind R (steps (ext_step mx) a lines) (fun _ => ret R LiveConstants) s.
  Proof.
    intros mx. induction lines as [|l lines IH]; intros a s; [reflexivity|]. cbn [ext_from steps]. unfold bind at 1. rewrite ext_line_step. unfold bind at 1 2 3. 
    destruct (ext_step mx l s) as [s' [v|x]]; [|reflexivity]. cbn [ret]. apply IH.
  Qed.
  Lemma extreme_steps : forall mx lines s, lines <> [] -> extreme R mx lines s = bind R (steps (ext_step mx) None lines) (fun _ => ret R LiveConstants) s.
  Proof.
    intros mx [|l lines] s N; [congruence|]. replace (extreme R mx (l :: lines) s) with (ext_from R mx LiveConstants (l :: lines) s) by (now destruct mx). apply ext_from_steps.
  Qed.
  Lemma ext_stdout : forall mx lines a s s' o, steps (ext_step mx) a lines s = (s', Ok o) -> (forall v, a = Some v -> constant R s stdout = Some v) ->
    (lines <> [] \/ a <> None) -> exists v, o = Some v /\ constant R s' stdout = Some v.
  Proof.
    intros mx. induction lines as [|l lines IH]; intros a s s' o H V Nl.
    - injection H as <- <-. destruct a as [d|]; [|destruct Nl; congruence]. exists d. auto.
    - cbn [steps] in H. unfold bind in H. destruct (ext_step mx l s) as [s1 [d|x]] eqn:L; [|discriminate]. apply (IH (Some d) s1 s' o H); [|right; discriminate].
      intros d' E. injection E as <-. unfold ext_step, bind in L. destruct (lift R (parse l) s) as [s0 [e|x]]; [|discriminate]. destruct (ext_of R mx e s0) as [s2 [d2|x]]; [|discriminate].
      injection L as <- <-. unfold constant. cbn [set_stdout_const st_const]. apply dget_dset_same. apply text_eqb_iff.
  Qed.
  Lemma extreme_raise : forall mx lines s x, snd (run (ext_step mx) lines s) = Raise x -> returned R (extreme R mx lines s) = Raise x.
  Proof.
    intros mx lines s x H. destruct lines as [|l lines]; [discriminate|]. rewrite extreme_steps by discriminate. apply (run_raises _ _ None) in H. unfold bind.
    destruct (steps _ _ _ s) as [s' [o|y]]; [discriminate|]. cbn [snd returned] in *. congruence.
  Qed.
  Lemma extreme_ok : forall mx lines s s' d, extreme R mx lines s = (s', Ok d) -> run (ext_step mx) lines s = (s', Ok tt).
  Proof.
    intros mx lines s s' d H. assert (X : exists b, ext_from R mx b lines s = (s', Ok d)) by (exists EmptyDict; destruct mx; exact H). clear H. destruct X as [b H]. revert s b H.
    induction lines as [|l lines IH]; intros s b H; [injection H as <- _; reflexivity|].
    cbn [ext_from run] in *. unfold bind at 1 in H. rewrite ext_line_step in H. unfold bind in *. destruct (ext_step mx l s) as [s1 [x|x]]; [|discriminate]. cbn [ret] in H. now apply (IH s1 _ H).
  Qed.
  Lemma exchange_extreme : forall mx d1 d2 l2 s, separate d1 d2 -> ~ touches (d1 ++ d2 ++ l2) stdout -> l2 <> [] ->
    exchanged same_entries (returned R (extreme R mx d1 s)) (returned R (extreme R mx d2 s)) (returned R (extreme R mx (d1 ++ d2 ++ l2) s)) (returned R (extreme R mx (d2 ++ d1 ++ l2) s)).
  Proof.
    intros mx d1 d2 l2 s Sep St Nl. pose proof (exchange_steps (ext_step mx) (ext_lives mx) d1 d2 l2 None s Sep St Nl) as H.
    assert (M1 : d1 ++ d2 ++ l2 <> []) by (destruct d1, d2; auto; discriminate). assert (M2 : d2 ++ d1 ++ l2 <> []) by (destruct d1, d2; auto; discriminate).
    rewrite (extreme_steps mx _ s M1), (extreme_steps mx _ s M2). unfold bind.
    destruct (steps (ext_step mx) None (d1 ++ d2 ++ l2) s) as [s' [o|x]] eqn:E1, (steps (ext_step mx) None (d2 ++ d1 ++ l2) s) as [t' [o'|y]] eqn:E2; cbn [ret returned exchanged]; try contradiction.
    - destruct H as [<- G]. intros n. cbn [read_dict]. destruct (text_neq n stdout) as [->|D]; [|now apply (G n)].
      apply ext_stdout in E1; [|discriminate|now left]. apply ext_stdout in E2; [|discriminate|now left]. destruct E1 as [a [E1 V1]], E2 as [b [E2 V2]].
      rewrite E1 in E2. injection E2 as <-. unfold constant in *. congruence.
    - destruct H as [->|[H1 H2]]; [now left|right]. split; now apply extreme_raise.
  Qed.
  Lemma omit_extreme : forall mx d l2 s s1 dict, (forall n, assigns d n -> ~ touches l2 n) -> ~ touches l2 stdout -> l2 <> [] -> extreme R mx d s = (s1, Ok dict) ->
    unaffected (fun a b => forall n, n = stdout \/ ~ assigns d n -> dget text_eqb a n = dget text_eqb b n) (returned R (extreme R mx (d ++ l2) s)) (returned R (extreme R mx l2 s)).
  Proof.
    intros mx d l2 s s1 dict Sep St Nl E. apply extreme_ok in E. pose proof (omit_steps (ext_step mx) (ext_lives mx) d l2 None s s1 tt Sep St Nl E) as H.
    assert (M1 : d ++ l2 <> []) by (destruct d; auto; discriminate). rewrite (extreme_steps mx _ s M1), (extreme_steps mx _ s Nl). unfold bind.
    destruct (steps (ext_step mx) None (d ++ l2) s) as [s' [o|x]] eqn:E1, (steps (ext_step mx) None l2 s) as [t' [o'|y]] eqn:E2; cbn [ret returned unaffected]; try contradiction; [|exact H].
    destruct H as [<- G]. intros n An. cbn [read_dict]. destruct (text_neq n stdout) as [->|D]; [|apply (G n); intros [X|X]; tauto].
    apply ext_stdout in E1; [|discriminate|now left]. apply ext_stdout in E2; [|discriminate|now left]. destruct E1 as [a [E1 V1]], E2 as [b [E2 V2]].
    rewrite E1 in E2. injection E2 as <-. unfold constant in *. congruence.
  Qed.

  (** ** Estimated cost *)
  Lemma local_cost_from : forall lines t, local (touches lines) (assigns lines) (cost_from R t lines).
  Proof.
    intros lines. assert (X : forall l t, (forall x, In x l -> In x lines) -> local (touches lines) (assigns lines) (cost_from R t l)); [|auto].
    induction l as [|x l IH]; intros t H; cbn [cost_from]; [apply local_lift|]. destruct (parse x) as [e|y] eqn:P; [|intros s; apply (local_lift Z (touches lines) (assigns lines) (Raise y) s)].
    intros s. apply (local_bind Z Z (touches lines) (assigns lines) (cost_of R e) (fun c => cost_from R (t + c) l)).
    - apply local_cost. split; [intros n I; left; exists x, e; auto using in_eq|intros n I; split; [right|]; exists x, e; auto using in_eq].
    - intros c. apply IH. intros y I. apply H. now right.
  Qed.

  Lemma agree_anywhere : forall N s s', (forall n, same_at n s s') -> agree N s s'.
  Proof. intros N s s' H n _. apply H. Qed.
  Lemma exchange_cost : forall d1 d2 l2 s, separate d1 d2 ->
    exchanged eq (snd (get_estimated_cost R d1 s)) (snd (get_estimated_cost R d2 s)) (snd (get_estimated_cost R (d1 ++ d2 ++ l2) s)) (snd (get_estimated_cost R (d2 ++ d1 ++ l2) s)).
  Proof.
    intros d1 d2 l2 s Sep. rewrite !cost_pieces.
    assert (L1 : local (touches d1) (assigns d1) (get_estimated_cost R d1)) by apply local_cost_from.
    assert (L2 : local (touches d2) (assigns d2) (get_estimated_cost R d2)) by apply local_cost_from.
    assert (L3 : local (touches l2) (assigns l2) (get_estimated_cost R l2)) by apply local_cost_from.
    pose proof (fun s1 => local_result _ _ _ _ s s1 L2) as R2. pose proof (fun s2 => local_result _ _ _ _ s s2 L1) as R1.
    destruct (L1 s) as [_ O1]. destruct (L2 s) as [_ O2].
    destruct (get_estimated_cost R d1 s) as [s1 r1] eqn:E1. destruct (get_estimated_cost R d2 s) as [s2 r2] eqn:E2. cbn [fst snd] in *.
    assert (G2 : agree (touches d2) s s1) by (intros n H; apply O1; intros X; destruct (Sep n); tauto).
    assert (G1 : agree (touches d1) s s2) by (intros n H; apply O2; intros X; destruct (Sep n); tauto).
    specialize (R2 s1 G2). specialize (R1 s2 G1). destruct r1 as [c1|x], r2 as [c2|y]; cbn [then_call].
    - rewrite !cost_pieces. destruct (get_estimated_cost R d2 s1) as [s12 r12] eqn:E12. destruct (get_estimated_cost R d1 s2) as [s21 r21] eqn:E21. cbn [snd] in R1, R2. subst r12 r21. cbn [then_call].
      assert (G : agree (fun _ => True) s12 s21).
      { destruct (swap Z Z (touches d1) (assigns d1) (touches d2) (assigns d2) (get_estimated_cost R d1) (get_estimated_cost R d2)) with (s := s) (s1 := s1) (a := c1) (s12 := s12) (b := c2) as [t2 [t21 [X1 [X2 X3]]]];
          auto using assigns_dec.
        - intros n. apply (Sep n).
        - intros n. apply (Sep n).
        - intros n H. left. now right.
        - intros n H. left. now right.
        - rewrite E2 in X1. injection X1 as <-. rewrite E21 in X2. injection X2 as <-. intros n _. apply X3. intros [H1 H2]. destruct (Sep n) as [Y _]. apply (Y H1). now right. }
      pose proof (local_result _ _ _ _ s12 s21 L3 (fun n _ => G n Logic.I)) as E3.
      destruct (get_estimated_cost R l2 s12) as [t r], (get_estimated_cost R l2 s21) as [t' r']. cbn [snd] in E3. subst r'. destruct r as [c|x]; cbn [then_call snd exchanged]; [lia|now left].
    - rewrite cost_pieces. destruct (get_estimated_cost R d2 s1) as [s12 r12]. cbn [snd] in R2. subst r12. cbn. now left.
    - rewrite cost_pieces. destruct (get_estimated_cost R d1 s2) as [s21 r21]. cbn [snd] in R1. subst r21. cbn. now left.
    - cbn. now right.
  Qed.
  Lemma omit_cost : forall d l2 s s1 c, (forall n, assigns d n -> ~ touches l2 n) -> get_estimated_cost R d s = (s1, Ok c) ->
    unaffected (fun a b => a = c + b) (snd (get_estimated_cost R (d ++ l2) s)) (snd (get_estimated_cost R l2 s)).
  Proof.
    intros d l2 s s1 c Sep E. rewrite cost_pieces, E. cbn [then_call].
    assert (L1 : local (touches d) (assigns d) (get_estimated_cost R d)) by apply local_cost_from.
    assert (L2 : local (touches l2) (assigns l2) (get_estimated_cost R l2)) by apply local_cost_from.
    destruct (L1 s) as [_ O]. rewrite E in O. cbn [fst] in O. rewrite (local_result _ _ _ _ s s1 L2) by (intros n T; apply O; intros X; now apply (Sep n)).
    destruct (get_estimated_cost R l2 s1) as [s2 [v|x]]; cbn; reflexivity.
  Qed.

  (** ** Rolls, which only depend on and change constants *)
  Definition cagree (N : text -> Prop) (s s' : state) : Prop := forall n, N n -> constant R s n = constant R s' n.
  Definition alike {A} (N : text -> Prop) (r r' : Z * (state * res A)) : Prop :=
    fst r = fst r' /\ snd (snd r) = snd (snd r') /\ (forall a, snd (snd r) = Ok a -> cagree N (fst (snd r)) (fst (snd r'))).
  (** [m] only depends on [N], changes [K], and makes states agree on [N'] *)
  Definition wlocal {A} (N N' K : text -> Prop) (m : W R A) : Prop := forall s,
    (forall s', cagree N s s' -> Forall2 (alike N') (m s) (m s')) /\ Forall (fun r => cagree (fun n => ~ K n) s (fst (snd r))) (m s).

  Lemma wlocal_rolls : forall A N K (l : rolls A), wlocal N N K (wrolls R l).
  Proof.
    intros A N K l s. unfold wrolls. split.
    - intros s' G. induction l as [|[w r] l IH]; cbn [map]; constructor; [|exact IH]. repeat split. intros a _. exact G.
    - apply Forall_map, Forall_forall. intros x _ n _. reflexivity.
  Qed.
  Lemma wlocal_lift : forall A N K (r : res A), wlocal N N K (wlift R r).
  Proof.
    intros A N K r s. split.
    - intros s' G. constructor; [|constructor]. repeat split. intros a _. exact G.
    - constructor; [|constructor]. intros n _. reflexivity.
  Qed.
  Lemma wlocal_bind : forall A B N N1 N2 K (m : W R A) (f : A -> W R B), wlocal N N1 K m -> (forall a, wlocal N1 N2 K (f a)) -> wlocal N N2 K (wbind R m f).
  Proof.
    intros A B N N1 N2 K m f Hm Hf s. destruct (Hm s) as [Hs Ho]. unfold wbind. split.
    - intros s' G. specialize (Hs s' G). clear Ho. induction Hs as [|[w [t r]] [w' [t' r']] l l' X Hl IH]; cbn [flat_map]; [constructor|].
      apply Forall2_app; [|exact IH]. destruct X as [Ew [Er Ea]]. cbn [fst snd] in *. subst w' r'. destruct r as [a|x].
      + destruct (Hf a t) as [Ht _]. specialize (Ht t' (Ea a eq_refl)). clear -Ht. induction Ht as [|[v r] [v' r'] k k' [E [E' E'']] Hk IH]; cbn [map]; constructor; [|exact IH].
        cbn [fst snd] in *. subst v'. split; [reflexivity|]. split; [exact E'|exact E''].
      + constructor; [|constructor]. split; [reflexivity|]. split; [reflexivity|discriminate].
    - apply Forall_flat_map. revert Ho. apply Forall_impl. intros [w [t [a|x]]] Ht; cbn [fst snd] in Ht.
      + apply Forall_map. destruct (Hf a t) as [_ O]. revert O. apply Forall_impl. intros [v [u r]] Hu n Kn. cbn [fst snd] in *. rewrite (Ht n Kn). now apply Hu.
      + constructor; [exact Ht|constructor].
  Qed.
  Lemma wlocal_binop : forall N K f a b, wlocal N N K a -> wlocal N N K b -> wlocal N N K (wbinop R f a b).
  Proof. intros N K f a b A B. apply wlocal_bind with N; [exact A|]. intros x. apply wlocal_bind with N; [exact B|]. intros y. apply (wlocal_lift Z N K (Ok (f x y))). Qed.
  Lemma wlocal_roll : forall N K e, within_names N K e -> wlocal N N K (roll_of R e).
  Proof.
    intros N K. induction e; intros W; cbn [roll_of]; try (apply within_left with (a := e1) (b := e2) in W; [destruct W as [W1 W2]|reflexivity..]);
      try (now apply wlocal_binop; auto); try apply wlocal_lift; try apply wlocal_rolls.
    - now apply IHe.
    - apply wlocal_bind with N; [now apply IHe|]. intros x. apply (wlocal_lift Z N K (Ok _)).
    - destruct (dk_simple d) as [[]|]; first [apply wlocal_lift|apply wlocal_rolls].
    - apply wlocal_bind with N; [now apply IHe2|]. intros x. destruct (x =? 0); [apply wlocal_lift|]. apply wlocal_bind with N; [now apply IHe1|]. intros y. apply (wlocal_lift Z N K (Ok _)).
    - destruct (int_operator _); [now apply wlocal_binop; auto|apply wlocal_lift].
    - destruct (minmax_operator _); [now apply wlocal_binop; auto|apply wlocal_lift].
    - apply wlocal_bind with N; [now apply IHe|]. intros x. apply (wlocal_lift Z N K (Ok _)).
    - destruct W as [W1 W2]. destruct (W2 name (or_introl eq_refl)) as [Nn Kn]. apply wlocal_bind with N; [apply IHe; split; [exact W1|intros m I; apply W2; now right]|]. intros v s. split.
      + intros s' G. constructor; [|constructor]. split; [reflexivity|]. split; [reflexivity|]. intros a _ m Nm. cbn [fst snd].
        unfold constant. cbn [set_constant st_const]. destruct (text_neq m name) as [->|D]; [now rewrite !dget_dset_same by auto using text_eqb_iff|].
        rewrite !dget_dset_other by auto using text_eqb_iff. now apply G.
      + constructor; [|constructor]. intros m Km. assert (D : m <> name) by (intros ->; auto). cbn [fst snd]. unfold constant. cbn [set_constant st_const]. now rewrite dget_dset_other by auto using text_eqb_iff.
    - intros s. split.
      + intros s' G. constructor; [|constructor]. split; [reflexivity|]. split; [|intros a _; exact G]. cbn [snd]. pose proof (G name (proj1 W name (or_introl eq_refl))) as V. unfold get_constant. unfold constant in V. now rewrite V.
      + constructor; [|constructor]. intros n _. reflexivity.
  Qed.
  Lemma wlocal_lifted : forall A B (N N' K : text -> Prop) (r : res A) (f : A -> W R B), (forall a, r = Ok a -> wlocal N N' K (f a)) -> wlocal N N' K (wbind R (wlift R r) f).
  Proof.
    intros A B N N' K [a|x] f H.
    - exact (wlocal_bind A B N N N' K (wlift R (Ok a)) (fun _ => f a) (wlocal_lift A N K (Ok a)) (fun _ => H a eq_refl)).
    - intros s. split; [intros s' _|]; (constructor; [|constructor]); [split; [reflexivity|split; [reflexivity|discriminate]]|intros n _; reflexivity].
  Qed.
  Definition and_stdout (N : text -> Prop) (n : text) : Prop := N n \/ n = stdout.
  Lemma wlocal_line : forall (N N' K : text -> Prop) l, (forall e, parse l = Ok e -> within_names N K e) -> K stdout -> (forall n, N' n -> N n \/ n = stdout) -> wlocal N N' K (roll_line R l).
  Proof.
    intros N N' K l H Ks Hn. apply wlocal_lifted. intros e P. apply wlocal_bind with N; [now apply wlocal_roll, H|]. intros v s. split.
    - intros s' G. constructor; [|constructor]. split; [reflexivity|]. split; [reflexivity|]. intros a _ n Nn. cbn [fst snd]. unfold constant. cbn [set_stdout_const st_const].
      destruct (text_neq n stdout) as [->|D]; [now rewrite !dget_dset_same by auto using text_eqb_iff|]. rewrite !dget_dset_other by auto using text_eqb_iff. apply G. destruct (Hn n Nn); tauto.
    - constructor; [|constructor]. intros n Kn. assert (D : n <> stdout) by (intros ->; auto). cbn [fst snd]. unfold constant. cbn [set_stdout_const st_const]. now rewrite dget_dset_other by auto using text_eqb_iff.
  Qed.
  (** Lines make the constants agree at stdout as well, and where they did before *)
  Lemma wlocal_roll_lines : forall (N : text -> Prop) lines, lines <> [] -> (forall n, touches lines n -> N n) -> wlocal N (and_stdout N) (changes lines) (roll R lines).
  Proof.
    intros N lines Nl Hn.
    assert (W : forall l e, In l lines -> parse l = Ok e -> within_names N (changes lines) e).
    { intros l e I P. destruct (line_within lines l e I P) as [X Y]. split; intros n J; [auto|]. destruct (Y n J); auto. }
    assert (X : forall l d, (forall x, In x l -> In x lines) -> wlocal (and_stdout N) (and_stdout N) (changes lines) (roll_from R d l)).
    { induction l as [|x l IH]; intros d H; cbn [roll_from]; [apply (wlocal_lift const_dict _ _ (Ok d))|]. apply wlocal_bind with (and_stdout N).
      - apply wlocal_line; [|now left|auto]. intros e P. destruct (W x e (H x (in_eq _ _)) P) as [A B]. split; intros n I; [left; auto|]. destruct (B n I). split; [now left|assumption].
      - intros d'. apply IH. intros y I. apply H. now right. }
    destruct lines as [|l lines]; [congruence|]. unfold roll. cbn [roll_from]. apply wlocal_bind with (and_stdout N).
    - apply wlocal_line; [|now left|auto]. intros e P. apply (W l e); auto using in_eq.
    - intros d. apply X. intros x I. now right.
  Qed.
  Lemma roll_live : forall lines s, lines <> [] -> Forall (fun r => forall d, snd (snd r) = Ok d -> d = LiveConstants) (roll R lines s).
  Proof.
    assert (X : forall lines s, Forall (fun r => forall d, snd (snd r) = Ok d -> d = LiveConstants) (roll_from R LiveConstants lines s)).
    { induction lines as [|l lines IH]; intros s; cbn [roll_from]; [constructor; [|constructor]; cbn; congruence|]. unfold wbind at 1. apply Forall_flat_map, Forall_forall. intros [w [t [d|x]]] I.
      - apply Forall_map. assert (d = LiveConstants) as ->.
        { unfold roll_line in I. unfold wbind in I. apply in_flat_map in I. destruct I as [[w1 [t1 [e|x]]] [_ I]]; [|destruct I as [E|[]]; congruence]. apply in_map_iff in I. destruct I as [[w2 r2] [E I]].
          apply in_flat_map in I. destruct I as [[w3 [t3 [v|x]]] [_ I]]; [|destruct I as [E'|[]]; cbn [fst snd] in E; congruence]. destruct I as [E'|[]]. cbn [fst snd map] in *. congruence. }
        specialize (IH t). revert IH. apply Forall_impl. intros [v r]. cbn. auto.
      - constructor; [|constructor]. cbn. discriminate. }
    intros [|l lines] s Nl; [congruence|]. pose proof (X [] s) as _. specialize (X (l :: lines) s). exact X.
  Qed.

  (** Sums over the runs that return *)
  Definition term {A} (g : state -> Z) (run : Z * (state * res A)) : Z := match run with (w, (s, Ok _)) => w * g s | (_, (_, Raise _)) => 0 end.
  Definition ok_sum {A} (g : state -> Z) (runs : list (Z * (state * res A))) : Z := zsum (map (term g) runs).
  Lemma event_terms : forall P runs, event_weight R P runs =
    zsum (map (fun run => match snd run with (s', Ok d) => if P (dget text_eqb (read_dict R s' d)) then fst run else 0 | (_, Raise _) => 0 end) runs).
  Proof.
    intros P runs. unfold event_weight. induction runs as [|[w [s [d|x]]] runs IH]; [reflexivity| |]; cbn [filter map fst snd]; [|rewrite zsum_cons; lia].
    destruct (P _); cbn [map fst]; rewrite ?zsum_cons, IH; lia.
  Qed.
  Lemma event_pieces : forall P L next, event_weight R P (then_rolls R L next) = ok_sum (fun s1 => event_weight R P (next s1)) L.
  Proof.
    intros P L next. rewrite event_terms. unfold then_rolls, ok_sum. rewrite zsum_flat_map. apply zsum_map_ext_in. intros [w [s [d|x]]] _; cbn [term].
    - rewrite map_map, event_terms, <- zsum_map_mul_l. apply zsum_map_ext_in. intros [v [t [d'|y]]] _; cbn [fst snd]; [destruct (P _); lia|lia].
    - reflexivity.
  Qed.
  Lemma ok_sum_alike : forall A N g (L L' : list (Z * (state * res A))), (forall s s', cagree N s s' -> g s = g s') -> Forall2 (alike N) L L' -> ok_sum g L = ok_sum g L'.
  Proof.
    intros A N g L L' Hg H. unfold ok_sum. induction H as [|[w [s r]] [w' [s' r']] L L' [E1 [E2 E3]] H IH]; [reflexivity|]. cbn [map fst snd] in *. subst. rewrite !zsum_cons, IH. f_equal.
    destruct r' as [a|x]; [|reflexivity]. cbn [term]. now rewrite (Hg s s' (E3 a eq_refl)).
  Qed.
  Lemma event_alike : forall N P L L', about N P -> Forall (fun r => forall d, snd (snd r) = Ok d -> d = LiveConstants) L -> Forall2 (alike N) L L' -> event_weight R P L = event_weight R P L'.
  Proof.
    intros N P L L' HP HL H. rewrite !event_terms. induction H as [|[w [s r]] [w' [s' r']] L L' [E1 [E2 E3]] H IH]; [reflexivity|]. inversion HL as [|a b H1 H2]. subst. cbn [map fst snd] in *. subst. rewrite !zsum_cons, (IH H2). f_equal.
    destruct r' as [d|x]; [|reflexivity]. rewrite (H1 d eq_refl). cbn [read_dict]. now rewrite (HP (dget text_eqb (st_const s)) (dget text_eqb (st_const s')) (E3 d eq_refl)).
  Qed.

  Lemma event_lines : forall P lines s s' (Nn : text -> Prop), lines <> [] -> about (and_stdout Nn) P -> (forall n, touches lines n -> Nn n) -> cagree Nn s s' ->
    event_weight R P (roll R lines s) = event_weight R P (roll R lines s').
  Proof.
    intros P lines s s' Nn Nl HP T G. apply event_alike with (and_stdout Nn); [exact HP|now apply roll_live|]. now apply (wlocal_roll_lines Nn lines Nl T s).
  Qed.

  (** A sum by positions *)
  Lemma zsum_nth : forall A (f : A -> Z) l d, zsum (map f l) = zsum (map (fun i => f (nth i l d)) (seq 0 (length l))).
  Proof.
    intros A f l d. induction l as [|a l IH]; [reflexivity|]. cbn [length seq map nth]. rewrite !zsum_cons, IH. f_equal. rewrite <- seq_shift, map_map. reflexivity.
  Qed.
  Lemma alike_length : forall A B (P : A -> B -> Prop) l l', Forall2 P l l' -> length l = length l'.
  Proof. intros A B P l l' H. induction H; cbn; congruence. Qed.
  Lemma Forall2_nth_at : forall A B (P : A -> B -> Prop) l l' d d' i, Forall2 P l l' -> (i < length l)%nat -> P (nth i l d) (nth i l' d').
  Proof. intros A B P l l' d d' i H. revert i. induction H as [|a b l l' X H IH]; intros i L; [cbn in L; lia|]. destruct i; [exact X|]. cbn [nth]. apply IH. cbn in L. lia. Qed.

  Lemma ok_sum_swap : forall A B (m1 : W R A) (m2 : W R B) N1 N1' K1 N2 N2' K2 g s,
    wlocal N1 N1' K1 m1 -> wlocal N2 N2' K2 m2 -> (forall n, K1 n -> ~ N2 n) -> (forall n, K2 n -> ~ N1 n) ->
    (forall s1 s2 s12 s21, cagree (fun n => ~ K1 n) s s1 -> cagree (fun n => ~ K2 n) s s2 -> cagree (fun n => ~ K2 n) s1 s12 -> cagree (fun n => ~ K1 n) s2 s21 ->
      cagree N1' s1 s21 -> cagree N2' s2 s12 -> g s12 = g s21) ->
    ok_sum (fun s1 => ok_sum g (m2 s1)) (m1 s) = ok_sum (fun s2 => ok_sum g (m1 s2)) (m2 s).
  Proof.
    intros A B m1 m2 N1 N1' K1 N2 N2' K2 g s L1 L2 D1 D2 Hg. destruct (L1 s) as [H1 O1]. destruct (L2 s) as [H2 O2].
    set (e1 := (0, (s, Raise ValueError)) : Z * (state * res A)). set (e2 := (0, (s, Raise ValueError)) : Z * (state * res B)).
    assert (S1 : forall s2, cagree (fun n => ~ K2 n) s s2 -> Forall2 (alike N1') (m1 s) (m1 s2)) by (intros s2 G; apply H1; intros n Nn; apply G; intros Kn; now apply (D2 n)).
    assert (S2 : forall s1, cagree (fun n => ~ K1 n) s s1 -> Forall2 (alike N2') (m2 s) (m2 s1)) by (intros s1 G; apply H2; intros n Nn; apply G; intros Kn; now apply (D1 n)).
    transitivity (zsum (map (fun i => zsum (map (fun j => match nth i (m1 s) e1 with (w1, (s1, Ok _)) => w1 * term g (nth j (m2 s1) e2) | _ => 0 end) (seq 0 (length (m2 s))))) (seq 0 (length (m1 s))))).
    - unfold ok_sum at 1. rewrite (zsum_nth _ _ _ e1). apply zsum_map_ext_in. intros i Ii. apply in_seq in Ii. rewrite Forall_forall in O1. specialize (O1 _ (nth_In (m1 s) e1 (proj2 Ii))).
      destruct (nth i (m1 s) e1) as [w1 [s1 [a|x]]]; cbn [term fst snd] in *; [|symmetry; now apply zsum_map_zero]. unfold ok_sum. rewrite (zsum_nth _ _ _ e2), <- zsum_map_mul_l.
      now rewrite <- (alike_length _ _ _ _ _ (S2 s1 O1)).
    - rewrite zsum_map_swap. unfold ok_sum at 1. rewrite (zsum_nth _ _ (m2 s) e2). apply zsum_map_ext_in. intros j Ij. apply in_seq in Ij. rewrite Forall_forall in O2. pose proof (O2 _ (nth_In (m2 s) e2 (proj2 Ij))) as Oj.
      destruct (nth j (m2 s) e2) as [w2 [s2 r2]] eqn:Ej. cbn [fst snd] in Oj.
      assert (X : forall i, In i (seq 0 (length (m1 s))) -> match nth i (m1 s) e1 with (w1, (s1, Ok _)) => w1 * term g (nth j (m2 s1) e2) | _ => 0 end =
        match r2 with Ok _ => w2 * term g (nth i (m1 s2) e1) | Raise _ => 0 end).
      { intros i Ii. apply in_seq in Ii. rewrite Forall_forall in O1. pose proof (O1 _ (nth_In (m1 s) e1 (proj2 Ii))) as Oi.
        pose proof (Forall2_nth_at _ _ _ _ _ e1 e1 i (S1 s2 Oj) (proj2 Ii)) as A1.
        destruct (nth i (m1 s) e1) as [w1 [s1 r1]] eqn:Ei. cbn [fst snd] in Oi. pose proof (Forall2_nth_at _ _ _ _ _ e2 e2 j (S2 s1 Oi) (proj2 Ij)) as A2. rewrite Ej in A2.
        destruct (L1 s2) as [_ O21]. destruct (L2 s1) as [_ O12]. rewrite Forall_forall in O12, O21.
        assert (Li : (i < length (m1 s2))%nat) by (rewrite <- (alike_length _ _ _ _ _ (S1 s2 Oj)); apply Ii). assert (Lj : (j < length (m2 s1))%nat) by (rewrite <- (alike_length _ _ _ _ _ (S2 s1 Oi)); apply Ij).
        specialize (O21 _ (nth_In (m1 s2) e1 Li)). specialize (O12 _ (nth_In (m2 s1) e2 Lj)).
        destruct (nth i (m1 s2) e1) as [w1' [s21 r1']], (nth j (m2 s1) e2) as [w2' [s12 r2']]. destruct A1 as [X1 [Y1 Z1]], A2 as [X2 [Y2 Z2]]. cbn [fst snd] in *. subst w1' r1' w2' r2'.
        destruct r1 as [a|x], r2 as [b|y]; cbn [term]; try lia. rewrite (Hg s1 s2 s12 s21); auto; [lia|exact (Z1 a eq_refl)|exact (Z2 b eq_refl)]. }
      rewrite (zsum_map_ext_in _ _ _ _ X). destruct r2 as [b|y]; cbn [term]; [|now apply zsum_map_zero]. rewrite zsum_map_mul_l. f_equal. unfold ok_sum. rewrite (zsum_nth _ _ (m1 s2) e1).
      now rewrite <- (alike_length _ _ _ _ _ (S1 s2 Oj)).
  Qed.

  Lemma roll_nil_app : forall P l s, event_weight R P (roll R ([] ++ l) s) = event_weight R P (roll R l s).
  Proof. reflexivity. Qed.
  Lemma exchange_roll : forall P d1 d2 l2 s, about (fun _ => True) P -> separate d1 d2 -> ~ touches (d1 ++ d2 ++ l2) stdout -> l2 <> [] ->
    event_weight R P (roll R (d1 ++ d2 ++ l2) s) = event_weight R P (roll R (d2 ++ d1 ++ l2) s).
  Proof.
    intros P d1 d2 l2 s HP Sep St Nl. destruct d1 as [|x d1]; [reflexivity|]. destruct d2 as [|y d2]; [reflexivity|].
    set (p1 := x :: d1) in *. set (p2 := y :: d2) in *. assert (N1 : p1 <> []) by discriminate. assert (N2 : p2 <> []) by discriminate. clearbody p1 p2. clear x y d1 d2.
    rewrite !touches_app in St. rewrite (roll_pieces R p1 (p2 ++ l2)) by (destruct p2; [congruence|discriminate]). rewrite (roll_pieces R p2 (p1 ++ l2)) by (destruct p1; [congruence|discriminate]). rewrite !event_pieces.
    transitivity (ok_sum (fun s1 => ok_sum (fun s12 => event_weight R P (roll R l2 s12)) (roll R p2 s1)) (roll R p1 s)).
    { unfold ok_sum at 1 2. apply zsum_map_ext_in. intros [w [t [d|x]]] _; cbn [term]; [|reflexivity]. now rewrite (roll_pieces R p2 l2 t Nl), event_pieces. }
    transitivity (ok_sum (fun s2 => ok_sum (fun s21 => event_weight R P (roll R l2 s21)) (roll R p1 s2)) (roll R p2 s)).
    2: { unfold ok_sum at 1 3. apply zsum_map_ext_in. intros [w [t [d|x]]] _; cbn [term]; [|reflexivity]. now rewrite (roll_pieces R p1 l2 t Nl), event_pieces. }
    apply ok_sum_swap with (touches p1) (and_stdout (touches p1)) (changes p1) (touches p2) (and_stdout (touches p2)) (changes p2).
    - now apply wlocal_roll_lines.
    - now apply wlocal_roll_lines.
    - intros n [->|H]; [tauto|now apply (Sep n)].
    - intros n [->|H]; [tauto|now apply (Sep n)].
    - intros s1 s2 s12 s21 O1 O2 O12 O21 A1 A2. apply event_lines with (fun n => n <> stdout); [exact Nl| | |].
      + intros f h E. apply HP. intros n _. apply E. unfold and_stdout. destruct (text_neq n stdout); auto.
      + intros n T ->. tauto.
      + intros n Nn. destruct (assigns_dec p1 n) as [K1|K1].
        * assert (K2 : ~ changes p2 n) by (intros [X|X]; [auto|]; destruct (Sep n) as [Y _]; apply (Y K1); now right). rewrite <- (O12 n K2). apply A1. left. now right.
        * assert (C1 : ~ changes p1 n) by (intros [X|X]; auto). rewrite <- (O21 n C1). destruct (assigns_dec p2 n) as [K2|K2].
          -- symmetry. apply A2. left. now right.
          -- assert (C2 : ~ changes p2 n) by (intros [X|X]; auto). rewrite <- (O12 n C2), <- (O1 n C1). now apply O2.
  Qed.
  Lemma omit_roll : forall P d l2 s, about (fun n => n = stdout \/ ~ assigns d n) P -> (forall n, assigns d n -> ~ touches l2 n) -> ~ touches l2 stdout -> l2 <> [] ->
    event_weight R P (roll R (d ++ l2) s) = event_weight R (fun _ => true) (roll R d s) * event_weight R P (roll R l2 s).
  Proof.
    intros P d l2 s HP Sep St Nl. rewrite (roll_pieces R d l2 s Nl), event_pieces.
    assert (X : Forall (fun r => cagree (fun n => ~ changes d n) s (fst (snd r))) (roll R d s)).
    { destruct d as [|x d]; [constructor; [|constructor]; intros n _; reflexivity|]. now apply (wlocal_roll_lines (touches (x :: d)) (x :: d) ltac:(discriminate) (fun n T => T) s). }
    rewrite Forall_forall in X. rewrite event_terms, <- zsum_map_mul_r. unfold ok_sum. apply zsum_map_ext_in. intros [w [t [c|x]]] I; cbn [term fst snd]; [|reflexivity]. f_equal.
    specialize (X _ I). cbn [fst snd] in X. symmetry. apply event_lines with (fun n => ~ changes d n); [exact Nl| | |exact X].
    - intros f h E. apply HP. intros n Hn. apply E. unfold and_stdout. destruct (text_neq n stdout) as [->|D]; [now right|left]. intros [Y|Y]; tauto.
    - intros n T [->|Y]; [auto|now apply (Sep n)].
  Qed.

  (** ** Tables of all variables *)
  Definition one_each (s : state) : Prop := NoDup (map fst (st_var s)).
  Lemma one_each_set_var : forall n d s, one_each s -> one_each (fst (set_var R n d s)).
  Proof. intros n d s H. unfold set_var, one_each. destruct (tag_dist _ _ _); cbn [fst st_var]; [apply dset_nodup; auto using text_eqb_iff|exact H]. Qed.
  Lemma one_each_does : forall c s s', does R c s s' -> one_each s -> one_each s'.
  Proof.
    intros c s s' D. apply (does_rel R (fun s s' => one_each s -> one_each s')) with (OKc := fun _ => True) (OKv := fun _ => True) (Hso := True) (Hvo := True) (c := c); auto using one_each_set_var.
    intros _ d t H. unfold one_each in *. cbn [set_stdout_var st_var]. apply dset_nodup; auto using text_eqb_iff.
  Qed.
  Lemma one_each_reachable : forall s, reachable R s -> one_each s.
  Proof.
    intros s H. apply (after_does R one_each one_each_does) with (s0 := empty_state R); auto using one_each_set_var. constructor.
  Qed.
  Lemma one_each_lines : forall ran lines s, one_each s -> one_each (fst (dist_lines R ran lines s)).
  Proof.
    intros ran lines s. apply (dist_lines_rel R (fun s s' => one_each s -> one_each s')) with (OKv := fun _ => True) (Hvo := True); auto using one_each_set_var; [|intros n _; exact Logic.I].
    intros _ d t H. unfold one_each in *. cbn [set_stdout_var st_var]. apply dset_nodup; auto using text_eqb_iff.
  Qed.

  Lemma dget_in : forall A (d : list (text * A)) n a, dget text_eqb d n = Some a -> In (n, a) d.
  Proof.
    intros A d n a. induction d as [|[k b] d IH]; cbn [dget]; [discriminate|]. destruct (text_eqb k n) eqn:E; intros H; [|right; auto]. apply text_eqb_eq in E. injection H as ->. subst. now left.
  Qed.
  Lemma in_dget : forall A (d : list (text * A)) n a, NoDup (map fst d) -> In (n, a) d -> dget text_eqb d n = Some a.
  Proof.
    intros A d n a. induction d as [|[k b] d IH]; intros U I; [destruct I|]. inversion U; subst. cbn [dget]. destruct I as [E|I].
    - injection E as -> ->. now rewrite text_eqb_refl.
    - destruct (text_eqb k n) eqn:E; [|auto]. apply text_eqb_eq in E. subst. exfalso. apply H1. apply in_map_iff. now exists (n, a).
  Qed.
  Lemma map_res_entries : forall A B (f : A -> res B) d r, map_res f d = Ok r -> forall n, match dget text_eqb d n with Some a => exists b, f a = Ok b /\ dget text_eqb r n = Some b | None => dget text_eqb r n = None end.
  Proof.
    intros A B f. induction d as [|[k a] d IH]; intros r E n; cbn [map_res] in E; [injection E as <-; reflexivity|].
    destruct (f a) as [b|x] eqn:Ef; [|discriminate]. cbn [rbind] in E. destruct (map_res f d) as [r'|x]; [|discriminate]. cbn [rmap rbind] in E. injection E as <-.
    cbn [dget]. destruct (text_eqb k n); [now exists b|]. now apply IH.
  Qed.
  Lemma map_res_returns : forall A B (f : A -> res B) d, (forall n a, In (n, a) d -> exists b, f a = Ok b) -> exists r, map_res f d = Ok r.
  Proof.
    intros A B f. induction d as [|[k a] d IH]; intros H; [now exists []|]. cbn [map_res]. destruct (H k a (or_introl eq_refl)) as [b ->]. cbn [rbind].
    destruct IH as [r ->]; [intros n c I; apply (H n); now right|]. cbn [rmap rbind]. now eexists.
  Qed.
  (** The table of [d'] from that of [d], which has the same entries at the names in [N] and all of those that [d'] has *)
  Lemma map_res_same : forall A B (f : A -> res B) (N : text -> Prop) d d' r, NoDup (map fst d') -> map_res f d = Ok r -> (forall n, N n -> dget text_eqb d n = dget text_eqb d' n) ->
    (forall n, N n \/ dget text_eqb d' n = None) -> exists r', map_res f d' = Ok r' /\ forall n, N n -> dget text_eqb r n = dget text_eqb r' n.
  Proof.
    intros A B f N d d' r U E H Hn. destruct (map_res_returns _ _ f d') as [r' E'].
    - intros n a I. apply (in_dget _ _ _ _ U) in I. destruct (Hn n) as [Nn|X]; [|congruence]. pose proof (map_res_entries _ _ f d r E n) as X. rewrite (H n Nn), I in X. destruct X as [b [X _]]. now exists b.
    - exists r'. split; [exact E'|]. intros n Nn. pose proof (map_res_entries _ _ f d r E n) as X. pose proof (map_res_entries _ _ f d' r' E' n) as X'. rewrite (H n Nn) in X.
      destruct (dget text_eqb d' n) as [a|]; [|congruence]. destruct X as [b [X1 X2]], X' as [b' [X1' X2']]. congruence.
  Qed.
  Definition table {B} (f : dist -> res B) (lines : list text) : M R (list (text * B)) := bind R (dist_lines R false lines) (fun d => lift R (map_res f d)).
  Lemma table_unique : forall lines s s' d, reachable R s -> lines <> [] -> get_probability_distributions R lines s = (s', Ok d) -> NoDup (map fst d).
  Proof.
    intros lines s s' d H N E. pose proof (one_each_lines false lines s (one_each_reachable s H)) as X. rewrite (distributions_steps lines s N) in E. unfold get_probability_distributions in *.
    assert (Es : fst (dist_lines R false lines s) = s' /\ d = st_var s').
    { fold (get_probability_distributions R lines s). rewrite (distributions_steps lines s N). unfold bind in *. destruct (steps _ _ _ s) as [t [o|x]]; [|discriminate]. injection E as <- <-. now split. }
    destruct Es as [Es ->]. now rewrite Es in X.
  Qed.
  Lemma exchange_table : forall B (f : dist -> res B) d1 d2 l2 s a, reachable R s -> separate d1 d2 -> ~ touches (d1 ++ d2 ++ l2) stdout -> l2 <> [] ->
    snd (table f (d1 ++ d2 ++ l2) s) = Ok a -> exists a', snd (table f (d2 ++ d1 ++ l2) s) = Ok a' /\ same_entries a a'.
  Proof.
    intros B f d1 d2 l2 s a Rs Sep St Nl E. pose proof (exchange_distributions d1 d2 l2 s Sep St Nl) as H. unfold table, bind in *. unfold get_probability_distributions in H.
    assert (M2 : d2 ++ d1 ++ l2 <> []) by (destruct d1, d2; auto; discriminate).
    destruct (dist_lines R false (d1 ++ d2 ++ l2) s) as [s1 [x|x]]; [|discriminate]. cbn [lift snd] in *.
    destruct (dist_lines R false (d2 ++ d1 ++ l2) s) as [s2 [y|y]] eqn:E2; [|destruct H]. cbn [exchanged] in H. cbn [lift snd].
    destruct (map_res_same _ _ f (fun _ => True) x y a (table_unique _ _ _ _ Rs M2 E2) E) as [r [Er Hr]]; [intros n _; apply H|auto|]. exists r. split; [exact Er|]. intros n. now apply Hr.
  Qed.
  Lemma omit_table : forall B (f : dist -> res B) d l2 s a, reachable R s -> (forall n, assigns d n -> ~ touches l2 n) -> ~ touches l2 stdout -> l2 <> [] ->
    (forall n, assigns d n -> variable R s n = None) ->
    snd (table f (d ++ l2) s) = Ok a -> exists a', snd (table f l2 s) = Ok a' /\ forall n, n = stdout \/ ~ assigns d n -> dget text_eqb a n = dget text_eqb a' n.
  Proof.
    intros B f d l2 s a Rs Sep St Nl Hd E. unfold table, bind in *.
    destruct (dist_lines R false (d ++ l2) s) as [s1 [x|x]] eqn:E1; [|discriminate]. cbn [lift snd] in E.
    assert (Ed : exists s0 d0, get_probability_distributions R d s = (s0, Ok d0)).
    { pose proof E1 as X. fold (get_probability_distributions R (d ++ l2) s) in X. rewrite (distribution_pieces R d l2 s Nl) in X. destruct (get_probability_distributions R d s) as [s0 [d0|y]]; [eauto|discriminate]. }
    destruct Ed as [s0 [d0 Ed]]. pose proof (omit_distributions d l2 s s0 d0 Sep St Nl Ed) as H. unfold get_probability_distributions in H. rewrite E1 in H. cbn [snd] in H.
    destruct (dist_lines R false l2 s) as [s2 [y|y]] eqn:E2; [|destruct H]. cbn [unaffected snd lift] in *.
    destruct (map_res_same _ _ f (fun n => n = stdout \/ ~ assigns d n) x y a (table_unique _ _ _ _ Rs Nl E2) E H) as [r [Er Hr]]; [|now exists r].
    intros n. destruct (text_neq n stdout) as [->|D]; [left; now left|]. destruct (assigns_dec d n) as [An|An]; [|left; now right]. right.
    fold (get_probability_distributions R l2 s) in E2. rewrite (distributions_steps l2 s Nl) in E2. unfold bind in E2. destruct (local_steps (dist_line R) dist_lives None l2 s) as [_ O].
    destruct (steps (dist_line R) None l2 s) as [t [o|z]]; [|discriminate]. injection E2 as <- <-. cbn [fst] in O. destruct (O n) as [_ [V _]].
    - intros [X|X]; [auto|]. apply (Sep n An). now right.
    - unfold variable in V. rewrite <- V. now apply Hd.
  Qed.

  (** ** Histograms: the result of a function of the shown distribution *)
  Definition plot {B} (f : dist -> res B) (lines : list text) : M R B := bind R (last_dist R (empty_dist R) lines) (fun d => lift R (f d)).
  Lemma exchange_plot : forall B (f : dist -> res B) d1 d2 l2 s a, separate d1 d2 -> ~ touches (d1 ++ d2 ++ l2) stdout -> l2 <> [] ->
    snd (plot f (d1 ++ d2 ++ l2) s) = Ok a -> snd (plot f (d2 ++ d1 ++ l2) s) = Ok a.
  Proof.
    intros B f d1 d2 l2 s a Sep St Nl E. pose proof (exchange_shown d1 d2 l2 (empty_dist R) s Sep St Nl) as H. unfold plot, bind in *.
    destruct (last_dist R (empty_dist R) (d1 ++ d2 ++ l2) s) as [s1 [x|x]]; [|discriminate]. destruct (last_dist R (empty_dist R) (d2 ++ d1 ++ l2) s) as [s2 [y|y]]; [|destruct H].
    cbn [exchanged snd lift] in *. now subst.
  Qed.
  Lemma last_dist_stops : forall l1 l2 a s x, snd (last_dist R a l1 s) = Raise x -> snd (last_dist R a (l1 ++ l2) s) = Raise x.
  Proof.
    induction l1 as [|l l1 IH]; intros l2 a s x E; [discriminate|]. cbn [app last_dist] in *. unfold bind in *. destruct (lift R (parse l) s) as [s0 [e|y]]; [|exact E].
    destruct (dist_of R e s0) as [s1 [d|y]]; [now apply IH|exact E].
  Qed.
  Lemma omit_plot : forall B (f : dist -> res B) d l2 s a, (forall n, assigns d n -> ~ touches l2 n) -> ~ touches l2 stdout -> l2 <> [] ->
    snd (plot f (d ++ l2) s) = Ok a -> snd (plot f l2 s) = Ok a.
  Proof.
    intros B f d l2 s a Sep St Nl E. unfold plot, bind in *. destruct (last_dist R (empty_dist R) d s) as [s1 [b|x]] eqn:Ed.
    - pose proof (omit_shown d l2 (empty_dist R) s s1 b Sep St Nl Ed) as H.
      destruct (last_dist R (empty_dist R) (d ++ l2) s) as [s2 [x|x]]; [|discriminate]. destruct (last_dist R (empty_dist R) l2 s) as [s3 [y|y]]; cbn [snd lift] in *; congruence.
    - pose proof (last_dist_stops d l2 (empty_dist R) s x) as H. rewrite Ed in H. specialize (H eq_refl). destruct (last_dist R (empty_dist R) (d ++ l2) s) as [s2 [y|y]]; cbn [snd] in *; congruence.
  Qed.

  Lemma exchange_figures : forall d1 d2 l2 s, reachable R s -> separate d1 d2 -> ~ touches (d1 ++ d2 ++ l2) stdout -> l2 <> [] ->
    (forall a, snd (get_average R (d1 ++ d2 ++ l2) s) = Ok a -> exists a', snd (get_average R (d2 ++ d1 ++ l2) s) = Ok a' /\ same_entries a a') /\
    (forall a, snd (get_probability_distributions_dict R (d1 ++ d2 ++ l2) s) = Ok a -> exists a', snd (get_probability_distributions_dict R (d2 ++ d1 ++ l2) s) = Ok a' /\ same_entries a a') /\
    (forall h, snd (get_histogram R (d1 ++ d2 ++ l2) s) = Ok h -> snd (get_histogram R (d2 ++ d1 ++ l2) s) = Ok h) /\
    (forall h, snd (get_at_least_histogram R (d1 ++ d2 ++ l2) s) = Ok h -> snd (get_at_least_histogram R (d2 ++ d1 ++ l2) s) = Ok h) /\
    (forall h, snd (get_at_most_histogram R (d1 ++ d2 ++ l2) s) = Ok h -> snd (get_at_most_histogram R (d2 ++ d1 ++ l2) s) = Ok h).
  Proof.
    intros d1 d2 l2 s Rs Sep St Nl. split; [|split; [|split; [|split]]].
    - intros a E. exact (exchange_table _ (d_average R) d1 d2 l2 s a Rs Sep St Nl E).
    - intros a E. exact (exchange_table _ (get_dict_form R) d1 d2 l2 s a Rs Sep St Nl E).
    - intros h E. exact (exchange_plot _ (histogram_plot R) d1 d2 l2 s h Sep St Nl E).
    - intros h E. exact (exchange_plot _ (at_least_plot R) d1 d2 l2 s h Sep St Nl E).
    - intros h E. exact (exchange_plot _ (at_most_plot R) d1 d2 l2 s h Sep St Nl E).
  Qed.
  Lemma omit_tables : forall d l2 s, reachable R s -> (forall n, assigns d n -> ~ touches l2 n) -> ~ touches l2 stdout -> l2 <> [] -> (forall n, assigns d n -> variable R s n = None) ->
    (forall a, snd (get_average R (d ++ l2) s) = Ok a -> exists a', snd (get_average R l2 s) = Ok a' /\ forall n, n = stdout \/ ~ assigns d n -> dget text_eqb a n = dget text_eqb a' n) /\
    (forall a, snd (get_probability_distributions_dict R (d ++ l2) s) = Ok a ->
       exists a', snd (get_probability_distributions_dict R l2 s) = Ok a' /\ forall n, n = stdout \/ ~ assigns d n -> dget text_eqb a n = dget text_eqb a' n).
  Proof.
    intros d l2 s Rs Sep St Nl Hd. split.
    - intros a E. exact (omit_table _ (d_average R) d l2 s a Rs Sep St Nl Hd E).
    - intros a E. exact (omit_table _ (get_dict_form R) d l2 s a Rs Sep St Nl Hd E).
  Qed.
  Lemma omit_plots : forall d l2 s, (forall n, assigns d n -> ~ touches l2 n) -> ~ touches l2 stdout -> l2 <> [] ->
    (forall h, snd (get_histogram R (d ++ l2) s) = Ok h -> snd (get_histogram R l2 s) = Ok h) /\
    (forall h, snd (get_at_least_histogram R (d ++ l2) s) = Ok h -> snd (get_at_least_histogram R l2 s) = Ok h) /\
    (forall h, snd (get_at_most_histogram R (d ++ l2) s) = Ok h -> snd (get_at_most_histogram R l2 s) = Ok h).
  Proof.
    intros d l2 s Sep St Nl. split; [|split].
    - intros h E. exact (omit_plot _ (histogram_plot R) d l2 s h Sep St Nl E).
    - intros h E. exact (omit_plot _ (at_least_plot R) d l2 s h Sep St Nl E).
    - intros h E. exact (omit_plot _ (at_most_plot R) d l2 s h Sep St Nl E).
  Qed.
End Proofs.
