(** * FormulaProofs: C71 *)
From Coq Require Import QArith Permutation.
From Verif Require Import Py PyFacts Constraint Distribution DistFacts DiceModel Expr Parser Interp Instances SpecDice DiceFacts DiceProofs SpecProgram SpecRoll
  SpecInterp SpecAlgebra SpecInline AlgebraFacts ExprFacts ProgramFacts JointFacts RaiseFacts WfFacts InterpRun RollFacts InlineFacts InlineProofs ProgramProofs RollProofs
  ExtFacts ExtProofs Checks SpecProb SpecExchange ExchangeProofs SpecBetter BetterProofs SpecFormula SpecAlgebra.
Local Open Scope Z_scope.

(** ** Lists with the same sums *)
Lemma sums_perm : forall l l' : list (option Z), (forall F, lsum F l = lsum F l') -> Permutation l l'.
Proof.
  intros l l' H. apply (Permutation_count_occ oz_dec). intros x.
  assert (C : forall l, lsum (fun y => if oz_dec y x then 1 else 0) l = Z.of_nat (count_occ oz_dec l x)).
  { induction l0 as [|y l0 IH]; [reflexivity|]. rewrite lsum_cons, IH. cbn [count_occ]. destruct (oz_dec y x); lia. }
  specialize (H (fun y => if oz_dec y x then 1 else 0)). rewrite !C in H. lia.
Qed.
Lemma perm_occurrences : forall l l' v, Permutation l l' -> occurrences v l = occurrences v l'.
Proof. intros l l' v P. rewrite <- !lsum_occurrences. now apply lsum_perm. Qed.
Lemma perm_flat : forall A B (f g : A -> list B) l l', (forall x, Permutation (f x) (g x)) -> Permutation l l' -> Permutation (flat_map f l) (flat_map g l').
Proof.
  intros A B f g l l' H P. transitivity (flat_map g l).
  - clear P. induction l as [|x l IH]; [reflexivity|]. cbn [flat_map]. now apply Permutation_app.
  - now apply Permutation_flat_map.
Qed.
Lemma perm_both : forall f a a' b b', Permutation a a' -> Permutation b b' -> Permutation (both f a b) (both f a' b').
Proof. intros f a a' b b' P Q. unfold both. apply perm_flat; auto. intros x. now apply Permutation_map. Qed.

(** ** Formulas *)
Fixpoint spread (rho : text -> list (option Z)) (f : expr) : list (option Z) :=
  match f with
  | EParen e | EAssign _ e => spread rho e
  | ENot e => map (option_map (fun x => truth (negb (is_true x)))) (spread rho e)
  | EAbs e => map (option_map Z.abs) (spread rho e)
  | EDice _ | EDropKeep _ => []
  | EInt n => [match int_of_text n with Ok z => Some z | Raise _ => None end]
  | EBool s => [Some (truth (text_eqb s $"True"))]
  | EAdd a b => both (fun x y => Some (x + y)) (spread rho a) (spread rho b)
  | ESub a b => both (fun x y => Some (x - y)) (spread rho a) (spread rho b)
  | EMul a b => both (fun x y => Some (x * y)) (spread rho a) (spread rho b)
  | EDiv a b => both (fun x y => if y =? 0 then None else Some (x / y)) (spread rho a) (spread rho b)
  | EBin op a b => both (meaning (operator_meaning op)) (spread rho a) (spread rho b)
  | EMinMax mm a b => both (meaning (minmax_meaning mm)) (spread rho a) (spread rho b)
  | EVar n => rho n
  end.
Lemma app_nil_both : forall A (a b : list A), a ++ b = [] -> a = [] /\ b = [].
Proof. intros A a b H. now apply app_eq_nil in H. Qed.
Lemma fill_spread : forall sides env put f, dice_of f = [] -> joint sides env (fill put f) = spread (fun n => joint sides env (put n)) f.
Proof.
  intros sides env put f. induction f; cbn [dice_of fill joint spread]; intros D; try discriminate; try (apply app_nil_both in D; destruct D); auto;
    try (now rewrite IHf by assumption); now rewrite IHf1, IHf2 by assumption.
Qed.
Lemma spread_values : forall sides env f, dice_of f = [] -> joint sides env f = spread (fun n => [env n]) f.
Proof.
  intros sides env f. induction f; cbn [dice_of joint spread]; intros D; try discriminate; try (apply app_nil_both in D; destruct D); auto;
    try (now rewrite IHf by assumption); now rewrite IHf1, IHf2 by assumption.
Qed.
Lemma spread_agree : forall rho rho' f, (forall n, In n (reads f) -> rho n = rho' n) -> spread rho f = spread rho' f.
Proof.
  intros rho rho' f. induction f; cbn [reads spread]; intros H; auto; try (now rewrite IHf by auto);
    try (rewrite IHf1, IHf2; [reflexivity|..]; intros n I; apply H, in_or_app; auto). apply H. now left.
Qed.

Definition at_letter (rho : text -> list (option Z)) (n : text) (x : option Z) : text -> list (option Z) := fun k => if text_eqb k n then [x] else rho k.
Lemma times_none : forall n f, times_read n f = 0 <-> ~ In n (reads f).
Proof.
  intros n f. unfold times_read. induction (reads f) as [|k l IH]; cbn [filter]; [cbn; intuition|]. destruct (text_eqb n k) eqn:E.
  - apply text_eqb_eq in E. subst k. cbn [length In]. split; [lia | intros H; destruct H; now left].
  - cbn [In]. rewrite IH. assert (k <> n) by (intros ->; rewrite (proj2 (text_eqb_eq n n) eq_refl) in E; discriminate). intuition.
Qed.
Lemma times_app : forall n l l', Z.of_nat (length (filter (text_eqb n) (l ++ l'))) = Z.of_nat (length (filter (text_eqb n) l)) + Z.of_nat (length (filter (text_eqb n) l')).
Proof. intros n l l'. rewrite filter_app, app_length. lia. Qed.
Lemma at_letter_out : forall rho n x f, ~ In n (reads f) -> spread (at_letter rho n x) f = spread rho f.
Proof.
  intros rho n x f H. apply spread_agree. intros k I. unfold at_letter. destruct (text_eqb k n) eqn:E; [|reflexivity]. apply text_eqb_eq in E. subst k. contradiction.
Qed.
Lemma spread_once : forall n f rho H, dice_of f = [] -> times_read n f = 1 -> lsum H (spread rho f) = lsum (fun x => lsum H (spread (at_letter rho n x) f)) (rho n).
Proof.
  intros n f rho.
  assert (Two : forall g a b H, (dice_of a = [] -> times_read n a = 1 -> forall H, lsum H (spread rho a) = lsum (fun x => lsum H (spread (at_letter rho n x) a)) (rho n)) ->
    (dice_of b = [] -> times_read n b = 1 -> forall H, lsum H (spread rho b) = lsum (fun x => lsum H (spread (at_letter rho n x) b)) (rho n)) ->
    dice_of a ++ dice_of b = [] -> Z.of_nat (length (filter (text_eqb n) (reads a ++ reads b))) = 1 ->
    lsum H (both g (spread rho a) (spread rho b)) = lsum (fun x => lsum H (both g (spread (at_letter rho n x) a) (spread (at_letter rho n x) b))) (rho n)).
  { intros g a b H IHa IHb D T. apply app_nil_both in D. destruct D as [Da Db]. rewrite times_app in T. fold (times_read n a) (times_read n b) in T.
    assert (0 <= times_read n a) by (unfold times_read; lia). assert (0 <= times_read n b) by (unfold times_read; lia).
    assert (C : times_read n a = 1 /\ times_read n b = 0 \/ times_read n a = 0 /\ times_read n b = 1) by lia. destruct C as [[A B]|[A B]].
    - apply times_none in B. rewrite lsum_both2, (IHa Da A). apply lsum_ext. intros x _. now rewrite lsum_both2, (at_letter_out rho n x b B).
    - apply times_none in A. rewrite lsum_both2, lsum_swap, (IHb Db B). apply lsum_ext. intros x _. now rewrite lsum_both2, lsum_swap, (at_letter_out rho n x a A). }
  induction f; intros H D T; cbn [dice_of reads spread] in *; unfold times_read in T; cbn [reads] in T; try (cbn in T; lia); try (now apply IHf);
    try (now apply Two; [intros; now apply IHf1 | intros; now apply IHf2 | |]); try discriminate.
  - rewrite lsum_map, (IHf _ D T). apply lsum_ext. intros x _. now rewrite lsum_map.
  - rewrite lsum_map, (IHf _ D T). apply lsum_ext. intros x _. now rewrite lsum_map.
  - cbn [filter] in T. destruct (text_eqb n name) eqn:E; [|cbn in T; lia]. apply text_eqb_eq in E. subst name. transitivity (lsum H (rho n)); [reflexivity|].
    apply lsum_ext. intros x _. unfold at_letter. rewrite (proj2 (text_eqb_eq n n) eq_refl). rewrite lsum_cons, lsum_nil. lia.
Qed.

(** All letters, one after the other *)
Fixpoint spread_all (letters : list text) (rho : text -> list (option Z)) (k : (text -> list (option Z)) -> Z) : Z :=
  match letters with [] => k rho | n :: ls => lsum (fun x => spread_all ls (at_letter rho n x) k) (rho n) end.
Lemma spread_all_is : forall f H, dice_of f = [] -> forall letters rho, (forall n, In n letters -> times_read n f = 1 \/ exists x, rho n = [x]) ->
  lsum H (spread rho f) = spread_all letters rho (fun rho => lsum H (spread rho f)).
Proof.
  intros f H D letters. induction letters as [|n ls IH]; intros rho L; [reflexivity|]. cbn [spread_all].
  assert (Nx : forall x, lsum H (spread (at_letter rho n x) f) = spread_all ls (at_letter rho n x) (fun rho => lsum H (spread rho f))).
  { intros x. apply IH. intros k I. destruct (L k (or_intror I)) as [A|[y A]]; [now left|]. right. unfold at_letter. destruct (text_eqb k n); eauto. }
  destruct (L n (or_introl eq_refl)) as [A|[x A]].
  - rewrite (spread_once n f rho H D A). apply lsum_ext. intros x _. apply Nx.
  - rewrite A, lsum_cons, lsum_nil, <- Nx, Z.add_0_r. f_equal. apply spread_agree. intros k _. unfold at_letter. destruct (text_eqb k n) eqn:E; [|reflexivity].
    apply text_eqb_eq in E. now subst k.
Qed.
Lemma spread_all_ext : forall k k' letters rho, (forall rho', (forall n, In n letters -> exists x, rho' n = [x] /\ In x (rho n)) -> (forall n, ~ In n letters -> rho' n = rho n) -> k rho' = k' rho') ->
  spread_all letters rho k = spread_all letters rho k'.
Proof.
  intros k k' letters. induction letters as [|n ls IH]; intros rho H; cbn [spread_all].
  - apply H; [intros n [] | reflexivity].
  - apply lsum_ext. intros x I. apply IH. intros rho' A B. apply H.
    + intros m Im. destruct (in_dec (list_eq_dec Ascii.ascii_dec) m ls) as [J|J].
      * destruct (A m J) as [y [Y1 Y2]]. exists y. split; [exact Y1|]. unfold at_letter in Y2. destruct (text_eqb m n) eqn:E; [|exact Y2].
        apply text_eqb_eq in E. subst m. destruct Y2 as [<-|[]]. exact I.
      * destruct Im as [<-|Im]; [|contradiction]. exists x. split; [|exact I]. rewrite (B n J). unfold at_letter. now rewrite (proj2 (text_eqb_eq n n) eq_refl).
    + intros m Im. rewrite (B m) by (intros C; apply Im; now right). unfold at_letter. destruct (text_eqb m n) eqn:E; [|reflexivity].
      apply text_eqb_eq in E. subst m. destruct Im. now left.
Qed.

Lemma dicefree_single : forall sides env e, dice_of e = [] -> exists x, joint sides env e = [x].
Proof.
  intros sides env e D. assert (L : length (joint sides env e) = 1%nat).
  { induction e; cbn [dice_of joint] in *; try discriminate; try (apply app_nil_both in D; destruct D); rewrite ?map_length, ?both_length; auto; rewrite IHe1, IHe2 by assumption; reflexivity. }
  destruct (joint sides env e) as [|x [|y l]]; try discriminate. now exists x.
Qed.
Lemma same_formula_perm : forall several e e' sides, (forall m, incl (sides m) (map fst m)) -> same_formula several e e' -> forall env, Permutation (joint sides env e) (joint sides env e').
Proof.
  intros several e e' sides Sub [put [f [g [-> [-> [[Sf [Sg [Df [Dg [L V]]]]] [Sp O]]]]]]] env. apply sums_perm. intros H.
  rewrite (fill_spread sides env put f Df), (fill_spread sides env put g Dg). set (rho := fun n => joint sides env (put n)).
  assert (Single : forall n, dice_of (put n) = [] -> exists x, rho n = [x]) by (intros n D; apply dicefree_single, D).
  rewrite (spread_all_is f H Df (reads f) rho), (spread_all_is g H Dg (reads f) rho) by (intros n I; destruct (O n I) as [[A B]|[_ A]]; auto).
  apply spread_all_ext. intros rho' A _. set (en := fun n => hd None (rho' n)).
  assert (En : forall n, In n (reads f) -> rho' n = [en n]) by (intros n I; destruct (A n I) as [x [X _]]; unfold en; now rewrite X).
  rewrite (spread_agree rho' (fun n => [en n]) f En), (spread_agree rho' (fun n => [en n]) g) by (intros n I; apply En, L, I).
  rewrite <- (spread_values faces en f Df), <- (spread_values faces en g Dg). f_equal. apply V. intros n I. destruct (A n I) as [x [X Ix]]. exists env.
  assert (Ex : en n = x) by (unfold en; now rewrite X). rewrite Ex. revert Ix. unfold rho. apply joint_incl. intros m _. apply Sub.
Qed.

(** ** What else equal formulas share *)
Lemma fill_simple : forall put f, simple f -> (forall n, In n (reads f) -> simple (put n)) -> simple (fill put f).
Proof.
  intros put f. induction f; cbn [simple fill reads]; intros S H; auto; try (now destruct S); try (now apply IHf); try (apply H; now left).
  all: repeat match goal with S : _ /\ _ |- _ => destruct S end; repeat split; auto; (apply IHf1 || apply IHf2); auto; intros n I; apply H, in_or_app; auto.
Qed.
Lemma fill_reads : forall put f n, In n (reads (fill put f)) <-> exists k, In k (reads f) /\ In n (reads (put k)).
Proof.
  intros put f n. induction f; cbn [fill reads]; auto; try (now split; [intros [] | intros [k [[] _]]]).
  all: try (rewrite in_app_iff, IHf1, IHf2; split; [intros [[k [A B]]|[k [A B]]]; exists k; split; auto; apply in_or_app; auto |
    intros [k [A B]]; apply in_app_or in A; destruct A; [left|right]; exists k; auto]).
  split; [intros I; exists name; split; auto; now left | intros [k [[<-|[]] I]]; exact I].
Qed.
Lemma fill_dice : forall put f m, dice_of f = [] -> In m (dice_of (fill put f)) <-> exists k, In k (reads f) /\ In m (dice_of (put k)).
Proof.
  intros put f m. induction f; cbn [fill reads dice_of]; intros D; auto; try discriminate; try (now split; [intros [] | intros [k [[] _]]]).
  all: try (apply app_nil_both in D; destruct D as [D1 D2]; rewrite in_app_iff, IHf1, IHf2 by assumption; split; [intros [[k [A B]]|[k [A B]]]; exists k; split; auto; apply in_or_app; auto |
    intros [k [A B]]; apply in_app_or in A; destruct A; [left|right]; exists k; auto]).
  split; [intros I; exists name; split; auto; now left | intros [k [[<-|[]] I]]; exact I].
Qed.
Lemma fill_times : forall put f n, times_read n (fill put f) = lsum (fun k => times_read n (put k)) (reads f).
Proof.
  intros put f n. unfold times_read. induction f; cbn [fill reads]; auto; try (rewrite times_app, IHf1, IHf2, lsum_app; reflexivity). rewrite lsum_cons, lsum_nil. lia.
Qed.

Lemma nodup_times : forall l : list text, (forall n, In n l -> Z.of_nat (length (filter (text_eqb n) l)) = 1) -> NoDup l.
Proof.
  induction l as [|x l IH]; intros H; constructor.
  - intros I. specialize (H x (or_introl eq_refl)). cbn [filter] in H. rewrite (proj2 (text_eqb_eq x x) eq_refl) in H. cbn [length] in H.
    assert (X : In x (filter (text_eqb x) l)) by (apply filter_In; split; [exact I | now apply text_eqb_eq]). destruct (filter (text_eqb x) l); [destruct X | cbn [length] in H; lia].
  - apply IH. intros n I. specialize (H n (or_intror I)). cbn [filter] in H. destruct (text_eqb n x); [|exact H]. cbn [length] in H.
    assert (X : In n (filter (text_eqb n) l)) by (apply filter_In; split; [exact I | now apply text_eqb_eq]). destruct (filter (text_eqb n) l); [destruct X | cbn [length] in H; lia].
Qed.
Lemma once_times : forall e e', same_formula false e e' -> forall n, times_read n e = times_read n e'.
Proof.
  intros e e' [put [f [g [-> [-> [[_ [_ [_ [_ [L _]]]]] [_ O]]]]]]] n. rewrite !fill_times. apply lsum_perm. apply NoDup_Permutation; [| |exact L].
  - apply nodup_times. intros k I. destruct (O k I) as [[A _]|[A _]]; [exact A | discriminate].
  - apply nodup_times. intros k I. destruct (O k (proj2 (L k) I)) as [[_ A]|[A _]]; [exact A | discriminate].
Qed.
Lemma formula_reads : forall several e e', same_formula several e e' -> incl (reads e') (reads e).
Proof.
  intros several e e' [put [f [g [-> [-> [[_ [_ [_ [_ [L _]]]]] _]]]]]] n I. apply fill_reads in I. apply fill_reads. destruct I as [k [A B]]. exists k. split; [now apply L | exact B].
Qed.
Lemma formula_dice : forall several e e', same_formula several e e' -> incl (dice_of e') (dice_of e).
Proof.
  intros several e e' [put [f [g [-> [-> [[_ [_ [Df [Dg [L _]]]]] _]]]]]] m I. apply fill_dice in I; [|exact Dg]. apply fill_dice; [exact Df|]. destruct I as [k [A B]]. exists k. split; [now apply L | exact B].
Qed.
Lemma formula_simple : forall several e e', same_formula several e e' -> simple e'.
Proof.
  intros several e e' [put [f [g [-> [-> [[_ [Sg [_ [_ [L _]]]]] [Sp _]]]]]]]. apply fill_simple; [exact Sg|]. intros n I. apply Sp, L, I.
Qed.

(** ** Lines and programs *)
Section Exchanged.
  Context (several : bool).
  Notation same := (same_formula several).

  Lemma formula_line : forall sides, (forall m, incl (sides m) (map fst m)) -> forall e e', exchanged same e e' -> forall env, Permutation (joint sides env e) (joint sides env e').
  Proof.
    intros sides Sub e e' H env. induction H; cbn [joint]; auto; try (now apply (same_formula_perm several)); try (now apply Permutation_map); now apply perm_both.
  Qed.
  Lemma formula_line_reads : forall e e', exchanged same e e' -> incl (reads e') (reads e).
  Proof. intros e e' H. induction H; cbn [reads]; auto using incl_refl; try (now apply (formula_reads several)); apply incl_app; auto using incl_appl, incl_appr. Qed.
  Lemma formula_line_dice : forall e e', exchanged same e e' -> incl (dice_of e') (dice_of e).
  Proof. intros e e' H. induction H; cbn [dice_of]; auto using incl_refl; try (now apply (formula_dice several)); apply incl_app; auto using incl_appl, incl_appr. Qed.

  Lemma formula_program_dice : forall p q, exchanged_program same p q -> incl (program_dice q) (program_dice p).
  Proof.
    intros p q H. induction H as [|[n e] [n' e'] p q [En He] HF IH]; [apply incl_refl|]. unfold program_dice in *. cbn [flat_map snd] in *.
    apply incl_app; [apply incl_appl; now apply formula_line_dice | now apply incl_appr].
  Qed.
  Lemma formula_closed : forall p q, exchanged_program same p q -> forall known, closed known p -> closed known q.
  Proof.
    intros p q H. induction H as [|[n e] [n' e'] p q [En He] HF IH]; intros known; cbn [closed]; auto. cbn [fst snd] in *. subst n'.
    intros [A B]. split; auto. intros m I. apply A. now apply (formula_line_reads e e').
  Qed.
  Lemma formula_good : forall p q, exchanged_program same p q -> good_program p -> good_program q.
  Proof.
    intros p q H [G1 [G2 G3]]. split; [|split].
    - destruct H; [contradiction | discriminate].
    - now apply (formula_closed p q H).
    - intros n e' I. destruct (exchanged_in same p q H n e' I) as [e [I1 X]]. destruct (G3 n e I1) as [A B]. split; auto.
      apply (exchanged_simple same (formula_simple several) e e' X A).
  Qed.
  Lemma formula_results : forall sides, (forall m, incl (sides m) (map fst m)) -> forall p q, exchanged_program same p q -> forall env, Permutation (results sides env p) (results sides env q).
  Proof.
    intros sides Sub p q H. induction H as [|[n e] [n' e'] p q [En He] HF IH]; intros env; [reflexivity|]. cbn [fst snd] in *. subst n'.
    inversion HF as [|l l' p1 q1 Hl Hp]; subst.
    - rewrite !results_one. now apply formula_line.
    - rewrite !results_cons. apply perm_flat; [|now apply formula_line]. intros [x|]; [apply IH | reflexivity].
  Qed.
End Exchanged.

(** every letter once *)
Local Notation once := (same_formula false).
Lemma once_line_times : forall e e', exchanged once e e' -> forall n, times_read n e = times_read n e'.
Proof.
  intros e e' H n. induction H; try reflexivity; try (now apply once_times); try exact IHexchanged; unfold times_read in *; cbn [reads]; rewrite !times_app, IHexchanged1, IHexchanged2; reflexivity.
Qed.
Lemma once_uses : forall p q, exchanged_program once p q -> forall n, uses n p = uses n q.
Proof.
  intros p q H. induction H as [|[m e] [m' e'] p q [En He] HF IH]; intros n; [reflexivity|]. cbn [fst snd] in *. subst m'.
  assert (T := once_line_times e e' He). inversion HF as [|l l' p1 q1 Hl Hp]; subst.
  - destruct m; apply T.
  - destruct m as [m|].
    + change (times_read n e * uses m (l :: p1) + (if text_eqb n m then 0 else uses n (l :: p1)) = times_read n e' * uses m (l' :: q1) + (if text_eqb n m then 0 else uses n (l' :: q1))).
      now rewrite T, !IH.
    + change (uses n (l :: p1) = uses n (l' :: q1)). apply IH.
Qed.
Lemma once_used : forall sides, (forall m, incl (sides m) (map fst m)) -> forall p q, exchanged_program once p q -> forall env, Permutation (used_results sides env p) (used_results sides env q).
Proof.
  intros sides Sub p q H. induction H as [|[n e] [n' e'] p q [En He] HF IH]; intros env; [reflexivity|]. cbn [fst snd] in *. subst n'. assert (U := once_uses p q HF).
  inversion HF as [|l l' p1 q1 Hl Hp]; subst.
  - destruct n; now apply (formula_line false).
  - destruct n as [n|]; [|exact (IH env)]. rewrite !used_results_some, <- U. destruct (uses n (l :: p1) =? 0); auto.
    apply perm_flat; [|now apply (formula_line false)]. intros [x|]; [apply IH | reflexivity].
Qed.
Lemma faces_incl : forall m, incl (faces m) (map fst m).
Proof. intros m x. apply faces_sides. Qed.
Lemma once_weighted : forall p q, exchanged_program once p q -> forall env v, weighted faces env p v = weighted faces env q v.
Proof.
  intros p q H. induction H as [|[n e] [n' e'] p q [En He] HF IH]; intros env v; [reflexivity|]. cbn [fst snd] in *. subst n'. assert (U := once_uses p q HF).
  assert (P := formula_line false faces faces_incl e e' He env). inversion HF as [|l l' p1 q1 Hl Hp]; subst.
  - destruct n; now apply perm_occurrences.
  - destruct n as [n|]; [|exact (IH env v)]. rewrite !weighted_some, <- U. destruct (uses n (l :: p1) =? 0); auto.
    rewrite (lsum_ext _ (fo (fun x => occurrences x (joint faces env e) ^ uses n (l :: p1) * weighted faces (bind_value env (Some n) x) (l :: p1) v))
      (fo (fun x => occurrences x (joint faces env e') ^ uses n (l :: p1) * weighted faces (bind_value env (Some n) x) (l' :: q1) v)))
      by (intros [x|] _; cbn [fo]; [rewrite IH, (perm_occurrences _ _ x P); reflexivity | reflexivity]).
    apply lsum_perm. apply NoDup_Permutation; try apply NoDup_nodup. intros x. rewrite !nodup_In. split; intros I; [apply (Permutation_in x P I) | apply (Permutation_in x (Permutation_sym P) I)].
Qed.

Section Reported.
  Context (R : Runtime).
  Notation dist := (dist R).

  Lemma formula_distribution : forall p q lines lines' s s' d d', exchanged_program (same_formula false) p q -> good_program p -> program_text lines p -> program_text lines' q ->
    reachable R s -> reachable R s' -> reports R s lines d -> reports R s' lines' d' -> same_results R d d'.
  Proof.
    intros p q lines lines' s s' d d' H G T T' Hs Hs' Hr Hr'. assert (G' := formula_good false p q H G).
    destruct (program_run R s lines p d Hs T G Hr) as [s1 [E I]]. destruct (program_run R s' lines' q d' Hs' T' G' Hr') as [s1' [E' I']]. intros v. split.
    - rewrite (run_listed R true p s s1 d I G E v), (run_listed R true q s' s1' d' I' G' E' v).
      assert (P := once_used (map fst) (fun m => incl_refl _) p q H no_values).
      split; intros X; [exact (Permutation_in _ P X) | exact (Permutation_in _ (Permutation_sym P) X)].
    - rewrite (run_reported R true p s s1 d I G E v), (run_reported R true q s' s1' d' I' G' E' v). now apply once_weighted.
  Qed.

  Lemma formula_raises : forall several p q lines lines' s s' x, exchanged_program (same_formula several) p q -> good_program p -> sided p -> program_text lines p -> program_text lines' q ->
    reachable R s -> reachable R s' -> (distribution_raises R s lines x <-> distribution_raises R s' lines' x).
  Proof.
    intros several p q lines lines' s s' x H G S T T' Hs Hs'. assert (G' := formula_good several p q H G).
    assert (S' : sided q) by (intros m I; apply S; now apply (formula_program_dice several p q H)).
    assert (P := formula_results several (map fst) (fun m => incl_refl _) p q H no_values).
    rewrite (raises_exactly R s lines p x Hs T G S), (raises_exactly R s' lines' q x Hs' T' G' S').
    split; intros [A B]; (split; [exact A|]); [exact (Permutation_in _ P B) | exact (Permutation_in _ (Permutation_sym P) B)].
  Qed.

  Lemma formula_values : forall several p q lines lines' s s' d d', exchanged_program (same_formula several) p q -> good_program p -> rollable p -> program_text lines p -> program_text lines' q ->
    reachable R s -> reachable R s' -> reports R s lines d -> reports R s' lines' d' -> forall v, (listed R d v <-> listed R d' v) /\ (reported R d v <> 0 <-> reported R d' v <> 0).
  Proof.
    intros several p q lines lines' s s' d d' H G Rp T T' Hs Hs' Hr Hr' v. assert (G' := formula_good several p q H G).
    assert (Rq : rollable q) by (intros m I; apply Rp; now apply (formula_program_dice several p q H)).
    destruct (results_possible R s lines p d Hs T G Rp Hr v) as [-> ->]. destruct (results_possible R s' lines' q d' Hs' T' G' Rq Hr' v) as [-> ->].
    assert (X := formula_results several faces faces_incl p q H no_values). assert (Y := formula_results several (map fst) (fun m => incl_refl _) p q H no_values).
    split; split; intros Z0; [exact (Permutation_in _ Y Z0) | exact (Permutation_in _ (Permutation_sym Y) Z0) | exact (Permutation_in _ X Z0) | exact (Permutation_in _ (Permutation_sym X) Z0)].
  Qed.

  Lemma formula_shares : forall p q lines lines' s s' d d', exchanged_program (same_formula true) p q -> good_program p -> rollable p -> used_once_or_uniform p -> used_once_or_uniform q ->
    program_text lines p -> program_text lines' q -> reachable R s -> reachable R s' -> reports R s lines d -> reports R s' lines' d' -> same_shares R d d'.
  Proof.
    intros p q lines lines' s s' d d' H G Rp U U' T T' Hs Hs' Hr Hr'. assert (G' := formula_good true p q H G).
    assert (Rq : rollable q) by (intros m I; apply Rp; now apply (formula_program_dice true p q H)).
    destruct (uniform_sum R s lines p d (fun _ => 1) Hs T G Rp U Hr) as [P [N [NE _]]]. destruct (uniform_sum R s' lines' q d' (fun _ => 1) Hs' T' G' Rq U' Hr') as [P' [N' [NE' _]]].
    assert (X := formula_results true faces faces_incl p q H no_values). assert (Y := formula_results true (map fst) (fun m => incl_refl _) p q H no_values).
    destruct (program_run R s lines p d Hs T G Hr) as [s1 [E1 I1]]. assert (D := run_dinv R true p s s1 d I1 G E1).
    destruct (program_run R s' lines' q d' Hs' T' G' Hr') as [s2 [E2 I2]]. assert (D' := run_dinv R true q s' s2 d' I2 G' E2).
    split; [lia|]. intros v. split.
    - rewrite (proj2 (results_possible R s lines p d Hs T G Rp Hr v)), (proj2 (results_possible R s' lines' q d' Hs' T' G' Rq Hr' v)).
      split; intros Z0; [exact (Permutation_in _ Y Z0) | exact (Permutation_in _ (Permutation_sym Y) Z0)].
    - assert (A := exact_when_uniform R s lines p d Hs T G Rp U Hr v). assert (A' := exact_when_uniform R s' lines' q d' Hs' T' G' Rq U' Hr' v).
      rewrite <- (perm_occurrences _ _ v X), <- (Permutation_length X) in A'. rewrite <- (total_count R d D) in A. rewrite <- (total_count R d' D') in A'.
      assert (L : 0 < Z.of_nat (length (results faces no_values p))) by (destruct (results faces no_values p); [congruence | cbn [length]; lia]).
      apply (Z.mul_reg_l _ _ (Z.of_nat (length (results faces no_values p)))); [lia|].
      transitivity ((reported R d v * Z.of_nat (length (results faces no_values p))) * total_ways R d'); [ring|]. rewrite A.
      transitivity ((reported R d' v * Z.of_nat (length (results faces no_values p))) * total_ways R d); [rewrite A'; ring | ring].
  Qed.

  Lemma formula_roll : forall several p q lines lines' s s', exchanged_program (same_formula several) p q -> good_program p -> drawable p ->
    program_logic_agrees no_values p -> program_logic_agrees no_values q -> program_text lines p -> program_text lines' q ->
    (forall x, can_raise R s lines x <-> can_raise R s' lines' x) /\ (forall v, can_roll R s lines v <-> can_roll R s' lines' v) /\
    (forall v, roll_weight R s lines v = roll_weight R s' lines' v) /\ ((forall x, ~ can_raise R s lines x) -> roll_total R s lines = roll_total R s' lines').
  Proof.
    intros several p q lines lines' s s' H G D L L' T T'. assert (G' := formula_good several p q H G).
    assert (D' : drawable q) by (intros m I; apply D; now apply (formula_program_dice several p q H)).
    assert (Q := good_runnable p G). assert (Q' := good_runnable q G'). assert (X := formula_results several faces faces_incl p q H no_values).
    rewrite <- (rolled_results p no_values L), <- (rolled_results q no_values L') in X.
    destruct (roll_semantics R s lines p T Q D) as [C1 [W1 L1]]. destruct (roll_semantics R s' lines' q T' Q' D') as [C2 [W2 L2]].
    assert (M : forall x, In x (rolled_program no_values p) <-> In x (rolled_program no_values q)).
    { intros x. split; intros Z0; [exact (Permutation_in _ X Z0) | exact (Permutation_in _ (Permutation_sym X) Z0)]. }
    split; [|split; [|split]].
    - intros x. rewrite (roll_raises R s lines p x T Q D), (roll_raises R s' lines' q x T' Q' D'), (M None). reflexivity.
    - intros v. rewrite C1, C2. apply M.
    - intros v. rewrite W1, W2. now apply perm_occurrences.
    - intros N. assert (Nn : ~ In None (rolled_program no_values p)) by (intros Z0; apply (N ZeroDivisionError), (roll_raises R s lines p _ T Q D); auto).
      rewrite (L1 Nn), (L2 ltac:(intros Z0; now apply Nn, M)). now rewrite (Permutation_length X).
  Qed.
End Reported.

(** ** Laws *)
Definition three (a b c : expr) : text -> expr := fun n => if text_eqb n $"x" then a else if text_eqb n $"y" then b else c.
Local Notation X := (EVar $"x"). Local Notation Y := (EVar $"y"). Local Notation Z' := (EVar $"z").
Lemma same_formula_three : forall several a b c f g, simple a -> simple b -> simple c -> simple f -> simple g -> dice_of f = [] -> dice_of g = [] -> incl (reads f) [$"x"; $"y"; $"z"] ->
  (forall n, In n (reads f) <-> In n (reads g)) -> (forall x y z, joint faces (fun n => if text_eqb n $"x" then x else if text_eqb n $"y" then y else z) f =
    joint faces (fun n => if text_eqb n $"x" then x else if text_eqb n $"y" then y else z) g) ->
  (forall n, In n (reads f) -> times_read n f = 1 /\ times_read n g = 1 \/ several = true /\ dice_of (three a b c n) = []) ->
  same_formula several (fill (three a b c) f) (fill (three a b c) g).
Proof.
  intros several a b c f g Sa Sb Sc Sf Sg Df Dg I L V O. exists (three a b c), f, g. split; [reflexivity|]. split; [reflexivity|]. split; [|split; [|exact O]].
  - repeat (split; [assumption|]). intros env _. specialize (V (env $"x") (env $"y") (env $"z")).
    rewrite (joint_agree faces f env (fun n => if text_eqb n $"x" then env $"x" else if text_eqb n $"y" then env $"y" else env $"z")), V.
    + apply joint_agree. intros n J. apply L in J. apply I in J. destruct J as [<-|[<-|[<-|[]]]]; reflexivity.
    + intros n J. apply I in J. destruct J as [<-|[<-|[<-|[]]]]; reflexivity.
  - intros n J. apply I in J. destruct J as [<-|[<-|[<-|[]]]]; assumption.
Qed.
Ltac values := unfold meaning, truth, is_true; repeat match goal with
  | |- context [?x <? ?y] => is_var y; destruct (Z.ltb_spec x y) | |- context [?x <=? ?y] => is_var y; destruct (Z.leb_spec x y)
  | |- context [?x =? ?y] => is_var y; destruct (Z.eqb_spec x y) end; cbn; try reflexivity; try apply (f_equal (fun x => [Some x])); try lia.
Section Laws.
  Context (a b c : expr) (Sa : simple a) (Sb : simple b) (Sc : simple c).
  Ltac law f g := refine (same_formula_three _ a b c f g Sa Sb Sc _ _ eq_refl eq_refl _ _ _ _);
    [ cbn; repeat split; discriminate | cbn; repeat split; discriminate | intros n J; cbn in J |- *; tauto | intros n; cbn; tauto
    | intros [x|] [y|] [z|]; cbn; try reflexivity
    | intros n J; cbn in J; repeat (destruct J as [<-|J]); try contradiction J; first [left; split; reflexivity | right; split; [reflexivity | assumption]] ].
  Local Notation MIN := (EMinMax $"MIN"). Local Notation MAX := (EMinMax $"MAX").
  Lemma laws_once :
    once (EParen a) a /\
    once (EAdd a b) (EAdd b a) /\ once (EAdd (EAdd a b) c) (EAdd a (EAdd b c)) /\ once (ESub (ESub a b) c) (ESub a (EAdd b c)) /\ once (ESub (EAdd a b) c) (EAdd a (ESub b c)) /\
    once (EMul a b) (EMul b a) /\ once (EMul (EMul a b) c) (EMul a (EMul b c)) /\ once (EAbs (ESub a b)) (EAbs (ESub b a)) /\ once (EAbs (EMul a b)) (EMul (EAbs a) (EAbs b)).
  Proof.
    repeat apply conj.
    - law (EParen X) (EVar $"x").
    - law (EAdd X Y) (EAdd Y X); values.
    - law (EAdd (EAdd X Y) Z') (EAdd X (EAdd Y Z')); values.
    - law (ESub (ESub X Y) Z') (ESub X (EAdd Y Z')); values.
    - law (ESub (EAdd X Y) Z') (EAdd X (ESub Y Z')); values.
    - law (EMul X Y) (EMul Y X); values.
    - law (EMul (EMul X Y) Z') (EMul X (EMul Y Z')); values.
    - law (EAbs (ESub X Y)) (EAbs (ESub Y X)); values.
    - law (EAbs (EMul X Y)) (EMul (EAbs X) (EAbs Y)); do 2 f_equal; apply Z.abs_mul.
  Qed.
  Lemma laws_minmax : forall mm, mm = $"MIN" \/ mm = $"MAX" ->
    once (EMinMax mm a b) (EMinMax mm b a) /\ once (EMinMax mm (EMinMax mm a b) c) (EMinMax mm a (EMinMax mm b c)).
  Proof.
    intros mm [->| ->]; split.
    - law (MIN X Y) (MIN Y X); values.
    - law (MIN (MIN X Y) Z') (MIN X (MIN Y Z')); values.
    - law (MAX X Y) (MAX Y X); values.
    - law (MAX (MAX X Y) Z') (MAX X (MAX Y Z')); values.
  Qed.
  Lemma laws_comparison : forall op op', In (op, op') [($"<", $">="); ($"<=", $">"); ($"==", $"!=")] ->
    once (ENot (EBin op a b)) (EBin op' a b) /\ once (ENot (EBin op' a b)) (EBin op a b).
  Proof.
    intros op op' I. destruct I as [E|[E|[E|[]]]]; injection E as <- <-; split.
    - law (ENot (EBin $"<" X Y)) (EBin $">=" X Y); values.
    - law (ENot (EBin $">=" X Y)) (EBin $"<" X Y); values.
    - law (ENot (EBin $"<=" X Y)) (EBin $">" X Y); values.
    - law (ENot (EBin $">" X Y)) (EBin $"<=" X Y); values.
    - law (ENot (EBin $"==" X Y)) (EBin $"!=" X Y); values.
    - law (ENot (EBin $"!=" X Y)) (EBin $"==" X Y); values.
  Qed.
  Lemma laws_logic : forall op op', In (op, op') [($"AND", $"OR"); ($"OR", $"AND")] ->
    once (ENot (EBin op a b)) (EBin op' (ENot a) (ENot b)) /\ once (EBin op a b) (EBin op b a) /\ once (EBin op (EBin op a b) c) (EBin op a (EBin op b c)).
  Proof.
    intros op op' I. destruct I as [E|[E|[]]]; injection E as <- <-; repeat apply conj.
    - law (ENot (EBin $"AND" X Y)) (EBin $"OR" (ENot X) (ENot Y)); values.
    - law (EBin $"AND" X Y) (EBin $"AND" Y X); values.
    - law (EBin $"AND" (EBin $"AND" X Y) Z') (EBin $"AND" X (EBin $"AND" Y Z')); values.
    - law (ENot (EBin $"OR" X Y)) (EBin $"AND" (ENot X) (ENot Y)); values.
    - law (EBin $"OR" X Y) (EBin $"OR" Y X); values.
    - law (EBin $"OR" (EBin $"OR" X Y) Z') (EBin $"OR" X (EBin $"OR" Y Z')); values.
  Qed.
  Lemma laws_several : dice_of a = [] ->
    same_formula true (EMul a (EAdd b c)) (EAdd (EMul a b) (EMul a c)) /\ same_formula true (EMul a (ESub b c)) (ESub (EMul a b) (EMul a c)) /\
    same_formula true (EAdd a (MAX b c)) (MAX (EAdd a b) (EAdd a c)) /\ same_formula true (EAdd a (MIN b c)) (MIN (EAdd a b) (EAdd a c)) /\
    same_formula true (ESub a (MAX b c)) (MIN (ESub a b) (ESub a c)) /\ same_formula true (ESub a (MIN b c)) (MAX (ESub a b) (ESub a c)).
  Proof.
    intros Da. repeat apply conj.
    - law (EMul X (EAdd Y Z')) (EAdd (EMul X Y) (EMul X Z')); values.
    - law (EMul X (ESub Y Z')) (ESub (EMul X Y) (EMul X Z')); values.
    - law (EAdd X (MAX Y Z')) (MAX (EAdd X Y) (EAdd X Z')); values.
    - law (EAdd X (MIN Y Z')) (MIN (EAdd X Y) (EAdd X Z')); values.
    - law (ESub X (MAX Y Z')) (MIN (ESub X Y) (ESub X Z')); values.
    - law (ESub X (MIN Y Z')) (MAX (ESub X Y) (ESub X Z')); values.
  Qed.
End Laws.
