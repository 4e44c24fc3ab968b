(** * BetterProofs: C70 *)
From Coq Require Import QArith Qabs Permutation Lqa.
From Verif Require Import Py PyFacts PyFloat Constraint Distribution DistFacts DiceModel Expr Parser Interp Instances SpecDice DiceFacts DiceProofs DropKeepFacts SpecProgram SpecRoll
  SpecInterp SpecAlgebra SpecInline AlgebraFacts ExprFacts ProgramFacts JointFacts RaiseFacts WfFacts InterpRun RollFacts InlineFacts InlineProofs ProgramProofs RollProofs
  ExtFacts ExtProofs Checks SpecProb ProbProofs CostProofs SpecExchange ExchangeProofs SpecSame SameProofs SpecBetter SpecAlgebra.
Local Open Scope Z_scope.

(** ** Lists of results with better chances *)
Definition mono (F : option Z -> Z) : Prop := forall x y, x <= y -> F (Some x) <= F (Some y).
Notation len l := (Z.of_nat (length l)).
Definition dom (l l' : list (option Z)) : Prop := (l = [] <-> l' = []) /\ forall F, mono F -> lsum F l * len l' <= lsum F l' * len l.
Definition domif (up : bool) (l l' : list (option Z)) : Prop := if up then dom l l' else dom l' l.

Lemma dom_refl : forall l, dom l l.
Proof. intros l. split; [reflexivity|]. intros F _. lia. Qed.
Lemma domif_refl : forall up l, domif up l l.
Proof. intros []; apply dom_refl. Qed.
Lemma dom_trans : forall a b c, dom a b -> dom b c -> dom a c.
Proof.
  intros a b c [E1 H1] [E2 H2]. split; [now rewrite E1|]. intros F M. specialize (H1 F M). specialize (H2 F M).
  destruct b as [|x b].
  - rewrite (proj2 E1 eq_refl), (proj1 E2 eq_refl). cbn. lia.
  - assert (0 < len (x :: b)) by (cbn [length]; lia). set (B := len (x :: b)) in *. set (A := len a) in *. set (C := len c) in *.
    assert (0 <= A) by (unfold A; lia). assert (0 <= C) by (unfold C; lia). clearbody A B C. set (fa := lsum F a) in *. set (fb := lsum F (x :: b)) in *. set (fc := lsum F c) in *. clearbody fa fb fc.
    clear - H H0 H1 H2 H3. apply (Zmult_le_reg_r _ _ B); [lia|].
    assert (fa * B * C <= fb * A * C) by (now apply Z.mul_le_mono_nonneg_r). assert (fb * C * A <= fc * B * A) by (now apply Z.mul_le_mono_nonneg_r). lia.
Qed.
Lemma domif_trans : forall up a b c, domif up a b -> domif up b c -> domif up a c.
Proof. intros [] a b c H K; [exact (dom_trans _ _ _ H K) | exact (dom_trans _ _ _ K H)]. Qed.
Lemma dom_perm : forall a b, Permutation a b -> dom a b.
Proof.
  intros a b P. split.
  - split; intros ->; [now apply Permutation_nil | apply Permutation_nil; now symmetry].
  - intros F _. rewrite (lsum_perm _ F a b P), (Permutation_length P). lia.
Qed.
Lemma map_empty : forall A B (f : A -> B) l, map f l = [] <-> l = [].
Proof. intros A B f [|x l]; split; intros H; auto; discriminate. Qed.
Lemma dom_map : forall g l l', (forall x y, x <= y -> g x <= g y) -> dom l l' -> dom (map (option_map g) l) (map (option_map g) l').
Proof.
  intros g l l' G [E H]. split; [now rewrite !map_empty|]. intros F M. rewrite !lsum_map, !map_length. apply H. intros x y L. cbn [option_map]. apply M. now apply G.
Qed.
Lemma lsum_opp : forall A (f : A -> Z) l, lsum (fun x => - f x) l = - lsum f l.
Proof. intros A f l. induction l as [|x l IH]; [reflexivity|]. rewrite !lsum_cons, IH. lia. Qed.
Lemma dom_map_anti : forall g l l', (forall x y, x <= y -> g y <= g x) -> dom l l' -> dom (map (option_map g) l') (map (option_map g) l).
Proof.
  intros g l l' G [E H]. split; [now rewrite !map_empty|]. intros F M. rewrite !lsum_map, !map_length.
  specialize (H (fun x => - F (option_map g x))). rewrite !lsum_opp in H. assert (X := H ltac:(intros x y L; cbn [option_map]; specialize (M _ _ (G x y L)); lia)). lia.
Qed.
Lemma domif_map_anti : forall up g l l', (forall x y, x <= y -> g y <= g x) -> domif (negb up) l l' -> domif up (map (option_map g) l) (map (option_map g) l').
Proof. intros [] g l l' G H; cbn [negb domif] in *; now apply dom_map_anti. Qed.

(** *** Two operands *)
Definition ole (a b : option Z) : Prop := match a, b with Some x, Some y => x <= y | None, None => True | _, _ => False end.
Lemma mono_ole : forall F a b, mono F -> ole a b -> F a <= F b.
Proof. intros F [x|] [y|] M H; cbn [ole] in H; try contradiction; [now apply M | lia]. Qed.
Lemma both_empty : forall f a b, both f a b = [] <-> a = [] \/ b = [].
Proof.
  intros f a b. split.
  - intros H. destruct a as [|x a]; [auto|]. destruct b as [|y b]; [auto|]. discriminate.
  - intros [->| ->]; [reflexivity|]. unfold both. induction a; auto.
Qed.
Definition bothv (f : Z -> Z -> option Z) (x y : option Z) : option Z := match x, y with Some x, Some y => f x y | _, _ => None end.
Lemma lsum_both2 : forall F f a b, lsum F (both f a b) = lsum (fun x => lsum (fun y => F (bothv f x y)) b) a.
Proof. intros F f a b. unfold both. rewrite lsum_flat_map. apply lsum_ext. intros x _. now rewrite lsum_map. Qed.
Lemma lsum_swap : forall A B (f : A -> B -> Z) a b, lsum (fun x => lsum (f x) b) a = lsum (fun y => lsum (fun x => f x y) a) b.
Proof. intros A B f a b. unfold lsum. apply zsum_map_swap. Qed.
Lemma lsum_le : forall A (f g : A -> Z) l, (forall x, In x l -> f x <= g x) -> lsum f l <= lsum g l.
Proof.
  intros A f g l H. induction l as [|x l IH]; [reflexivity|]. rewrite !lsum_cons. specialize (IH (fun y I => H y (or_intror I))). specialize (H x (or_introl eq_refl)). lia.
Qed.

Lemma dom_both_left : forall f a a' b, (forall y, In (Some y) b -> forall x x', x <= x' -> ole (f x y) (f x' y)) -> dom a a' -> dom (both f a b) (both f a' b).
Proof.
  intros f a a' b C [E H]. split; [now rewrite !both_empty, E|]. intros F M. rewrite !both_length, !Nat2Z.inj_mul, !lsum_both2.
  specialize (H (fun x => lsum (fun y => F (bothv f x y)) b)). cbv beta in H. rewrite !Z.mul_assoc. apply Z.mul_le_mono_nonneg_r; [lia|]. apply H.
  intros x x' L. apply lsum_le. intros [y|] I; cbn [bothv]; [|lia]. apply mono_ole; auto.
Qed.
Lemma dom_both_left_anti : forall f a a' b, (forall y, In (Some y) b -> forall x x', x <= x' -> ole (f x' y) (f x y)) -> dom a a' -> dom (both f a' b) (both f a b).
Proof.
  intros f a a' b C [E H]. split; [now rewrite !both_empty, E|]. intros F M. rewrite !both_length, !Nat2Z.inj_mul, !lsum_both2.
  specialize (H (fun x => - lsum (fun y => F (bothv f x y)) b)). rewrite !lsum_opp in H. rewrite !Z.mul_assoc. apply Z.mul_le_mono_nonneg_r; [lia|].
  assert (X := H ltac:(intros x x' L; apply Z.opp_le_mono; rewrite !Z.opp_involutive; apply lsum_le; intros [y|] I; cbn [bothv]; [apply mono_ole; auto | lia])). lia.
Qed.
Lemma both_swap : forall f a b, dom (both f a b) (both (fun y x => f x y) b a).
Proof.
  intros f a b. split; [rewrite !both_empty; tauto|]. intros F _. rewrite !both_length, !lsum_both2, lsum_swap, (Nat.mul_comm (length b)).
  apply Z.mul_le_mono_nonneg_r; [lia|]. apply lsum_le. intros y _. apply lsum_le. intros x _. destruct x, y; cbn [bothv]; lia.
Qed.
Lemma dom_both_right : forall f a b b', (forall x, In (Some x) a -> forall y y', y <= y' -> ole (f x y) (f x y')) -> dom b b' -> dom (both f a b) (both f a b').
Proof.
  intros f a b b' C H. apply (dom_trans _ (both (fun y x => f x y) b a)); [apply both_swap|]. apply (dom_trans _ (both (fun y x => f x y) b' a)); [|apply (both_swap (fun y x => f x y))].
  apply dom_both_left; auto.
Qed.
Lemma dom_both_right_anti : forall f a b b', (forall x, In (Some x) a -> forall y y', y <= y' -> ole (f x y') (f x y)) -> dom b b' -> dom (both f a b') (both f a b).
Proof.
  intros f a b b' C H. apply (dom_trans _ (both (fun y x => f x y) b' a)); [apply both_swap|]. apply (dom_trans _ (both (fun y x => f x y) b a)); [|apply (both_swap (fun y x => f x y))].
  apply dom_both_left_anti; auto.
Qed.
Lemma domif_left : forall up f a a' b, (forall y, In (Some y) b -> forall x x', x <= x' -> ole (f x y) (f x' y)) -> domif up a a' -> domif up (both f a b) (both f a' b).
Proof. intros [] f a a' b C H; cbn [domif] in *; now apply dom_both_left. Qed.
Lemma domif_left_anti : forall up f a a' b, (forall y, In (Some y) b -> forall x x', x <= x' -> ole (f x' y) (f x y)) -> domif (negb up) a a' -> domif up (both f a b) (both f a' b).
Proof. intros [] f a a' b C H; cbn [domif negb] in *; now apply dom_both_left_anti. Qed.
Lemma domif_right : forall up f a b b', (forall x, In (Some x) a -> forall y y', y <= y' -> ole (f x y) (f x y')) -> domif up b b' -> domif up (both f a b) (both f a b').
Proof. intros [] f a b b' C H; cbn [domif] in *; now apply dom_both_right. Qed.
Lemma domif_right_anti : forall up f a b b', (forall x, In (Some x) a -> forall y y', y <= y' -> ole (f x y') (f x y)) -> domif (negb up) b b' -> domif up (both f a b) (both f a b').
Proof. intros [] f a b b' C H; cbn [domif negb] in *; now apply dom_both_right_anti. Qed.

Lemma operator_shape : forall op, (op = $">" \/ op = $">=" -> exists g, operator_meaning op = Some g /\ (forall x x' y, x <= x' -> g x y <= g x' y) /\ (forall x y y', y <= y' -> g x y' <= g x y)) /\
  (op = $"<" \/ op = $"<=" -> exists g, operator_meaning op = Some g /\ (forall x x' y, x <= x' -> g x' y <= g x y) /\ (forall x y y', y <= y' -> g x y <= g x y')) /\
  (op = $"AND" \/ op = $"OR" -> exists g, operator_meaning op = Some g /\ (forall x x' y, x <= x' -> g x y <= g x' y) /\ (forall x y y', y <= y' -> g x y <= g x y')).
Proof.
  intros op. split; [|split]; intros [->| ->]; eexists; (split; [reflexivity|]); split; intros; cbv beta; unfold is_true;
    repeat match goal with |- context [?a <? ?b] => destruct (Z.ltb_spec a b) | |- context [?a <=? ?b] => destruct (Z.leb_spec a b) end; cbn [truth andb orb]; lia.
Qed.
Lemma minmax_shape : forall mm, (forall x x' y, x <= x' -> ole (meaning (minmax_meaning mm) x y) (meaning (minmax_meaning mm) x' y)) /\
  (forall x y y', y <= y' -> ole (meaning (minmax_meaning mm) x y) (meaning (minmax_meaning mm) x y')).
Proof.
  intros mm. unfold minmax_meaning. destruct (text_eqb mm $"MAX"); [|destruct (text_eqb mm $"MIN")]; cbn [meaning ole]; split; intros; auto; lia.
Qed.

(** ** Parts of expressions *)
Definition follows (move : text -> trend) (env env' : text -> option Z) : Prop :=
  forall n, match move n with Rises => ole (env n) (env' n) | Falls => ole (env' n) (env n) | Stays => env n = env' n end.
Lemma ole_refl : forall a, ole a a.
Proof. intros [x|]; cbn [ole]; [lia | exact Logic.I]. Qed.
Lemma follows_refl : forall move env, follows move env env.
Proof. intros move env n. destruct (move n); [apply ole_refl | apply ole_refl | reflexivity]. Qed.
Lemma unmoved_joint : forall move env env' e, follows move env env' -> unmoved move e -> joint faces env e = joint faces env' e.
Proof. intros move env env' e F U. apply joint_agree. intros n I. specialize (F n). now rewrite (U n I) in F. Qed.
Lemma dom_single : forall a b, ole a b -> dom [a] [b].
Proof. intros a b H. split; [split; discriminate|]. intros F M. rewrite !lsum_cons, !lsum_nil. cbn [length]. specialize (mono_ole F a b M H). lia. Qed.
Lemma both_ext_in : forall f g a b, (forall x y, In (Some x) a -> In (Some y) b -> f x y = g x y) -> both f a b = both g a b.
Proof.
  intros f g a b H. unfold both. rewrite !flat_map_concat_map. f_equal. apply map_ext_in. intros x Ix. apply map_ext_in. intros y Iy. destruct x, y; auto.
Qed.
Lemma map_id_in : forall (g : Z -> Z) l, (forall x, In (Some x) l -> g x = x) -> map (option_map g) l = l.
Proof.
  intros g l H. rewrite <- (map_id l) at 2. apply map_ext_in. intros [x|] I; cbn [option_map]; [now rewrite H | reflexivity].
Qed.
Lemma div_antitone : forall a b b' : Z, 0 <= a -> b <= b' -> a / Z.max 1 b' <= a / Z.max 1 b.
Proof. intros a b b' H L. apply Z.div_le_compat_l; lia. Qed.

Lemma improved_dom : forall better : expr -> expr -> Prop, (forall e e', better e e' -> forall env env', dom (joint faces env e) (joint faces env' e')) ->
  forall move up e e', improved better move up e e' -> forall env env', follows move env env' -> domif up (joint faces env e) (joint faces env' e').
Proof.
  intros better B move up e e' H env env' Fo. assert (U := unmoved_joint move env env').
  induction H as [e e' H|e e' H|up e N|up n N|up e e' H IH|up e e' H IH|up e e' H IH S S'|up e e' H IH S S'|up a a' b b' Ha IHa Hb IHb|up a a' b b' Ha IHa Hb IHb
    |up a a' b Ha IHa N S|up a a' b Ha IHa N S|up a b b' Hb IHb N S|up a b b' Hb IHb N S|up a a' b b' Ha IHa Hb IHb S S' S2
    |up a a' b Ha IHa N S|up a a' b Ha IHa N S|up a a' b b' Ha IHa Hb IHb S S' S2
    |up op a a' b b' O Ha IHa Hb IHb|up op a a' b b' O Ha IHa Hb IHb|up op a a' b b' O Ha IHa Hb IHb|up mm a a' b b' Ha IHa Hb IHb]; cbn [joint].
  - now apply B.
  - now apply B.
  - rewrite (U e) by auto. apply domif_refl.
  - specialize (Fo n). rewrite N in Fo. destruct up; now apply dom_single.
  - exact IH.
  - apply domif_map_anti; [|exact IH]. intros x y L. unfold is_true. destruct (Z.ltb_spec 0 x), (Z.ltb_spec 0 y); cbn [negb truth]; lia.
  - rewrite !map_id_in; [exact IH | |]; intros x I; apply Z.abs_eq; [now apply (S' env') | now apply (S env)].
  - rewrite (map_ext_in (option_map Z.abs) (option_map Z.opp)), (map_ext_in (option_map Z.abs) (option_map Z.opp) (joint faces env' e')).
    + apply domif_map_anti; [intros; lia | exact IH].
    + intros [x|] I; cbn [option_map]; [|reflexivity]. specialize (S' env' x I). cbv beta in S'. f_equal. lia.
    + intros [x|] I; cbn [option_map]; [|reflexivity]. specialize (S env x I). cbv beta in S. f_equal. lia.
  - apply (domif_trans _ _ (both (fun x y => Some (x + y)) (joint faces env' a') (joint faces env b))).
    + apply domif_left; auto. intros y _ x x' L. cbn [ole]. lia.
    + apply domif_right; auto. intros y _ x x' L. cbn [ole]. lia.
  - apply (domif_trans _ _ (both (fun x y => Some (x - y)) (joint faces env' a') (joint faces env b))).
    + apply domif_left; auto. intros y _ x x' L. cbn [ole]. lia.
    + apply domif_right_anti; auto. intros y _ x x' L. cbn [ole]. lia.
  - rewrite (U b) by auto. apply domif_left; auto. intros y I x x' L. cbn [ole]. specialize (S env' y I). cbv beta in S. now apply Z.mul_le_mono_nonneg_r.
  - rewrite (U b) by auto. apply domif_left_anti; auto. intros y I x x' L. cbn [ole]. specialize (S env' y I). cbv beta in S. now apply Z.mul_le_mono_nonpos_r.
  - rewrite (U a) by auto. apply domif_right; auto. intros y I x x' L. cbn [ole]. specialize (S env' y I). cbv beta in S. now apply Z.mul_le_mono_nonneg_l.
  - rewrite (U a) by auto. apply domif_right_anti; auto. intros y I x x' L. cbn [ole]. specialize (S env' y I). cbv beta in S. now apply Z.mul_le_mono_nonpos_l.
  - apply (domif_trans _ _ (both (fun x y => Some (x * y)) (joint faces env' a') (joint faces env b))).
    + apply domif_left; auto. intros y I x x' L. cbn [ole]. specialize (S' env y I). cbv beta in S'. now apply Z.mul_le_mono_nonneg_r.
    + apply domif_right; auto. intros y I x x' L. cbn [ole]. specialize (S env' y I). cbv beta in S. now apply Z.mul_le_mono_nonneg_l.
  - rewrite (U b) by auto. apply domif_left; auto. intros y I x x' L. specialize (S env' y I). cbv beta in S |- *. destruct (Z.eqb_spec y 0); [lia|]. cbn [ole]. now apply Z.div_le_mono.
  - rewrite (U b) by auto. apply domif_left_anti; auto. intros y I x x' L. specialize (S env' y I). cbv beta in S |- *. destruct (Z.eqb_spec y 0); [lia|]. cbn [ole].
    rewrite <- (Z.div_opp_opp x' y), <- (Z.div_opp_opp x y) by lia. apply Z.div_le_mono; lia.
  - assert (E : forall en f g, always (fun x => 0 < x) g -> both (fun x y => if y =? 0 then None else Some (x / y)) f (joint faces en g) = both (fun x y => Some (x / Z.max 1 y)) f (joint faces en g)).
    { intros en f g P. apply both_ext_in. intros x y _ I. specialize (P en y I). cbv beta in P. destruct (Z.eqb_spec y 0); [lia|]. do 2 f_equal. lia. }
    rewrite !E by assumption. apply (domif_trans _ _ (both (fun x y => Some (x / Z.max 1 y)) (joint faces env' a') (joint faces env b))).
    + apply domif_left; auto. intros y I x x' L. cbn [ole]. apply Z.div_le_mono; lia.
    + apply domif_right_anti; auto. intros y I x x' L. cbn [ole]. apply div_antitone; [exact (S env' y I) | exact L].
  - destruct (proj1 (operator_shape op) O) as [g [-> [G1 G2]]]. apply (domif_trans _ _ (both (meaning (Some g)) (joint faces env' a') (joint faces env b))).
    + apply domif_left; auto. intros y _ x x' L. cbn. auto.
    + apply domif_right_anti; auto. intros y _ x x' L. cbn. auto.
  - destruct (proj1 (proj2 (operator_shape op)) O) as [g [-> [G1 G2]]]. apply (domif_trans _ _ (both (meaning (Some g)) (joint faces env' a') (joint faces env b))).
    + apply domif_left_anti; auto. intros y _ x x' L. cbn. auto.
    + apply domif_right; auto. intros y _ x x' L. cbn. auto.
  - destruct (proj2 (proj2 (operator_shape op)) O) as [g [-> [G1 G2]]]. apply (domif_trans _ _ (both (meaning (Some g)) (joint faces env' a') (joint faces env b))).
    + apply domif_left; auto. intros y _ x x' L. cbn. auto.
    + apply domif_right; auto. intros y _ x x' L. cbn. auto.
  - destruct (minmax_shape mm) as [M1 M2]. apply (domif_trans _ _ (both (meaning (minmax_meaning mm)) (joint faces env' a') (joint faces env b))).
    + apply domif_left; auto.
    + apply domif_right; auto.
Qed.
Lemma improved_reads : forall better : expr -> expr -> Prop, (forall e e', better e e' -> reads e = reads e') -> forall move up e e', improved better move up e e' -> reads e = reads e'.
Proof. intros better B move up e e' H. induction H; cbn [reads]; auto; try congruence. symmetry. now apply B. Qed.
Lemma improved_simple : forall better : expr -> expr -> Prop, (forall e e', better e e' -> simple e /\ simple e') -> forall move up e e', improved better move up e e' -> simple e -> simple e'.
Proof. intros better B move up e e' H. induction H; cbn [simple]; try tauto; intros _; now apply (B _ _ H). Qed.

(** ** Programs *)
Definition bind_result (env : text -> option Z) (n : option text) (x : option Z) : text -> option Z :=
  match n with Some n => fun m => if text_eqb m n then x else env m | None => env end.
Fixpoint outcomes (env : text -> option Z) (p : program) : list (option Z) :=
  match p with
  | [] => []
  | [(_, e)] => joint faces env e
  | (n, e) :: p' => flat_map (fun x => outcomes (bind_result env n x) p') (joint faces env e)
  end.
Lemma outcomes_cons : forall env n e q, q <> [] -> outcomes env ((n, e) :: q) = flat_map (fun x => outcomes (bind_result env n x) q) (joint faces env e).
Proof. intros env n e [|l q] H; [congruence | reflexivity]. Qed.
Lemma results_outcomes : forall p env, ~ In None (results faces env p) -> results faces env p = outcomes env p.
Proof.
  induction p as [|[n e] q IH]; intros env N; [reflexivity|]. destruct q as [|l q]; [reflexivity|]. set (q0 := l :: q) in *.
  rewrite (outcomes_cons env n e q0) by discriminate. unfold q0 in *. rewrite results_cons in *. fold q0 in IH, N |- *.
  rewrite !flat_map_concat_map. f_equal. apply map_ext_in. intros [x|] I.
  - apply IH. intros C. apply N. apply in_flat_map. exists (Some x). split; assumption.
  - exfalso. apply N. apply in_flat_map. exists None. split; [exact I | now left].
Qed.
Lemma outcomes_length : forall p env env', length (outcomes env p) = length (outcomes env' p).
Proof.
  induction p as [|[n e] q IH]; intros env env'; [reflexivity|]. destruct q as [|l q]; [apply joint_length|]. set (q0 := l :: q) in *.
  rewrite !(outcomes_cons _ n e q0) by discriminate.
  assert (A : forall en f, length (flat_map (fun x => outcomes (f x) q0) (joint faces en e)) = (length (joint faces en e) * length (outcomes no_values q0))%nat).
  { intros en f. induction (joint faces en e) as [|x r IHr]; [reflexivity|]. cbn [flat_map length]. rewrite app_length, IHr, (IH (f x) no_values). lia. }
  rewrite !A. now rewrite (joint_length faces env env' e).
Qed.
Lemma improved_self : forall (better : expr -> expr -> Prop) move up e e', (forall e e', better e e' -> reads e = [] /\ reads e' = []) -> improved better move up e e' -> improved better move up e' e'.
Proof.
  intros better move up e e' B H.
  assert (N : forall e, reads e = [] -> forall up, improved better move up e e) by (intros f E u; apply im_same; intros n I; rewrite E in I; destruct I).
  induction H; try (now apply N; apply (B _ _ H)); try (now constructor).
Qed.
Lemma improved_program_self : forall (better : expr -> expr -> Prop) move p p', (forall e e', better e e' -> reads e = [] /\ reads e' = []) -> improved_program better move p p' -> improved_program better move p' p'.
Proof.
  intros better move p p' B H. induction H.
  - apply ip_last. now apply (improved_self better move true e e').
  - apply ip_rises; [now apply (improved_self better move true e e') | assumption].
  - apply ip_falls; [now apply (improved_self better move false e e') | assumption].
  - now apply ip_stays.
Qed.
Lemma improved_program_cons : forall (better : expr -> expr -> Prop) move p p', improved_program better move p p' -> p <> [] /\ p' <> [].
Proof. intros better move p p' H. induction H; split; discriminate. Qed.

Definition trend_ole (t : trend) (a b : option Z) : Prop := match t with Rises => ole a b | Falls => ole b a | Stays => a = b end.
Lemma follows_bind : forall move n t env env' x y, follows move env env' -> trend_ole t x y -> follows (moved move n t) (bind_result env n x) (bind_result env' n y).
Proof.
  intros move [n|] t env env' x y F H; [|exact F]. intros k. unfold moved, bind_result. destruct (text_eqb k n); [exact H | apply F].
Qed.

Lemma flat_map_length : forall A B (f : A -> list B) l n, (forall x, length (f x) = n) -> length (flat_map f l) = (length l * n)%nat.
Proof. intros A B f l n H. induction l as [|x l IH]; [reflexivity|]. cbn [flat_map length]. rewrite app_length, IH, H. lia. Qed.
Lemma flat_map_empty : forall A B (f : A -> list B) l n, (forall x, length (f x) = n) -> (flat_map f l = [] <-> l = [] \/ n = 0%nat).
Proof.
  intros A B f l n H. rewrite <- (length_zero_iff_nil (flat_map f l)), <- (length_zero_iff_nil l), (flat_map_length _ _ f l n H). lia.
Qed.
(** first the rest of the program, then the line *)
Lemma dom_flat : forall (l l' : list (option Z)) f f' t, match t with Rises => dom l l' | Falls => dom l' l | Stays => l = l' end ->
  (forall x, dom (f x) (f' x)) -> (forall x y, trend_ole t x y -> dom (f' x) (f' y)) -> forall n n', (forall x, length (f x) = n) -> (forall x, length (f' x) = n') -> dom (flat_map f l) (flat_map f' l').
Proof.
  intros l l' f f' t T R M n n' L L'.
  assert (El : l = [] <-> l' = []) by (destruct t; [apply T | destruct T as [T _]; tauto | now rewrite T]).
  assert (En : n = 0%nat <-> n' = 0%nat) by (destruct (R None) as [R0 _]; rewrite <- (L None), <- (L' None), !length_zero_iff_nil; exact R0).
  apply (dom_trans _ (flat_map f' l)).
  - split; [rewrite (flat_map_empty _ _ f l n L), (flat_map_empty _ _ f' l n' L'); tauto|]. intros F MF. rewrite !lsum_flat_map, (flat_map_length _ _ f l n L), (flat_map_length _ _ f' l n' L'), !Nat2Z.inj_mul.
    rewrite !(Z.mul_comm (len l)), !Z.mul_assoc. apply Z.mul_le_mono_nonneg_r; [lia|]. rewrite (Z.mul_comm _ (Z.of_nat n')), (Z.mul_comm _ (Z.of_nat n)), <- !lsum_scale.
    apply lsum_le. intros x _. destruct (R x) as [_ Rx]. specialize (Rx F MF). rewrite L, L' in Rx. lia.
  - split; [rewrite (flat_map_empty _ _ f' l n' L'), (flat_map_empty _ _ f' l' n' L'); tauto|]. intros F MF. rewrite !lsum_flat_map, (flat_map_length _ _ f' l n' L'), (flat_map_length _ _ f' l' n' L'), !Nat2Z.inj_mul.
    rewrite !Z.mul_assoc. apply Z.mul_le_mono_nonneg_r; [lia|].
    assert (Mf : forall x y, trend_ole t x y -> lsum F (f' x) <= lsum F (f' y)).
    { intros x y H. destruct (M x y H) as [_ X]. specialize (X F MF). rewrite !L' in X. destruct n' as [|n'].
      - assert (forall z, f' z = []) by (intros z; apply length_zero_iff_nil, L'). rewrite !H0. lia.
      - clear - X. apply (Zmult_le_reg_r _ _ (Z.of_nat (Datatypes.S n'))); [lia | exact X]. }
    destruct t; cbn [trend_ole] in Mf.
    + destruct T as [_ T]. apply T. intros x y Lx. apply Mf. exact Lx.
    + destruct T as [_ T]. specialize (T (fun x => - lsum F (f' x))). rewrite !lsum_opp in T. assert (X := T ltac:(intros x y Lx; specialize (Mf (Some y) (Some x) Lx); lia)). lia.
    + subst l'. lia.
Qed.
Lemma improved_program_dom : forall better : expr -> expr -> Prop, (forall e e', better e e' -> reads e = [] /\ reads e' = []) ->
  (forall e e', better e e' -> forall env env', dom (joint faces env e) (joint faces env' e')) ->
  forall p p' move, improved_program better move p p' -> forall env env', follows move env env' -> dom (outcomes env p) (outcomes env' p').
Proof.
  intros better Br B.
  assert (Step : forall n t move e e' q q' env env', follows move env env' -> improved_program better (moved move n t) q q' ->
    (forall p', improved_program better (moved move n t) q p' -> forall env env', follows (moved move n t) env env' -> dom (outcomes env q) (outcomes env' p')) ->
    (forall p', improved_program better (moved move n t) q' p' -> forall env env', follows (moved move n t) env env' -> dom (outcomes env q') (outcomes env' p')) ->
    match t with Rises => dom (joint faces env e) (joint faces env' e') | Falls => dom (joint faces env' e') (joint faces env e) | Stays => joint faces env e = joint faces env' e' end ->
    dom (outcomes env ((n, e) :: q)) (outcomes env' ((n, e') :: q'))).
  { intros n t move e e' q q' env env' F H IH IH' T. destruct (improved_program_cons _ _ _ _ H) as [N N']. rewrite (outcomes_cons env n e q N), (outcomes_cons env' n e' q' N').
    assert (Rt : forall t (x : option Z), trend_ole t x x) by (intros [] x; cbn [trend_ole]; auto using ole_refl).
    apply (dom_flat _ _ _ _ t T) with (length (outcomes no_values q)) (length (outcomes no_values q')).
    - intros x. apply IH; [exact H|]. apply follows_bind; auto.
    - intros x y L. apply IH'; [now apply (improved_program_self better _ q q')|]. apply follows_bind; [apply follows_refl | exact L].
    - intros x. apply outcomes_length.
    - intros x. apply outcomes_length. }
  assert (Main : forall k p, (length p <= k)%nat -> forall p' move, improved_program better move p p' -> forall env env', follows move env env' -> dom (outcomes env p) (outcomes env' p')).
  { induction k as [|k IH]; intros p Lp p' move H env env' F; [destruct p; [destruct (improved_program_cons _ _ _ _ H); congruence | cbn [length] in Lp; lia]|].
    assert (Ln : forall move q q', improved_program better move q q' -> length q = length q') by (intros mv q q' X; induction X; cbn [length]; congruence).
    destruct H as [move m e e' H|move n e e' q q' He H|move n e e' q q' He H|move n e q q' He H].
    - exact (improved_dom better B move true e e' H env env' F).
    - apply (Step n Rises move); auto; try (intros; eapply IH; eauto; rewrite <- ?(Ln _ _ _ H); cbn [length] in Lp; lia). exact (improved_dom better B move true e e' He env env' F).
    - apply (Step n Falls move); auto; try (intros; eapply IH; eauto; rewrite <- ?(Ln _ _ _ H); cbn [length] in Lp; lia). exact (improved_dom better B move false e e' He env env' F).
    - apply (Step n Stays move); auto; try (intros; eapply IH; eauto; rewrite <- ?(Ln _ _ _ H); cbn [length] in Lp; lia). now apply (unmoved_joint move). }
  intros p p' move H env env' F. now apply (Main (length p) p (le_n _) p' move).
Qed.

(** ** From the chances of reaching values *)
Definition tail (v : Z) (l : list (option Z)) : Z := lsum (fo (fun x => if v <=? x then 1 else 0)) l.
Lemma lsum_const : forall A (c : Z) (l : list A), lsum (fun _ => c) l = c * len l.
Proof. intros A c l. induction l as [|x l IH]; [cbn; lia|]. rewrite lsum_cons, IH. cbn [length]. lia. Qed.
Lemma tail_dom : forall l l', l <> [] -> l' <> [] -> ~ In None l -> ~ In None l' -> (forall v, tail v l * len l' <= tail v l' * len l) -> dom l l'.
Proof.
  intros l l' N N' Hn Hn' T. split; [tauto|]. intros F M.
  assert (Low : exists lo, forall x, In (Some x) (l ++ l') -> lo <= x).
  { clear. induction (l ++ l') as [|[y|] r [lo IH]]; [exists 0; intros x []| |].
    - exists (Z.min y lo). intros x [E|I]; [injection E as ->; lia | specialize (IH x I); lia].
    - exists lo. intros x [E|I]; [discriminate | auto]. }
  assert (High : exists hi, forall x, In (Some x) (l ++ l') -> x <= hi).
  { clear. induction (l ++ l') as [|[y|] r [hi IH]]; [exists 0; intros x []| |].
    - exists (Z.max y hi). intros x [E|I]; [injection E as ->; lia | specialize (IH x I); lia].
    - exists hi. intros x [E|I]; [discriminate | auto]. }
  destruct Low as [lo Lo]. destruct High as [hi Hi].
  assert (A : forall n, lsum (fo (fun x => F (Some (Z.min x (lo + Z.of_nat n))))) l * len l' <= lsum (fo (fun x => F (Some (Z.min x (lo + Z.of_nat n))))) l' * len l).
  { induction n as [|n IH].
    - assert (C : forall r, ~ In None r -> (forall x, In (Some x) r -> lo <= x) -> lsum (fo (fun x => F (Some (Z.min x (lo + Z.of_nat 0))))) r = F (Some lo) * len r).
      { intros r Nr Lr. rewrite <- lsum_const. apply lsum_ext. intros [x|] I; [cbn [fo]; f_equal; f_equal; specialize (Lr x I); lia | contradiction]. }
      rewrite (C l Hn), (C l' Hn'); [lia | |]; intros x I; apply Lo, in_or_app; auto.
    - assert (C : forall r, lsum (fo (fun x => F (Some (Z.min x (lo + Z.of_nat (S n)))))) r =
        lsum (fo (fun x => F (Some (Z.min x (lo + Z.of_nat n))))) r + (F (Some (lo + Z.of_nat (S n))) - F (Some (lo + Z.of_nat n))) * tail (lo + Z.of_nat (S n)) r).
      { intros r. unfold tail. rewrite <- lsum_scale, <- lsum_add. apply lsum_ext. intros [x|] _; cbn [fo]; [|ring]. destruct (Z.leb_spec (lo + Z.of_nat (S n)) x).
        - rewrite !Z.min_r by lia. ring.
        - replace (Z.min x (lo + Z.of_nat (S n))) with (Z.min x (lo + Z.of_nat n)) by lia. ring. }
      rewrite !C. specialize (T (lo + Z.of_nat (S n))). assert (D : 0 <= F (Some (lo + Z.of_nat (S n))) - F (Some (lo + Z.of_nat n))) by (enough (F (Some (lo + Z.of_nat n)) <= F (Some (lo + Z.of_nat (S n)))) by lia; apply M; lia).
      set (D0 := F (Some (lo + Z.of_nat (S n))) - F (Some (lo + Z.of_nat n))) in *. rewrite !Z.mul_add_distr_r, <- !Z.mul_assoc.
      apply Z.add_le_mono; [exact IH|]. now apply Z.mul_le_mono_nonneg_l. }
  assert (C : forall r, ~ In None r -> (forall x, In (Some x) r -> lo <= x <= hi) -> lsum (fo (fun x => F (Some (Z.min x (lo + Z.of_nat (Z.to_nat (hi - lo))))))) r = lsum F r).
  { intros r Nr B. apply lsum_ext. intros [x|] I; [|contradiction]. cbn [fo]. f_equal. f_equal. specialize (B x I). lia. }
  specialize (A (Z.to_nat (hi - lo))). rewrite !C in A; auto; intros x I; (split; [apply Lo | apply Hi]); apply in_or_app; auto.
Qed.
Lemma dom_tail : forall l l' v, dom l l' -> tail v l * len l' <= tail v l' * len l.
Proof. intros l l' v [_ H]. apply H. intros x y L. cbn [fo]. destruct (Z.leb_spec v x), (Z.leb_spec v y); lia. Qed.

(** ** Programs whose last line is exchanged *)
Section Last.
  Context (e : expr) (m : option text).
  Notation last q := (q ++ [(m, e)]).

  Fixpoint envs (env : text -> option Z) (q : program) : list (Z * (text -> option Z)) :=
    match q with
    | [] => [(1, env)]
    | (None, _) :: q' => envs env q'
    | (Some n, f) :: q' =>
        if uses n (q' ++ [(m, e)]) =? 0 then envs env q'
        else flat_map (fun x => match x with
                                | Some x => map (fun we => (occurrences x (joint faces env f) ^ uses n (q' ++ [(m, e)]) * fst we, snd we)) (envs (bind_value env (Some n) x) q')
                                | None => []
                                end) (nodup oz_dec (joint faces env f))
    end.

  Lemma last_cons : forall q, exists l r, last q = l :: r.
  Proof. intros [|l q]; eexists; eexists; reflexivity. Qed.

  Lemma weighted_envs : forall q env v, weighted faces env (last q) v = lsum (fun we => fst we * occurrences v (joint faces (snd we) e)) (envs env q).
  Proof.
    induction q as [|[[n|] f] q IH]; intros env v.
    - cbn [app envs]. rewrite lsum_cons, lsum_nil. cbn [fst snd]. destruct m; cbn [weighted]; lia.
    - cbn [app envs]. destruct (last_cons q) as [l [r E]]. rewrite E, weighted_some, <- E. destruct (uses n (last q) =? 0); [apply IH|].
      rewrite lsum_flat_map. apply lsum_ext. intros [x|] _; cbn [fo]; [|reflexivity]. rewrite lsum_map, IH, <- lsum_scale. apply lsum_ext. intros [w en] _. cbn [fst snd]. ring.
    - cbn [app envs]. destruct (last_cons q) as [l [r E]]. rewrite E. change (weighted faces env ((None, f) :: l :: r) v) with (weighted faces env (l :: r) v). rewrite <- E. apply IH.
  Qed.

  Lemma occurs_pos : forall x l, In (Some x) l -> 0 < occurrences x l.
  Proof.
    intros x l I. unfold occurrences. induction l as [|[y|] l IH]; [destruct I| |]; cbn [filter].
    - destruct (Z.eqb_spec y x) as [->|N]; [cbn [length]; lia|]. apply IH. destruct I as [E|I]; [congruence | exact I].
    - apply IH. destruct I as [E|I]; [discriminate | exact I].
  Qed.
  Lemma envs_pos : forall q env w en, In (w, en) (envs env q) -> 0 < w.
  Proof.
    induction q as [|[[n|] f] q IH]; intros env w en I; cbn [envs] in I.
    - destruct I as [E|[]]. injection E as <- _. lia.
    - destruct (uses n (last q) =? 0); [eapply IH; eauto|]. apply in_flat_map in I. destruct I as [[x|] [I1 I2]]; [|destruct I2].
      apply in_map_iff in I2. destruct I2 as [[w' en'] [E I2]]. injection E as <- _. apply IH in I2. cbn [fst]. apply nodup_In, occurs_pos in I1.
      apply Z.mul_pos_pos; [|exact I2]. apply Z.pow_pos_nonneg; [exact I1 | apply uses_nonneg].
    - eapply IH; eauto.
  Qed.

  Lemma envs_used : forall q env w en x, In (w, en) (envs env q) -> In x (joint faces en e) -> In x (used_results (map fst) env (last q)).
  Proof.
    assert (Inc : forall env f, incl (joint faces env f) (joint (map fst) env f)) by (intros env f; apply joint_incl; intros d _ x; apply faces_sides).
    induction q as [|[[n|] f] q IH]; intros env w en y I Nn; cbn [app envs] in *.
    - destruct I as [E|[]]. injection E as _ <-. destruct m; cbn [used_results]; now apply Inc.
    - destruct (last_cons q) as [l [r E]]. rewrite E, used_results_some, <- E. destruct (uses n (last q) =? 0); [eapply IH; eauto|].
      apply in_flat_map in I. destruct I as [[x|] [I1 I2]]; [|destruct I2]. apply in_map_iff in I2. destruct I2 as [[w' en'] [Ew I2]]. injection Ew as _ <-.
      apply in_flat_map. exists (Some x). split; [apply Inc; now apply nodup_In in I1|]. eapply IH; eauto.
    - destruct (last_cons q) as [l [r E]]. rewrite E, used_results_cons_none, <- E. eapply IH; eauto.
  Qed.
End Last.

Lemma used_none : forall p env, sided p -> In None (used_results (map fst) env p) -> In None (results (map fst) env p).
Proof.
  induction p as [|[n f] p IH]; intros env Sd I; [destruct I|]. destruct p as [|l p]; [destruct n; exact I|]. set (q := l :: p) in *.
  assert (Sq : sided q) by (intros d Hd; apply Sd; unfold program_dice in *; cbn [flat_map snd]; apply in_or_app; auto).
  assert (Sf : sides_ok (map fst) f).
  { intros d Hd. assert (X : d <> []) by (apply Sd; unfold program_dice; cbn [flat_map snd]; apply in_or_app; auto). destruct d; [congruence | discriminate]. }
  unfold q. rewrite results_cons. fold q. apply in_flat_map.
  assert (U : (forall x, In None (results (map fst) (bind_value env n x) q)) -> exists x, In x (joint (map fst) env f) /\ In None (match x with Some x => results (map fst) (bind_value env n x) q | None => [None] end)).
  { intros H. destruct (joint (map fst) env f) as [|[x|] t] eqn:Ej; [destruct (joint_nonempty (map fst) env f Sf Ej)| |].
    - exists (Some x). split; [now left | apply H].
    - exists None. split; now left. }
  destruct n as [n|].
  - unfold q in I. rewrite used_results_some in I. fold q in I. destruct (uses n q =? 0) eqn:E.
    + apply U. intros x. apply IH; auto. rewrite (used_results_agree (map fst) q _ env); [exact I|].
      intros k Hk. cbn [bind_value]. destruct (text_eqb k n) eqn:Ek; auto. apply text_eqb_eq in Ek. subst k. apply Z.eqb_eq in E. rewrite uses_ulist in E. apply count_zero in E. contradiction.
    + apply in_flat_map in I. destruct I as [[x|] [I1 I2]]; [exists (Some x) | exists None]; split; auto.
  - unfold q in I. rewrite used_results_cons_none in I. fold q in I. apply U. intros x. cbn [bind_value]. now apply IH.
Qed.

Lemma uses_last : forall e e' m q, reads e = reads e' -> forall n, uses n (q ++ [(m, e)]) = uses n (q ++ [(m, e')]).
Proof.
  intros e e' m q E. induction q as [|[[k|] f] q IH]; intros n.
  - cbn [app]. destruct m; cbn [uses]; unfold times_read; now rewrite E.
  - cbn [app]. specialize (IH) as IHn. destruct (last_cons e m q) as [l [r El]]. destruct (last_cons e' m q) as [l' [r' El']]. rewrite El, El' in *.
    change (times_read n f * uses k (l :: r) + (if text_eqb n k then 0 else uses n (l :: r)) = times_read n f * uses k (l' :: r') + (if text_eqb n k then 0 else uses n (l' :: r'))).
    now rewrite !IH.
  - cbn [app]. destruct (last_cons e m q) as [l [r El]]. destruct (last_cons e' m q) as [l' [r' El']]. rewrite El, El' in *.
    change (uses n (l :: r) = uses n (l' :: r')). apply IH.
Qed.
Lemma envs_last : forall e e' m, reads e = reads e' -> forall q env, envs e m env q = envs e' m env q.
Proof.
  intros e e' m E. induction q as [|[[n|] f] q IH]; intros env; cbn [envs]; auto. rewrite (uses_last e e' m q E n), IH. destruct (uses n _ =? 0); auto.
  apply flat_map_ext. intros [x|]; auto. now rewrite IH.
Qed.

(** ** What is reported *)
Section Reported.
  Context (R : Runtime).
  Notation dist := (dist R).
  Notation keys d := (map fst (get_result_map R d)).

  Lemma weighted_ways : forall (d : dist) g, zsum (map (fun vc => g (fst vc) * snd vc) (get_result_map R d)) = lsum (fun v => g v * reported R d v) (keys d).
  Proof.
    intros d g. unfold lsum. rewrite map_map. pose proof (result_map_nodup R d) as ND. unfold reported. f_equal.
    apply map_ext_in. intros [v c] Hvc. cbn [fst snd].
    enough (E : dget Z.eqb (get_result_map R d) v = Some c) by now rewrite E.
    clear - ND Hvc. induction (get_result_map R d) as [|[k x] l IH]; [destruct Hvc|]. cbn [dget map fst] in *. inversion ND; subst.
    destruct Hvc as [E|Hvc]; [injection E as -> ->; now rewrite Z.eqb_refl|].
    destruct (k =? v) eqn:E; [|auto]. apply Z.eqb_eq in E. subst k. exfalso. apply H1. apply (in_map fst) in Hvc. exact Hvc.
  Qed.
  Lemma ways_where_reported : forall (d : dist) test, ways_where R d test = lsum (fun v => (if test v then 1 else 0) * reported R d v) (keys d).
  Proof.
    intros d test. rewrite <- weighted_ways. unfold ways_where. induction (get_result_map R d) as [|[v c] l IH]; [reflexivity|]. cbn [filter map fst snd].
    destruct (test v); cbn [map zsum fst snd] in *; rewrite ?zsum_cons in *; lia.
  Qed.

  Lemma keys_sum : forall ks g l, NoDup ks -> (forall x, In (Some x) l -> In x ks) -> lsum (fun v => g v * occurrences v l) ks = lsum (fo g) l.
  Proof.
    intros ks g l N H. rewrite (lsum_ext _ _ (fun v => lsum (fo (fun x => if v =? x then g v else 0)) l)).
    - rewrite lsum_swap. apply lsum_ext. intros [x|] I; cbn [fo]; [now apply lsum_indicator; auto | apply lsum_zero].
    - intros v _. rewrite <- lsum_occurrences, <- lsum_scale. apply lsum_ext. intros [x|] _; cbn [fo]; [|lia]. rewrite (Z.eqb_sym v). destruct (x =? v); lia.
  Qed.

  (** the joint results of the last line, with weights *)
  Lemma last_sum : forall q m e s lines d, reachable R s -> program_text lines (q ++ [(m, e)]) -> good_program (q ++ [(m, e)]) -> reports R s lines d ->
    dinv R d /\ (forall g, lsum (fun v => g v * reported R d v) (keys d) = lsum (fun we => fst we * lsum (fo g) (joint faces (snd we) e)) (envs e m no_values q)) /\
    (sided (q ++ [(m, e)]) -> forall w en, In (w, en) (envs e m no_values q) -> ~ In None (joint faces en e)).
  Proof.
    intros q m e s lines d Hs T G H. destruct (program_run R s lines _ d Hs T G H) as [s' [E I]].
    split; [now apply (run_dinv R true (q ++ [(m, e)]) s s' d)|]. split.
    - intros g. assert (L := run_listed R true _ s s' d I G E). assert (W := run_reported R true _ s s' d I G E).
      rewrite (lsum_ext _ _ (fun v => lsum (fun we => fst we * (g v * occurrences v (joint faces (snd we) e))) (envs e m no_values q))).
      + rewrite lsum_swap. apply lsum_ext. intros [w en] Iw. cbn [fst snd]. rewrite lsum_scale, keys_sum; auto; [apply result_map_nodup|].
        intros x Ix. apply L. now apply (envs_used e m q no_values w en).
      + intros v _. rewrite W, weighted_envs, <- lsum_scale. apply lsum_ext. intros we _. ring.
    - intros Sd w en Iw C. apply (run_none R true _ s s' d I G E). apply used_none; auto. now apply (envs_used e m q no_values w en).
  Qed.

  (** both programs have the same environments for the last line *)
  Lemma last_compare : forall q m e e' s s' lines lines' d d', reads e = reads e' -> (forall env, dom (joint faces env e) (joint faces env e')) ->
    reachable R s -> reachable R s' -> program_text lines (q ++ [(m, e)]) -> program_text lines' (q ++ [(m, e')]) -> good_program (q ++ [(m, e)]) -> good_program (q ++ [(m, e')]) ->
    sided (q ++ [(m, e)]) -> sided (q ++ [(m, e')]) -> reports R s lines d -> reports R s' lines' d' ->
    0 <= total_ways R d /\ 0 <= total_ways R d' /\ (total_ways R d = 0 <-> total_ways R d' = 0) /\
    forall g, (forall x y, x <= y -> g x <= g y) ->
      lsum (fun v => g v * reported R d v) (keys d) * total_ways R d' <= lsum (fun v => g v * reported R d' v) (keys d') * total_ways R d.
  Proof.
    intros q m e e' s s' lines lines' d d' Er Dm Hs Hs' T T' G G' Sd Sd' H H'.
    destruct (last_sum q m e s lines d Hs T G H) as [D [A N]]. destruct (last_sum q m e' s' lines' d' Hs' T' G' H') as [D' [A' N']].
    rewrite <- (envs_last e e' m Er q no_values) in A', N'. specialize (N Sd). specialize (N' Sd'). set (E := envs e m no_values q) in *.
    assert (P : forall w en, In (w, en) E -> 0 < w) by (intros w en I; eapply envs_pos; exact I).
    assert (T1 : forall (x : dist) f, dinv R x -> (forall g, lsum (fun v => g v * reported R x v) (keys x) = lsum (fun we => fst we * lsum (fo g) (joint faces (snd we) f)) E) ->
      (forall w en, In (w, en) E -> ~ In None (joint faces en f)) -> total_ways R x = lsum fst E * len (joint faces no_values f)).
    { intros x f Dx Ax Nx. rewrite (total_count R x Dx), <- (reported_sum R x Dx). rewrite (lsum_ext _ _ (fun v => 1 * reported R x v)) by (intros; lia). rewrite Ax.
      rewrite Z.mul_comm, <- lsum_scale. apply lsum_ext. intros [w en] Iw. cbn [fst snd]. rewrite (joint_length faces no_values en f), Z.mul_comm. f_equal.
      rewrite (lsum_ext _ _ (fun _ => 1)); [rewrite lsum_const; lia|]. intros [y|] Iy; [reflexivity | destruct (Nx w en Iw Iy)]. }
    assert (Te := T1 d e D A N). assert (Te' := T1 d' e' D' A' N'). destruct (Dm no_values) as [Em _].
    split; [now apply total_nonneg|]. split; [now apply total_nonneg|]. split.
    - rewrite Te, Te'. assert (X : forall l l' : list (option Z), (l = [] <-> l' = []) -> (len l = 0 <-> len l' = 0)).
      { intros [|x l] [|x' l'] [X1 X2]; cbn [length]; try lia; [specialize (X1 eq_refl); discriminate | specialize (X2 eq_refl); discriminate]. }
      specialize (X _ _ Em). rewrite !Z.mul_eq_0. tauto.
    - intros g Mg. rewrite A, A', Te, Te'. set (L := len (joint faces no_values e)). set (L' := len (joint faces no_values e')).
      assert (B : forall w en, In (w, en) E -> lsum (fo g) (joint faces en e) * L' <= lsum (fo g) (joint faces en e') * L).
      { intros w en I. destruct (Dm en) as [_ X]. unfold L, L'. rewrite (joint_length faces no_values en e), (joint_length faces no_values en e'). apply X. intros x y Lxy. now apply Mg. }
      assert (W : 0 <= lsum fst E) by (apply lsum_nonneg; intros [w en] I; apply P in I; cbn [fst]; lia).
      rewrite !(Z.mul_comm (lsum fst E)), !Z.mul_assoc. apply Z.mul_le_mono_nonneg_r; [exact W|].
      rewrite !(Z.mul_comm (lsum _ E)), <- !lsum_scale. apply lsum_le. intros [w en] I. cbn [fst snd]. specialize (B w en I). specialize (P w en I).
      rewrite (Z.mul_comm L'), (Z.mul_comm L), <- !Z.mul_assoc. apply Z.mul_le_mono_nonneg_l; [lia | exact B].
  Qed.

  Lemma ratio_le : forall a b T T', 0 <= T -> 0 <= T' -> (T = 0 <-> T' = 0) -> a * T' <= b * T -> (inject_Z a / inject_Z T <= inject_Z b / inject_Z T')%Q.
  Proof.
    intros a b T T' H H' Z0 E. destruct (Z.eq_dec T 0) as [->|N].
    - rewrite (proj1 Z0 eq_refl). unfold Qdiv. change (/ inject_Z 0)%Q with 0%Q. lra.
    - assert (N' : T' <> 0) by tauto. assert (A : (0 < inject_Z T)%Q) by (unfold Qlt, inject_Z; cbn; lia). assert (A' : (0 < inject_Z T')%Q) by (unfold Qlt, inject_Z; cbn; lia).
      apply Qle_shift_div_l; [exact A'|]. unfold Qdiv. setoid_replace (inject_Z a * / inject_Z T * inject_Z T')%Q with ((inject_Z a * inject_Z T') * / inject_Z T)%Q by ring.
      apply Qle_shift_div_r; [exact A|]. rewrite <- !inject_Z_mult. now rewrite <- Zle_Qle.
  Qed.
  Lemma ratio_le_inv : forall a b T T', 0 < T -> 0 < T' -> (inject_Z a / inject_Z T <= inject_Z b / inject_Z T')%Q -> a * T' <= b * T.
  Proof.
    intros a b T T' H H' E. assert (A : (0 < inject_Z T)%Q) by (unfold Qlt, inject_Z; cbn; lia). assert (A' : (0 < inject_Z T')%Q) by (unfold Qlt, inject_Z; cbn; lia).
    rewrite Zle_Qle, !inject_Z_mult. assert (X := Qmult_le_compat_r _ _ (inject_Z T * inject_Z T') E ltac:(apply Qmult_le_0_compat; lra)).
    setoid_replace (inject_Z a / inject_Z T * (inject_Z T * inject_Z T'))%Q with (inject_Z a * inject_Z T')%Q in X by (field; lra).
    setoid_replace (inject_Z b / inject_Z T' * (inject_Z T * inject_Z T'))%Q with (inject_Z b * inject_Z T)%Q in X by (field; lra). exact X.
  Qed.

  Lemma last_better : forall q m e e' s s' lines lines' d d', reads e = reads e' -> (forall env, dom (joint faces env e) (joint faces env e')) ->
    reachable R s -> reachable R s' -> program_text lines (q ++ [(m, e)]) -> program_text lines' (q ++ [(m, e')]) -> good_program (q ++ [(m, e)]) -> good_program (q ++ [(m, e')]) ->
    sided (q ++ [(m, e)]) -> sided (q ++ [(m, e')]) -> reports R s lines d -> reports R s' lines' d' -> at_least_as_good R d d' /\ (mean R d <= mean R d')%Q.
  Proof.
    intros q m e e' s s' lines lines' d d' Er Dm Hs Hs' T T' G G' Sd Sd' H H'.
    destruct (last_compare q m e e' s s' lines lines' d d' Er Dm Hs Hs' T T' G G' Sd Sd' H H') as [T1 [T2 [Z0 C]]]. split.
    - intros v. unfold probability_at_least. apply ratio_le; auto. rewrite !ways_where_reported. apply C. intros x y L. destruct (Z.leb_spec v x), (Z.leb_spec v y); lia.
    - unfold mean. apply ratio_le; auto. destruct (program_run R s lines _ d Hs T G H) as [s1 [E1 I1]]. destruct (program_run R s' lines' _ d' Hs' T' G' H') as [s2 [E2 I2]].
      rewrite (sum_reported R d (run_dinv R true _ s s1 d I1 G E1)), (sum_reported R d' (run_dinv R true _ s' s2 d' I2 G' E2)). apply C. auto.
  Qed.

  (** *** Parts *)
  Lemma better_alone_same : forall e e', better_alone R e e' -> forall env, dom (joint faces env e) (joint faces env e').
  Proof.
    intros e e' [S [S' [N [N' [t [t' [s [s' [d [d' [P [P' [Hs [Hs' [H [H' [Z0 [Z0' B]]]]]]]]]]]]]]]]]] env.
    destruct (alone_joint R e t s d S N P Hs H) as [D A]. destruct (A env) as [_ [A1 [A2 A3]]].
    destruct (alone_joint R e' t' s' d' S' N' P' Hs' H') as [D' A']. destruct (A' env) as [_ [A1' [A2' A3']]].
    assert (Inc : forall env f, incl (joint faces env f) (joint (map fst) env f)) by (intros en f; apply joint_incl; intros m _ x; apply faces_sides).
    assert (W : forall (x : dist) f g, (forall v, listed R x v <-> In (Some v) (joint (map fst) env f)) -> (forall v, reported R x v = occurrences v (joint faces env f)) ->
      lsum (fun v => g v * reported R x v) (keys x) = lsum (fo g) (joint faces env f)).
    { intros x f g L C. rewrite (lsum_ext _ _ (fun v => g v * occurrences v (joint faces env f))) by (intros v _; now rewrite C). apply keys_sum; [apply result_map_nodup|].
      intros v I. apply L, Inc, I. }
    assert (T : forall (x : dist) f, dinv R x -> (forall v, listed R x v <-> In (Some v) (joint (map fst) env f)) -> (forall v, reported R x v = occurrences v (joint faces env f)) ->
      ~ In None (joint faces env f) -> total_ways R x = len (joint faces env f)).
    { intros x f Dx L C Nn. rewrite (total_count R x Dx), <- (reported_sum R x Dx), (lsum_ext _ _ (fun v => 1 * reported R x v)) by (intros; lia). rewrite (W x f (fun _ => 1) L C).
      rewrite (lsum_ext _ _ (fun _ => 1)); [rewrite lsum_const; lia|]. intros [y|] Iy; [reflexivity | contradiction]. }
    rewrite (T d e) in Z0 by assumption. rewrite (T d' e') in Z0' by assumption.
    apply tail_dom; auto; [intros X; rewrite X in Z0; now apply Z0 | intros X; rewrite X in Z0'; now apply Z0' |].
    intros v. specialize (B v). unfold probability_at_least in B. rewrite !ways_where_reported, (T d e), (T d' e'), (W d e), (W d' e') in B by assumption.
    apply ratio_le_inv in B; [exact B | lia | lia].
  Qed.
  Lemma better_alone_reads : forall e e', better_alone R e e' -> reads e = [] /\ reads e' = [].
  Proof. intros e e' [_ [_ [X [Y _]]]]. auto. Qed.
  Lemma better_alone_dom : forall e e', better_alone R e e' -> forall env env', dom (joint faces env e) (joint faces env' e').
  Proof.
    intros e e' H env env'. destruct (better_alone_reads e e' H) as [_ N]. rewrite (joint_agree faces e' env' env); [now apply better_alone_same|]. rewrite N. intros n [].
  Qed.
  Lemma last_in : forall (q : program) m e l, In l (q ++ [(m, e)]) <-> In l q \/ l = (m, e).
  Proof. intros q m e l. rewrite in_app_iff. cbn [In]. intuition congruence. Qed.
  Lemma closed_last : forall q m e e' known, reads e = reads e' -> closed known (q ++ [(m, e)]) -> closed known (q ++ [(m, e')]).
  Proof. induction q as [|[n f] q IH]; intros m e e' known E; cbn [app closed]; [now rewrite E|]. intros [A B]. split; eauto. Qed.
  Lemma good_last : forall q m e e', reads e = reads e' -> simple e' -> good_program (q ++ [(m, e)]) -> good_program (q ++ [(m, e')]).
  Proof.
    intros q m e e' E S [_ [C G]]. split; [destruct q; discriminate|]. split; [now apply (closed_last q m e e')|].
    intros n f I. apply last_in in I. destruct I as [I|I].
    - apply G. apply last_in. auto.
    - injection I as -> ->. destruct (G m e) as [_ X]; [apply last_in; auto|]. auto.
  Qed.
  Lemma improved_better : forall q m e e' s s' lines lines' d d', improved (better_alone R) steady true e e' ->
    reachable R s -> reachable R s' -> program_text lines (q ++ [(m, e)]) -> program_text lines' (q ++ [(m, e')]) -> good_program (q ++ [(m, e)]) ->
    sided (q ++ [(m, e)]) -> sided (q ++ [(m, e')]) -> reports R s lines d -> reports R s' lines' d' -> at_least_as_good R d d' /\ (mean R d <= mean R d')%Q.
  Proof.
    intros q m e e' s s' lines lines' d d' I Hs Hs' T T' G Sd Sd' H H'.
    assert (Rd : reads e = reads e') by (apply (improved_reads (better_alone R)) with steady true; auto; intros a b [_ [_ [X [Y _]]]]; congruence).
    assert (S : simple e) by (apply (proj2 (proj2 G) m e), last_in; auto).
    assert (S' : simple e') by (apply (improved_simple (better_alone R)) with steady true e; auto; intros a b [X [Y _]]; auto).
    apply (last_better q m e e' s s' lines lines'); auto; [|now apply (good_last q m e e')]. intros env. apply (improved_dom (better_alone R) better_alone_dom steady true e e' I). apply follows_refl.
  Qed.

  (** *** Programs *)
  Lemma improved_program_good : forall move p p', improved_program (better_alone R) move p p' -> good_program p -> good_program p'.
  Proof.
    intros move p p' H [N [C G]]. split; [apply (improved_program_cons _ _ _ _ H)|]. clear N.
    assert (Rd : forall mv up e e', improved (better_alone R) mv up e e' -> reads e = reads e') by (apply improved_reads; intros a b [_ [_ [X [Y _]]]]; congruence).
    assert (Sm : forall mv up e e', improved (better_alone R) mv up e e' -> simple e -> simple e') by (apply improved_simple; intros a b [X [Y _]]; auto).
    split.
    - revert C. generalize (@nil text). clear G. induction H as [mv m e e' H|mv n e e' q q' He H IH|mv n e e' q q' He H IH|mv n e q q' He H IH]; intros known; cbn [closed];
        try rewrite (Rd _ _ _ _ H); try rewrite (Rd _ _ _ _ He); intros [A B]; split; auto.
    - revert G. clear C. induction H as [mv m e e' H|mv n e e' q q' He H IH|mv n e e' q q' He H IH|mv n e q q' He H IH]; intros G k f I.
      + destruct I as [I|[]]. injection I as <- <-. destruct (G m e (or_introl eq_refl)). eauto.
      + destruct I as [I|I]; [injection I as <- <-; destruct (G n e (or_introl eq_refl)); eauto|]. apply IH; auto. intros; apply G; now right.
      + destruct I as [I|I]; [injection I as <- <-; destruct (G n e (or_introl eq_refl)); eauto|]. apply IH; auto. intros; apply G; now right.
      + destruct I as [I|I]; [injection I as <- <-; apply (G n e (or_introl eq_refl))|]. apply IH; auto. intros; apply G; now right.
  Qed.
  Lemma improved_results : forall p p', improved_program (better_alone R) steady p p' -> ~ In None (results faces no_values p) -> ~ In None (results faces no_values p') ->
    dom (results faces no_values p) (results faces no_values p').
  Proof.
    intros p p' H N N'. rewrite (results_outcomes p no_values N), (results_outcomes p' no_values N').
    apply (improved_program_dom (better_alone R) better_alone_reads better_alone_dom p p' steady H). apply follows_refl.
  Qed.

  (** what is reported is proportional to the joint results *)
  Lemma uniform_sum : forall s lines p d g, reachable R s -> program_text lines p -> good_program p -> rollable p -> used_once_or_uniform p -> reports R s lines d ->
    0 < total_ways R d /\ ~ In None (results faces no_values p) /\ results faces no_values p <> [] /\
    lsum (fun v => g v * reported R d v) (keys d) * len (results faces no_values p) = lsum (fo g) (results faces no_values p) * total_ways R d.
  Proof.
    intros s lines p d g Hs T G Rp U H. assert (Ex := exact_when_uniform R s lines p d Hs T G Rp U H). assert (N := program_none R s lines p d Hs T G H).
    assert (NE := results_nonempty p no_values (proj1 G) Rp). destruct (program_run R s lines p d Hs T G H) as [s1 [E1 I1]]. assert (D := run_dinv R true p s s1 d I1 G E1).
    rewrite (total_count R d D). set (l := results faces no_values p) in *. assert (P : 0 < len l) by (destruct l; [congruence | cbn [length]; lia]).
    assert (K : forall x, In (Some x) l -> In x (keys d)).
    { intros x I. apply (run_listed R true p s s1 d I1 G E1). destruct (results_possible R s lines p d Hs T G Rp H x) as [_ L]. apply (run_listed R true p s s1 d I1 G E1). apply L.
      revert I. apply results_incl. intros m _ y. apply faces_sides. }
    assert (S : lsum (fun v => g v * reported R d v) (keys d) * len l = lsum (fo g) l * d_count d).
    { rewrite <- (keys_sum (keys d) g l (result_map_nodup R d) K). rewrite (Z.mul_comm _ (len l)), (Z.mul_comm _ (d_count d)), <- !lsum_scale. apply lsum_ext. intros v _. specialize (Ex v).
      rewrite (Z.mul_comm (len l)), <- Z.mul_assoc, Ex. ring. }
    split; [|repeat split; assumption].
    destruct (Z.eq_dec (d_count d) 0) as [Z0|]; [|assert (X := total_nonneg R d D); rewrite (total_count R d D) in X; lia]. exfalso.
    destruct l as [|[x|] l0] eqn:El; [congruence| |apply N; now left]. specialize (Ex x). rewrite Z0, Z.mul_0_r in Ex. destruct (results_possible R s lines p d Hs T G Rp H x) as [L _].
    assert (reported R d x = 0) by nia. apply (proj2 L); [|assumption]. unfold l in El. rewrite El. now left.
  Qed.
  Lemma program_better : forall p p' s s' lines lines' d d', improved_program (better_alone R) steady p p' ->
    reachable R s -> reachable R s' -> program_text lines p -> program_text lines' p' -> good_program p -> rollable p -> rollable p' -> used_once_or_uniform p -> used_once_or_uniform p' ->
    reports R s lines d -> reports R s' lines' d' -> at_least_as_good R d d' /\ (mean R d <= mean R d')%Q.
  Proof.
    intros p p' s s' lines lines' d d' Im Hs Hs' T T' G Rp Rp' U U' H H'. assert (G' := improved_program_good steady p p' Im G).
    assert (C : forall g, (forall x y, x <= y -> g x <= g y) ->
      lsum (fun v => g v * reported R d v) (keys d) * total_ways R d' <= lsum (fun v => g v * reported R d' v) (keys d') * total_ways R d).
    { intros g Mg. destruct (uniform_sum s lines p d g Hs T G Rp U H) as [P [N [NE A]]]. destruct (uniform_sum s' lines' p' d' g Hs' T' G' Rp' U' H') as [P' [N' [NE' A']]].
      destruct (improved_results p p' Im N N') as [_ X]. specialize (X (fo g)). assert (Y := X ltac:(intros x y L; cbn [fo]; now apply Mg)). clear X.
      set (l := results faces no_values p) in *. set (l' := results faces no_values p') in *. assert (L : 0 < len l) by (destruct l; [congruence | cbn [length]; lia]).
      assert (L' : 0 < len l') by (destruct l'; [congruence | cbn [length]; lia]).
      set (a := lsum _ (keys d)) in *. set (b := lsum _ (keys d')) in *. set (f := lsum _ l) in *. set (f' := lsum _ l') in *. set (n := len l) in *. set (n' := len l') in *.
      clearbody a b f f' n n'. apply (Zmult_le_reg_r _ _ (n * n')); [apply Z.lt_gt; now apply Z.mul_pos_pos|].
      replace (a * total_ways R d' * (n * n')) with ((f * n') * (total_ways R d * total_ways R d')) by (rewrite <- !Z.mul_assoc in *; transitivity ((a * n) * (n' * total_ways R d')); [rewrite A; ring | ring]).
      replace (b * total_ways R d * (n * n')) with ((f' * n) * (total_ways R d * total_ways R d')) by (transitivity ((b * n') * (n * total_ways R d)); [rewrite A'; ring | ring]).
      apply Z.mul_le_mono_nonneg_r; [apply Z.mul_nonneg_nonneg; lia | exact Y]. }
    destruct (uniform_sum s lines p d (fun _ => 1) Hs T G Rp U H) as [P _]. destruct (uniform_sum s' lines' p' d' (fun _ => 1) Hs' T' G' Rp' U' H') as [P' _]. split.
    - intros v. unfold probability_at_least. apply ratio_le; try lia. rewrite !ways_where_reported. apply C. intros x y L. destruct (Z.leb_spec v x), (Z.leb_spec v y); lia.
    - unfold mean. apply ratio_le; try lia. destruct (program_run R s lines _ d Hs T G H) as [s1 [E1 I1]]. destruct (program_run R s' lines' _ d' Hs' T' G' H') as [s2 [E2 I2]].
      rewrite (sum_reported R d (run_dinv R true _ s s1 d I1 G E1)), (sum_reported R d' (run_dinv R true _ s' s2 d' I2 G' E2)). apply C. auto.
  Qed.

  (** *** roll() *)
  Notation value_of := (fun sd : state R * const_dict => dget text_eqb (read_dict R (fst sd) (snd sd)) stdout).
  Lemma roll_reaches_is : forall p lines s v, program_text lines p -> runnable p -> drawable p -> roll_reaches R s lines v = tail v (rolled_program no_values p).
  Proof.
    intros p lines s v HT HP HR. destruct (program_runs R p lines s HT HP HR) as [l [[H1 _] E]].
    set (F := fun sd : state R * const_dict => match value_of sd with Some x => if v <=? x then 1 else 0 | None => 0 end).
    transitivity (lsum (run_value R F) (roll R lines s)).
    - unfold roll_reaches. clear. induction (roll R lines s) as [|[w [s' [d|x]]] runs IH]; [reflexivity| |]; rewrite lsum_cons; cbn [filter snd stdout_of run_value].
      + unfold F at 1. cbn [fst snd]. destruct (dget text_eqb (read_dict R s' d) stdout) as [x|]; [destruct (v <=? x)|]; cbn [map fst]; rewrite ?zsum_cons, IH; lia.
      + rewrite IH. lia.
    - rewrite H1. unfold tail. transitivity (lsum (ofo (fun o => match o with Some x => if v <=? x then 1 else 0 | None => 0 end)) (map (option_map value_of) l)).
      + rewrite lsum_map. apply lsum_ext. intros [sd|] _; reflexivity.
      + rewrite E, lsum_map. apply lsum_ext. intros [x|] _; reflexivity.
  Qed.
  Lemma roll_better : forall p p' s s' lines lines' v, improved_program (better_alone R) steady p p' ->
    program_text lines p -> program_text lines' p' -> good_program p -> drawable p -> drawable p' -> program_logic_agrees no_values p -> program_logic_agrees no_values p' ->
    (forall x, ~ can_raise R s lines x) -> (forall x, ~ can_raise R s' lines' x) ->
    roll_reaches R s lines v * roll_total R s' lines' <= roll_reaches R s' lines' v * roll_total R s lines.
  Proof.
    intros p p' s s' lines lines' v Im T T' G D D' L L' N N'. assert (G' := improved_program_good steady p p' Im G).
    assert (Nn : ~ In None (results faces no_values p)) by (intros C; apply (N ZeroDivisionError); apply (roll_raises_division R s lines p _ T (good_runnable p G) D L); auto).
    assert (Nn' : ~ In None (results faces no_values p')) by (intros C; apply (N' ZeroDivisionError); apply (roll_raises_division R s' lines' p' _ T' (good_runnable p' G') D' L'); auto).
    assert (Q := good_runnable p G). assert (Q' := good_runnable p' G'). assert (E := rolled_results p no_values L). assert (E' := rolled_results p' no_values L').
    rewrite (roll_reaches_is p lines s v T Q D), (roll_reaches_is p' lines' s' v T' Q' D'), (roll_total_is R p lines s T Q D), (roll_total_is R p' lines' s' T' Q' D'), E, E' by now rewrite ?E, ?E'.
    apply dom_tail. now apply improved_results.
  Qed.
End Reported.

(** ** Floats *)
Lemma nearest_mono : forall x x' f f' v v', (x <= x')%Q -> nearest x f -> nearest x' f' -> fvalue f = Some v -> fvalue f' = Some v' -> (v <= v')%Q.
Proof.
  intros x x' f f' v v' L N N' E E'. destruct (Qlt_le_dec x x') as [Lt|Ge].
  - destruct N as [w [Ew [Dw N]]]. rewrite E in Ew. injection Ew as <-. destruct N' as [w' [Ew' [Dw' N']]]. rewrite E' in Ew'. injection Ew' as <-.
    destruct (N v' Dw') as [A _]. destruct (N' v Dw) as [B _]. apply Qnot_lt_le. intros C.
    revert A B. apply (Qabs_case (v - x)); intros A1; apply (Qabs_case (v' - x)); intros A2; apply (Qabs_case (v' - x')); intros A3; apply (Qabs_case (v - x')); intros A4; intros; lra.
  - assert (Ex : (x == x')%Q) by lra. apply Qle_lteq. right. apply (nearest_unique x f f'); auto. apply (nearest_ext x'); auto. now symmetry.
Qed.
Lemma better_average : forall R (d d' : dist R) f f', obtainable R d -> obtainable R d' -> (mean R d <= mean R d')%Q -> d_average R d = Ok f -> d_average R d' = Ok f' ->
  exists x x', fvalue f = Some x /\ fvalue f' = Some x' /\ (x <= x')%Q.
Proof.
  intros R d d' f f' O O' L E E'. destruct (average_nearest R d f O E) as [_ [N _]]. destruct (average_nearest R d' f' O' E') as [_ [N' _]].
  destruct (N) as [x [Ex _]]. destruct (N') as [x' [Ex' _]]. exists x, x'. split; [exact Ex|]. split; [exact Ex'|]. now apply (nearest_mono (mean R d) (mean R d') f f').
Qed.

(** ** Pools *)
Fixpoint desc (l : list Z) : Prop := match l with [] => True | x :: r => (forall y, In y r -> y <= x) /\ desc r end.
Lemma desc_insert : forall x l, desc l -> desc (insert_desc x l).
Proof.
  intros x l. induction l as [|y l IH]; cbn [insert_desc]; intros H; [split; [intros z []|exact Logic.I]|]. destruct H as [H1 H2]. destruct (Z.leb_spec y x).
  - split; [|split; assumption]. intros z [<-|I]; [assumption | specialize (H1 z I); lia].
  - split; [|auto]. intros z I. apply (Permutation_in _ (insert_desc_perm x l)) in I. destruct I as [<-|I]; [lia | auto].
Qed.
Lemma desc_sort : forall l, desc (sort_desc l).
Proof. induction l as [|x l IH]; [exact Logic.I|]. now apply desc_insert. Qed.
Lemma insert_top : forall x l, (forall y, In y l -> y <= x) -> insert_desc x l = x :: l.
Proof. intros x [|y l] H; [reflexivity|]. cbn [insert_desc]. destruct (Z.leb_spec y x); [reflexivity|]. specialize (H y (or_introl eq_refl)). lia. Qed.
Lemma insert_le : forall s s', Forall2 Z.le s s' -> desc s -> desc s' -> forall x x', x <= x' -> Forall2 Z.le (insert_desc x s) (insert_desc x' s').
Proof.
  intros s s' H. induction H as [|y y' r r' Hy Hr IH]; intros D D' x x' L; [cbn; auto|]. destruct D as [D1 D2]. destruct D' as [D1' D2']. cbn [insert_desc].
  destruct (Z.leb_spec y x), (Z.leb_spec y' x').
  - constructor; auto.
  - constructor; [lia|]. rewrite <- (insert_top y r D1). apply IH; auto. lia.
  - constructor; [lia|]. rewrite <- (insert_top y' r' D1'). apply IH; auto. lia.
  - constructor; auto.
Qed.
Lemma sort_le : forall t t', Forall2 Z.le t t' -> Forall2 Z.le (sort_desc t) (sort_desc t').
Proof. intros t t' H. induction H as [|x x' t t' Hx Ht IH]; [constructor|]. apply insert_le; auto; apply desc_sort. Qed.
Lemma total_cons : forall x l, total (x :: l) = x + total l.
Proof. reflexivity. Qed.
Lemma total_le : forall t t', Forall2 Z.le t t' -> total t <= total t'.
Proof. intros t t' H. induction H; [reflexivity|]. rewrite !total_cons. lia. Qed.
Lemma firstn_le : forall k t t', Forall2 Z.le t t' -> Forall2 Z.le (firstn k t) (firstn k t').
Proof. induction k as [|k IH]; intros t t' H; [constructor|]. destruct H; cbn [firstn]; constructor; auto. Qed.
Lemma skipn_le : forall k t t', Forall2 Z.le t t' -> Forall2 Z.le (skipn k t) (skipn k t').
Proof. induction k as [|k IH]; intros t t' H; [exact H|]. destruct H; cbn [skipn]; auto. Qed.

Lemma keep_more : forall x k s, desc s -> (k <= length s)%nat -> total (firstn k s) <= total (firstn k (insert_desc x s)).
Proof.
  intros x k. revert x. induction k as [|k IH]; intros x s D L; [reflexivity|]. destruct s as [|y r]; [cbn in L; lia|]. destruct D as [D1 D2]. cbn [length] in L. cbn [insert_desc].
  destruct (Z.leb_spec y x); cbn [firstn]; rewrite !total_cons.
  - rewrite <- (insert_top y r D1). specialize (IH y r D2 ltac:(lia)). lia.
  - specialize (IH x r D2 ltac:(lia)). lia.
Qed.
Lemma total_perm : forall a b, Permutation a b -> total a = total b.
Proof. intros a b P. change total with zsum. now apply zsum_perm. Qed.
Lemma drop_more : forall x m s, total (skipn (S m) (insert_desc x s)) <= total (skipn m s).
Proof.
  intros x m. induction m as [|m IH]; intros s.
  - destruct s as [|y r]; [cbn; lia|]. cbn [insert_desc]. destruct (Z.leb_spec y x); [cbn [skipn]; lia|]. cbn [skipn]. rewrite (total_perm _ _ (insert_desc_perm x r)), !total_cons. lia.
  - destruct s as [|y r]; [cbn; lia|]. cbn [insert_desc]. destruct (Z.leb_spec y x); [cbn [skipn]; lia|]. exact (IH r).
Qed.
Lemma keep_all : forall t, keep_highest (length t) t = total t.
Proof. intros t. unfold keep_highest. rewrite firstn_all2; [apply total_perm, sort_desc_perm|]. rewrite (Permutation_length (sort_desc_perm t)). lia. Qed.
Lemma drop_none : forall t, drop_highest 0 t = total t.
Proof. intros t. unfold drop_highest. cbn [skipn]. apply total_perm, sort_desc_perm. Qed.

Definition scores (score : list Z -> Z) (n : nat) (fs : list Z) : list (option Z) := map (fun t => Some (score t)) (tuples n fs).
Lemma lsum_scores : forall F score n fs, lsum F (scores score n fs) = lsum (fun t => F (Some (score t))) (tuples n fs).
Proof. intros. unfold scores. now rewrite lsum_map. Qed.
Lemma len_scores : forall score n fs, len (scores score n fs) = len fs ^ Z.of_nat n.
Proof.
  intros score n fs. unfold scores. rewrite map_length. induction n as [|n IH]; [reflexivity|]. rewrite Nat2Z.inj_succ, Z.pow_succ_r by lia. rewrite <- IH. clear IH.
  transitivity (lsum (fun _ : list Z => 1) (tuples (S n) fs)); [rewrite lsum_const; lia|]. rewrite lsum_tuples.
  rewrite (lsum_ext _ _ (fun _ => len (tuples n fs))) by (intros; rewrite lsum_const; lia). rewrite lsum_const. lia.
Qed.
Lemma len_pos : forall A (l : list A), l <> [] -> 0 < len l.
Proof. intros A [|x l] H; [contradiction | cbn [length]; lia]. Qed.
Lemma scores_nonempty : forall score n fs, fs <> [] -> scores score n fs <> [].
Proof. intros score n fs H E. assert (X := len_scores score n fs). rewrite E in X. pose proof (len_pos _ fs H). assert (0 < len fs ^ Z.of_nat n) by (apply Z.pow_pos_nonneg; lia). cbn in X. lia. Qed.

(** one die more *)
Lemma more_dom : forall score score' n fs, fs <> [] -> (forall x t, length t = n -> score t <= score' (x :: t)) -> dom (scores score n fs) (scores score' (S n) fs).
Proof.
  intros score score' n fs N H. split; [pose proof (scores_nonempty score n fs N); pose proof (scores_nonempty score' (S n) fs N); tauto|].
  intros F M. rewrite !lsum_scores, !len_scores, lsum_tuples, Nat2Z.inj_succ, Z.pow_succ_r, Z.mul_assoc by lia. apply Z.mul_le_mono_nonneg_r; [apply Z.pow_nonneg; lia|].
  rewrite Z.mul_comm, <- (Z.mul_comm (lsum _ (tuples n fs))), <- lsum_const. apply lsum_le. intros x _. apply lsum_le. intros t I. apply in_tuples in I. apply M, H, I.
Qed.
Lemma fewer_dom : forall score score' n fs, fs <> [] -> (forall x t, length t = n -> score' (x :: t) <= score t) -> dom (scores score' (S n) fs) (scores score n fs).
Proof.
  intros score score' n fs N H. split; [pose proof (scores_nonempty score n fs N); pose proof (scores_nonempty score' (S n) fs N); tauto|].
  intros F M. rewrite !lsum_scores, !len_scores, lsum_tuples, Nat2Z.inj_succ, Z.pow_succ_r, Z.mul_assoc by lia. apply Z.mul_le_mono_nonneg_r; [apply Z.pow_nonneg; lia|].
  rewrite <- lsum_const. apply lsum_le. intros x _. apply lsum_le. intros t I. apply in_tuples in I. apply M, H, I.
Qed.

(** better faces *)
Definition rising (score : list Z -> Z) : Prop := forall t t', Forall2 Z.le t t' -> score t <= score t'.
Lemma faces_dom : forall fs fs', better_faces fs fs' -> forall G : Z -> Z, (forall x y, x <= y -> G x <= G y) -> lsum G fs * len fs' <= lsum G fs' * len fs.
Proof.
  intros fs fs' [N [N' H]] G M.
  assert (T : forall v l, tail v (map Some l) = reaching v l).
  { intros v l. unfold tail, reaching. rewrite lsum_map, <- lsum_count. reflexivity. }
  assert (NN : forall l : list Z, ~ In None (map Some l)) by (intros l C; apply in_map_iff in C; destruct C as [x [C _]]; discriminate).
  assert (D : dom (map Some fs) (map Some fs')).
  { apply tail_dom; auto; [now rewrite map_empty | now rewrite map_empty |]. intros v. rewrite !map_length, !T. apply H. }
  destruct D as [_ D]. specialize (D (fo G)). rewrite !map_length, !lsum_map in D. apply D. intros x y L. now apply M.
Qed.
Lemma tuples_dom : forall fs fs' n (G : list Z -> Z), better_faces fs fs' -> (forall t t', Forall2 Z.le t t' -> G t <= G t') ->
  lsum G (tuples n fs) * len fs' ^ Z.of_nat n <= lsum G (tuples n fs') * len fs ^ Z.of_nat n.
Proof.
  intros fs fs' n G B. revert G. induction n as [|n IH]; intros G M; [cbn; lia|].
  rewrite !lsum_tuples, Nat2Z.inj_succ, !Z.pow_succ_r by lia.
  assert (R : forall l, Forall2 Z.le l l) by (induction l; constructor; auto; lia).
  assert (A : lsum (fun x => lsum (fun t => G (x :: t)) (tuples n fs)) fs * len fs' <= lsum (fun x => lsum (fun t => G (x :: t)) (tuples n fs)) fs' * len fs).
  { apply (faces_dom fs fs' B). intros x y L. apply lsum_le. intros t _. apply M. constructor; auto. }
  assert (C : lsum (fun x => lsum (fun t => G (x :: t)) (tuples n fs)) fs' * len fs' ^ Z.of_nat n <= lsum (fun x => lsum (fun t => G (x :: t)) (tuples n fs')) fs' * len fs ^ Z.of_nat n).
  { rewrite !(Z.mul_comm (lsum _ fs')), <- !lsum_scale. apply lsum_le. intros x _. rewrite !(Z.mul_comm (_ ^ _)). apply IH. intros t t' L. apply M. constructor; auto; lia. }
  set (a := lsum _ fs) in *. set (b := lsum _ fs') in *. set (c := lsum (fun x => lsum _ (tuples n fs')) fs') in *. assert (P : 0 <= len fs' ^ Z.of_nat n) by (apply Z.pow_nonneg; lia). assert (Q : 0 <= len fs) by lia.
  set (p := len fs' ^ Z.of_nat n) in *. set (p' := len fs ^ Z.of_nat n) in *. set (q := len fs) in *. set (q' := len fs') in *. clearbody a b c p p' q q'. clear - A C P Q.
  assert (a * q' * p <= b * q * p) by (now apply Z.mul_le_mono_nonneg_r). assert (b * p * q <= c * p' * q) by (now apply Z.mul_le_mono_nonneg_r). lia.
Qed.
Lemma scores_dom : forall fs fs' n score, better_faces fs fs' -> rising score -> dom (scores score n fs) (scores score n fs').
Proof.
  intros fs fs' n score B Rs. split; [destruct B as [N [N' _]]; pose proof (scores_nonempty score n fs N); pose proof (scores_nonempty score n fs' N'); tauto|].
  intros F M. rewrite !lsum_scores, !len_scores. apply (tuples_dom fs fs' n (fun t => F (Some (score t))) B). intros t t' L. apply M, Rs, L.
Qed.

Lemma keep_rising : forall k, rising (keep_highest k).
Proof. intros k t t' H. unfold keep_highest. now apply total_le, firstn_le, sort_le. Qed.
Lemma drop_rising : forall k, rising (drop_highest k).
Proof. intros k t t' H. unfold drop_highest. now apply total_le, skipn_le, sort_le. Qed.

Lemma scored_ext : forall fs vs score score' n e, (forall t, length t = n -> score t = score' t) -> scored fs vs score n e -> scored fs vs score' n e.
Proof.
  intros fs vs score score' n e H [A [B C]]. assert (X : forall l, map (fun t => Some (score t)) (tuples n l) = map (fun t => Some (score' t)) (tuples n l)).
  { intros l. apply map_ext_in. intros t I. apply in_tuples in I. now rewrite H. }
  split; [intros env; rewrite <- X; apply A|]. split; [intros env; rewrite <- X; apply B | exact C].
Qed.
Lemma sum_positive : forall fs vs n e, sum_of fs vs n e -> (1 <= n)%nat.
Proof. intros fs vs n e H. induction H; lia. Qed.
Lemma best_at_least_one : forall mx fs vs n e, best_of mx fs vs n e -> (1 <= n)%nat.
Proof. intros mx fs vs n e H. induction H; lia. Qed.
Lemma highest_scored : forall fs vs k n e, highest_of fs vs k n e -> scored fs vs (keep_highest k) n e /\ (1 <= k <= n)%nat.
Proof.
  intros fs vs k n e [e' H|dk m D K N Kk B|m e' -> H].
  - split; [|apply sum_positive in H; lia]. apply (scored_ext fs vs total); [|now apply sum_scored]. intros t <-. symmetry. apply keep_all.
  - split; [|exact B]. assert (S := pool_scored fs vs dk D ltac:(lia)). rewrite K, N, Kk, !Nat2Z.id in S. apply S. lia.
  - split; [|apply best_at_least_one in H; lia]. apply (scored_ext fs vs (best true)); [reflexivity | now apply best_scored].
Qed.
Lemma lowest_scored : forall fs vs k n e, lowest_of fs vs k n e -> scored fs vs (drop_highest (n - k)) n e /\ (1 <= k <= n)%nat.
Proof.
  intros fs vs k n e [e' H|dk m D K N Kk B|m e' -> H].
  - split; [|apply sum_positive in H; lia]. apply (scored_ext fs vs total); [|now apply sum_scored]. intros t _. rewrite Nat.sub_diag. symmetry. apply drop_none.
  - split; [|exact B]. assert (S := pool_scored fs vs dk D ltac:(lia)). rewrite K, N, Kk, !Nat2Z.id in S. apply S. lia.
  - split; [|apply best_at_least_one in H; lia]. apply (scored_ext fs vs (best false)); [|now apply best_scored]. intros t <-. reflexivity.
Qed.

Lemma more_highest : forall fs k n n', fs <> [] -> (k <= n)%nat -> (n <= n')%nat -> dom (scores (keep_highest k) n fs) (scores (keep_highest k) n' fs).
Proof.
  intros fs k n n' N K L. induction L as [|n' L IH]; [apply dom_refl|]. apply (dom_trans _ _ _ IH), more_dom; auto. intros x t Ht. unfold keep_highest. apply (keep_more x k (sort_desc t)).
  - apply desc_sort.
  - rewrite (Permutation_length (sort_desc_perm t)). lia.
Qed.
Lemma more_lowest : forall fs k n n', fs <> [] -> (k <= n)%nat -> (n <= n')%nat -> dom (scores (drop_highest (n' - k)) n' fs) (scores (drop_highest (n - k)) n fs).
Proof.
  intros fs k n n' N K L. induction L as [|n' L IH]; [apply dom_refl|]. apply (fun H => dom_trans _ _ _ H IH). apply fewer_dom; auto. intros x t Ht. unfold drop_highest.
  replace (S n' - k)%nat with (S (n' - k)) by lia. apply (drop_more x (n' - k) (sort_desc t)).
Qed.
Lemma more_total : forall fs n n', fs <> [] -> (forall x, In x fs -> 0 <= x) -> (n <= n')%nat -> dom (scores total n fs) (scores total n' fs).
Proof.
  intros fs n n' N P L. induction L as [|n' L IH]; [apply dom_refl|]. apply (dom_trans _ _ _ IH). split; [pose proof (scores_nonempty total n' fs N); pose proof (scores_nonempty total (S n') fs N); tauto|].
  intros F M. rewrite !lsum_scores, !len_scores, lsum_tuples, Nat2Z.inj_succ, Z.pow_succ_r, Z.mul_assoc by lia. apply Z.mul_le_mono_nonneg_r; [apply Z.pow_nonneg; lia|].
  rewrite <- lsum_const. apply lsum_le. intros x I. apply lsum_le. intros t _. apply M. rewrite total_cons. specialize (P x I). lia.
Qed.

Section Pools.
  Context (R : Runtime).

  Lemma scored_alone : forall fs vs score n e t, fs <> [] -> scored fs vs score n e -> parse t = Ok e ->
    reads e = [] /\ good_program [(None, e)] /\ program_text [t] [(None, e)] /\ sided [(None, e)].
  Proof.
    intros fs vs score n e t F [_ [_ [_ [Rd [Na [S [D _]]]]]]] P. apply parse_wf in P as W. assert (G := single_program e (S W) Rd). split; [exact Rd|]. split; [exact G|].
    split; [repeat constructor; exact P|]. intros m I. cbn in I. rewrite app_nil_r in I. apply D in I. destruct I as [I _]. intros ->. cbn in I. apply F. now apply Permutation_nil.
  Qed.
  Lemma alone_better : forall e e' s s' t t' d d', (forall env, dom (joint faces env e) (joint faces env e')) -> reads e = [] -> reads e' = [] -> good_program [(None, e)] -> good_program [(None, e')] ->
    sided [(None, e)] -> sided [(None, e')] -> reachable R s -> reachable R s' -> program_text [t] [(None, e)] -> program_text [t'] [(None, e')] -> reports R s [t] d -> reports R s' [t'] d' ->
    at_least_as_good R d d' /\ (mean R d <= mean R d')%Q.
  Proof. intros e e' s s' t t' d d' D Rd Rd' G G' Sd Sd' Hs Hs' T T' H H'. apply (last_better R [] None e e' s s' [t] [t']); auto. congruence. Qed.
  Lemma scored_better : forall fs vs score n e fs' vs' score' n' e' s s' t t' d d', fs <> [] -> fs' <> [] -> scored fs vs score n e -> scored fs' vs' score' n' e' ->
    dom (scores score n fs) (scores score' n' fs') -> reachable R s -> reachable R s' -> parse t = Ok e -> parse t' = Ok e' -> reports R s [t] d -> reports R s' [t'] d' ->
    at_least_as_good R d d' /\ (mean R d <= mean R d')%Q.
  Proof.
    intros fs vs score n e fs' vs' score' n' e' s s' t t' d d' F F' S S' D Hs Hs' P P' H H'.
    destruct (scored_alone fs vs score n e t F S P) as [Rd [G [T Sd]]]. destruct (scored_alone fs' vs' score' n' e' t' F' S' P') as [Rd' [G' [T' Sd']]].
    apply (alone_better e e' s s' t t'); auto. intros env. destruct S as [S _]. destruct S' as [S' _].
    apply (dom_trans _ (scores score n fs)); [apply dom_perm, S|]. apply (dom_trans _ (scores score' n' fs')); [exact D|]. apply dom_perm. symmetry. apply S'.
  Qed.

  Lemma faces_better : forall fs vs fs' vs' e e' s s' t t' d d', better_faces fs fs' -> pools_alike fs vs fs' vs' e e' -> reachable R s -> reachable R s' ->
    parse t = Ok e -> parse t' = Ok e' -> reports R s [t] d -> reports R s' [t'] d' -> at_least_as_good R d d' /\ (mean R d <= mean R d')%Q.
  Proof.
    intros fs vs fs' vs' e e' s s' t t' d d' B [k [n [[A A']|[A A']]]] Hs Hs' P P' H H'.
    - apply highest_scored in A as [A _]. apply highest_scored in A' as [A' _].
      apply (scored_better fs vs (keep_highest k) n e fs' vs' (keep_highest k) n e' s s' t t'); auto; try apply B. apply scores_dom; auto using keep_rising.
    - apply lowest_scored in A as [A _]. apply lowest_scored in A' as [A' _].
      apply (scored_better fs vs (drop_highest (n - k)) n e fs' vs' (drop_highest (n - k)) n e' s s' t t'); auto; try apply B. apply scores_dom; auto using drop_rising.
  Qed.
  Lemma highest_better : forall fs vs vs' k n n' e e' s s' t t' d d', fs <> [] -> highest_of fs vs k n e -> highest_of fs vs' k n' e' -> (n <= n')%nat -> reachable R s -> reachable R s' ->
    parse t = Ok e -> parse t' = Ok e' -> reports R s [t] d -> reports R s' [t'] d' -> at_least_as_good R d d' /\ (mean R d <= mean R d')%Q.
  Proof.
    intros fs vs vs' k n n' e e' s s' t t' d d' F A A' L Hs Hs' P P' H H'. apply highest_scored in A as [A B]. apply highest_scored in A' as [A' _].
    apply (scored_better fs vs (keep_highest k) n e fs vs' (keep_highest k) n' e' s s' t t'); auto. apply more_highest; auto. lia.
  Qed.
  Lemma lowest_worse : forall fs vs vs' k n n' e e' s s' t t' d d', fs <> [] -> lowest_of fs vs k n e -> lowest_of fs vs' k n' e' -> (n <= n')%nat -> reachable R s -> reachable R s' ->
    parse t = Ok e -> parse t' = Ok e' -> reports R s [t] d -> reports R s' [t'] d' -> at_least_as_good R d' d /\ (mean R d' <= mean R d)%Q.
  Proof.
    intros fs vs vs' k n n' e e' s s' t t' d d' F A A' L Hs Hs' P P' H H'. apply lowest_scored in A as [A B]. apply lowest_scored in A' as [A' _].
    apply (scored_better fs vs' (drop_highest (n' - k)) n' e' fs vs (drop_highest (n - k)) n e s' s t' t); auto. apply more_lowest; auto. lia.
  Qed.
  Lemma more_better : forall fs vs vs' n n' e e' s s' t t' d d', fs <> [] -> (forall x, In x fs -> 0 <= x) -> sum_of fs vs n e -> sum_of fs vs' n' e' -> (n <= n')%nat -> reachable R s -> reachable R s' ->
    parse t = Ok e -> parse t' = Ok e' -> reports R s [t] d -> reports R s' [t'] d' -> at_least_as_good R d d' /\ (mean R d <= mean R d')%Q.
  Proof.
    intros fs vs vs' n n' e e' s s' t t' d d' F N A A' L Hs Hs' P P' H H'. apply sum_scored in A. apply sum_scored in A'.
    apply (scored_better fs vs total n e fs vs' total n' e' s s' t t'); auto. now apply more_total.
  Qed.

  (** MAX and MIN *)
  Lemma pick_dom : forall mm f (up : bool) l r, minmax_meaning mm = Some f -> (forall x y, if up then x <= f x y else f x y <= x) -> r <> [] -> ~ In None r ->
    domif up l (both (meaning (minmax_meaning mm)) l r).
  Proof.
    intros mm f up l r E Hf N Nn. rewrite E. assert (Em : l = [] <-> both (meaning (Some f)) l r = []) by (rewrite both_empty; tauto).
    destruct up; (split; [tauto|]); intros F M; rewrite lsum_both2, both_length, Nat2Z.inj_mul, Z.mul_assoc.
    - rewrite (Z.mul_comm (lsum F l)), <- (Z.mul_assoc (len l)), (Z.mul_comm (len l)). apply Z.mul_le_mono_nonneg_r; [lia|]. rewrite Z.mul_comm, <- lsum_scale.
      apply lsum_le. intros x _. rewrite Z.mul_comm, <- lsum_const. apply lsum_le. intros [y|] I; [|contradiction]. destruct x as [x|]; cbn [bothv meaning]; [apply M, Hf | lia].
    - rewrite (Z.mul_comm (lsum F l)), <- (Z.mul_assoc (len l)), (Z.mul_comm (len l)). apply Z.mul_le_mono_nonneg_r; [lia|]. rewrite (Z.mul_comm (lsum F l)), <- lsum_scale.
      apply lsum_le. intros x _. rewrite Z.mul_comm, <- lsum_const. apply lsum_le. intros [y|] I; [|contradiction]. destruct x as [x|]; cbn [bothv meaning]; [apply M, Hf | lia].
  Qed.

  Lemma pick_right : forall mm l r, dom (both (meaning (minmax_meaning mm)) l r) (both (meaning (minmax_meaning mm)) r l).
  Proof.
    intros mm l r. split; [rewrite !both_empty; tauto|]. intros F _. rewrite !both_length, !lsum_both2, lsum_swap, (Nat.mul_comm (length r)).
    apply Z.mul_le_mono_nonneg_r; [lia|]. apply lsum_le. intros y _. apply lsum_le. intros x _. unfold minmax_meaning.
    destruct (text_eqb mm $"MAX"); [|destruct (text_eqb mm $"MIN")]; destruct x, y; cbn [bothv meaning]; rewrite ?(Z.max_comm z), ?(Z.min_comm z); lia.
  Qed.
  Lemma domif_perm : forall up a b c, domif up a b -> dom b c -> dom c b -> domif up a c.
  Proof. intros [] a b c H K L; [exact (dom_trans _ _ _ H K) | exact (dom_trans _ _ _ L H)]. Qed.
  Lemma both_none_right : forall f a b, a <> [] -> In None b -> In None (both f a b).
  Proof. intros f [|x a] b N I; [contradiction|]. unfold both. apply in_flat_map. exists x. split; [now left|]. apply in_map_iff. exists None. split; [now destruct x | exact I]. Qed.
  Lemma both_none_left : forall f a b, b <> [] -> In None a -> In None (both f a b).
  Proof. intros f a [|y b] N I; [contradiction|]. unfold both. apply in_flat_map. exists None. split; [exact I|]. now left. Qed.

  Lemma pick_better : forall (up : bool) a b p s s' t t' d d', let mm := if up then $"MAX" else $"MIN" in
    p = a \/ p = b -> reads a = [] -> reads b = [] -> simple a -> simple b -> sided [(None, EMinMax mm a b)] -> reachable R s -> reachable R s' -> parse t = Ok p -> parse t' = Ok (EMinMax mm a b) ->
    reports R s [t] d -> reports R s' [t'] d' -> total_ways R d' <> 0 ->
    if up then at_least_as_good R d d' /\ (mean R d <= mean R d')%Q else at_least_as_good R d' d /\ (mean R d' <= mean R d)%Q.
  Proof.
    intros up a b p s s' t t' d d' mm Hp Ra Rb Sa Sb Sd Hs Hs' P P' H H' T.
    assert (Sm : simple (EMinMax mm a b)) by (split; [destruct up; discriminate | auto]). assert (Rm : reads (EMinMax mm a b) = []) by (cbn [reads]; now rewrite Ra, Rb).
    assert (Rp : reads p = []) by (destruct Hp as [->| ->]; auto). assert (Sp : simple p) by (destruct Hp as [->| ->]; auto).
    assert (Sdp : sided [(None, p)]).
    { intros m I. apply Sd. unfold program_dice in *. cbn [flat_map snd dice_of] in *. rewrite app_nil_r in *. apply in_or_app. destruct Hp as [->| ->]; auto. }
    destruct (alone_joint R _ t' s' d' Sm Rm P' Hs' H') as [D' A'].
    assert (Dm : forall env, domif up (joint faces env p) (joint faces env (EMinMax mm a b))).
    { intros env. destruct (A' env) as [_ [Nn [_ C]]]. cbn [joint] in *.
      assert (N : both (meaning (minmax_meaning mm)) (joint faces env a) (joint faces env b) <> []).
      { intros X. apply T. rewrite (total_count R d' D'), <- (reported_sum R d' D'), (lsum_ext _ _ (fun _ => 0)); [apply lsum_zero|]. intros v _. rewrite C, X. reflexivity. }
      rewrite both_empty in N. assert (Na : joint faces env a <> []) by tauto. assert (Nb : joint faces env b <> []) by tauto.
      assert (Ma : ~ In None (joint faces env a)) by (intros X; apply Nn; now apply both_none_left). assert (Mb : ~ In None (joint faces env b)) by (intros X; apply Nn; now apply both_none_right).
      assert (M : exists f, minmax_meaning mm = Some f /\ forall x y, if up then x <= f x y else f x y <= x) by (unfold mm; destruct up; eexists; (split; [reflexivity|]); intros; lia).
      destruct M as [f [M1 M2]]. destruct Hp as [->| ->].
      - now apply (pick_dom mm f).
      - apply (domif_perm up _ (both (meaning (minmax_meaning mm)) (joint faces env b) (joint faces env a))); [now apply (pick_dom mm f) | apply pick_right | apply pick_right]. }
    destruct up.
    - apply (alone_better p (EMinMax mm a b) s s' t t'); auto using alone_program, alone_text.
    - apply (alone_better (EMinMax mm a b) p s' s t' t); auto using alone_program, alone_text.
  Qed.
End Pools.

(** ** A variable read twice: a better die, and a smaller chance of reaching 4 *)
Lemma reaching_cons : forall v x l, reaching v (x :: l) = (if v <=? x then 1 else 0) + reaching v l.
Proof. intros v x l. unfold reaching. cbn [filter]. destruct (v <=? x); cbn [length]; lia. Qed.
Lemma reaching_nil : forall v, reaching v [] = 0.
Proof. reflexivity. Qed.
Lemma better_example : better_faces [1; 2] [1; 1; 2; 3].
Proof.
  split; [discriminate|]. split; [discriminate|]. intros v. rewrite !reaching_cons, !reaching_nil. cbn [length].
  destruct (Z.leb_spec v 1), (Z.leb_spec v 2), (Z.leb_spec v 3); lia.
Qed.
Definition die_of (t : text) : option (list (Z * Z)) := match parse t with Ok (EDice d) => if dice_num d =? 1 then Some (dice_map d) else None | _ => None end.
Lemma die_of_sum : forall t m, die_of t = Some m -> exists e, parse t = Ok e /\ sum_of (faces m) (map fst m) 1 e /\ reads e = [].
Proof.
  intros t m H. unfold die_of in H. destruct (parse t) as [[| | |d| | | | | | | | | | |]|]; try discriminate. destruct (Z.eqb_spec (dice_num d) 1) as [E|]; [|discriminate]. injection H as <-.
  exists (EDice d). split; [reflexivity|]. split; [|reflexivity]. change 1%nat with (Z.to_nat 1). rewrite <- E. apply so_dice; [split; reflexivity | lia].
Qed.
Lemma variable_refuted : exists (R : Runtime) t t' e e' s d d', parse t = Ok e /\ parse t' = Ok e' /\ better_alone R e e' /\ reachable R s /\
  reports R s [$"VAR a = " ++ t; $"a + a"] d /\ reports R s [$"VAR a = " ++ t'; $"a + a"] d' /\ (probability_at_least R d' 4 < probability_at_least R d 4)%Q.
Proof.
  destruct (die_of_sum $"d2" [(1, 1); (2, 1)] ltac:(vm_compute; reflexivity)) as [e [P [A Rd]]].
  destruct (die_of_sum $"d[1*2,2,3]" [(1, 2); (2, 1); (3, 1)] ltac:(vm_compute; reflexivity)) as [e' [P' [A' Rd']]].
  destruct (shown_reports rt_fwd (empty_state rt_fwd) [$"d2"] [(1, 1); (2, 1)] ltac:(vm_compute; reflexivity)) as [f [H1 H2]].
  destruct (shown_reports rt_fwd (empty_state rt_fwd) [$"d[1*2,2,3]"] [(1, 2); (2, 1); (3, 1)] ltac:(vm_compute; reflexivity)) as [f' [H3 H4]].
  destruct (shown_reports rt_fwd (empty_state rt_fwd) [$"VAR a = " ++ $"d2"; $"a + a"] [(2, 1); (4, 1)] ltac:(vm_compute; reflexivity)) as [d [H5 H6]].
  destruct (shown_reports rt_fwd (empty_state rt_fwd) [$"VAR a = " ++ $"d[1*2,2,3]"; $"a + a"] [(2, 4); (4, 1); (6, 1)] ltac:(vm_compute; reflexivity)) as [d' [H7 H8]].
  exists rt_fwd, $"d2", $"d[1*2,2,3]", e, e', (empty_state rt_fwd), d, d'. split; [exact P|]. split; [exact P'|]. split.
  - assert (W := parse_wf _ _ P). assert (W' := parse_wf _ _ P').
    split; [apply (sum_scored _ _ _ _ A); exact W|]. split; [apply (sum_scored _ _ _ _ A'); exact W'|]. split; [exact Rd|]. split; [exact Rd'|].
    exists $"d2", $"d[1*2,2,3]", (empty_state rt_fwd), (empty_state rt_fwd), f, f'. split; [exact P|]. split; [exact P'|]. split; [apply af_now|]. split; [apply af_now|].
    split; [exact H1|]. split; [exact H3|]. unfold total_ways. rewrite H2, H4. split; [discriminate|]. split; [discriminate|].
    apply (faces_better rt_fwd _ [1; 2] _ [1; 2; 3] e e' (empty_state rt_fwd) (empty_state rt_fwd) $"d2" $"d[1*2,2,3]" f f' better_example); auto; try apply af_now.
    exists 1%nat, 1%nat. left. split; apply hi_sum; [exact A | exact A'].
  - split; [apply af_now|]. split; [exact H5|]. split; [exact H7|]. unfold probability_at_least, ways_where, total_ways. rewrite H6, H8. vm_compute. reflexivity.
Qed.

(** ** For the examples: two lines with the values 1 and 2 *)
Lemma better_one_two : forall t t' e e' a b a' b', parse t = Ok e -> parse t' = Ok e' -> checked [(None, e)] = true -> checked [(None, e')] = true ->
  reads e = [] -> reads e' = [] -> shown rt_fwd (empty_state rt_fwd) [t] = Some [(1, a); (2, b)] -> shown rt_fwd (empty_state rt_fwd) [t'] = Some [(1, a'); (2, b')] ->
  0 < a + b -> 0 < a' + b' -> b * (a' + b') <= b' * (a + b) -> better_alone rt_fwd e e'.
Proof.
  intros t t' e e' a b a' b' P P' G G' N N' H H' S S' B.
  assert (T1 : program_text [t] [(None, e)]) by (constructor; [exact P | constructor]). assert (T2 : program_text [t'] [(None, e')]) by (constructor; [exact P' | constructor]).
  assert (G1 := checked_good _ _ T1 G). assert (G2 := checked_good _ _ T2 G').
  split; [exact (proj1 (proj2 (proj2 G1) None _ (or_introl eq_refl)))|]. split; [exact (proj1 (proj2 (proj2 G2) None _ (or_introl eq_refl)))|]. split; [exact N|]. split; [exact N'|].
  destruct (shown_reports _ _ _ _ H) as [d [D1 D2]]. destruct (shown_reports _ _ _ _ H') as [d' [D1' D2']].
  exists t, t', (empty_state rt_fwd), (empty_state rt_fwd), d, d'. split; [exact P|]. split; [exact P'|]. split; [apply af_now|]. split; [apply af_now|].
  split; [exact D1|]. split; [exact D1'|]. assert (E : total_ways rt_fwd d = a + b) by (unfold total_ways; rewrite D2; cbn [map snd]; rewrite !zsum_cons; change (zsum []) with 0; lia).
  assert (E' : total_ways rt_fwd d' = a' + b') by (unfold total_ways; rewrite D2'; cbn [map snd]; rewrite !zsum_cons; change (zsum []) with 0; lia).
  split; [lia|]. split; [lia|]. intros v. unfold probability_at_least. apply ratio_le; try lia. rewrite E, E'. unfold ways_where. rewrite D2, D2'. cbn [filter fst].
  destruct (Z.leb_spec v 1), (Z.leb_spec v 2); try lia; cbn [map snd]; rewrite ?zsum_cons; change (zsum []) with 0; try lia.
Qed.
