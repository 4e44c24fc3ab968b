(** * RollFacts: lemmas about roll() *)
From Verif Require Import Py PyFacts PyFloat FloatFacts Constraint ConstraintFacts Distribution DistFacts SpecDice DiceFacts DiceModel
  DropKeepFacts NotationFacts DiceProofs Expr Lexer Parser Interp TagFacts SpecProgram ExprFacts StateFacts ProgramFacts JointFacts RaiseFacts
  WfFacts SpecInterp InterpRun SpecRoll.

(** ** Weighted tuples *)
Lemma weighted_tuples_sum : forall m (F : list Z -> Z) k, natural_counts m ->
  lsum (fun tw => snd tw * F (fst tw)) (weighted_tuples m k) = lsum F (tuples k (faces m)).
Proof.
  intros m F k N. revert F. induction k as [|k IH]; intros F.
  - cbn [weighted_tuples tuples]. rewrite !lsum_cons, !lsum_nil. cbn [fst snd]. lia.
  - rewrite lsum_tuples, lsum_faces by auto. cbn [weighted_tuples]. rewrite lsum_flat_map. unfold lsum at 1.
    apply zsum_map_ext_in. intros [v w] _. cbn [fst snd]. rewrite lsum_map. cbn [fst snd]. rewrite <- IH, <- lsum_scale.
    apply lsum_ext. intros [t w'] _. cbn [fst snd]. lia.
Qed.

Lemma weighted_tuples_in : forall m k t, natural_counts m ->
  (exists w, In (t, w) (weighted_tuples m k) /\ w <> 0) <-> In t (tuples k (faces m)).
Proof.
  intros m k t N. revert t. induction k as [|k IH]; intros t.
  - cbn. split; [intros [w [[H|[]] _]]; injection H as <- <-; auto | intros [<-|[]]; exists 1; split; [auto | lia]].
  - cbn [weighted_tuples tuples]. rewrite in_flat_map. split.
    + intros [w [H W]]. apply in_flat_map in H. destruct H as [[v c] [Hv H]]. apply in_map_iff in H. destruct H as [[t' w'] [E H]]. cbn [fst snd] in E.
      injection E as <- <-. exists v. split; [apply in_faces; exists c; split; auto; specialize (N v c Hv); destruct (Z.eq_dec c 0) as [->|]; [exfalso; apply W; lia | lia]|].
      apply in_map. apply IH. exists w'. split; auto. intros ->. apply W. lia.
    + intros [v [Hv H]]. apply in_map_iff in H. destruct H as [t' [<- H]]. apply IH in H. destruct H as [w' [H W]].
      apply in_faces in Hv. destruct Hv as [c [Hv Hc]]. exists (c * w'). split; [|nia]. apply in_flat_map. exists (v, c). split; auto.
      apply in_map_iff. exists (t', w'). auto.
Qed.

Lemma weighted_tuples_nonneg : forall m k t w, natural_counts m -> In (t, w) (weighted_tuples m k) -> 0 <= w.
Proof.
  intros m k t w N. revert t w. induction k as [|k IH]; intros t w H.
  - destruct H as [H|[]]. injection H as _ <-. lia.
  - cbn [weighted_tuples] in H. apply in_flat_map in H. destruct H as [[v c] [Hv H]]. apply in_map_iff in H. destruct H as [[t' w'] [E H]]. cbn [fst snd] in E.
    injection E as _ <-. apply IH in H. specialize (N v c Hv). nia.
Qed.

Lemma faces_total : forall m, natural_counts m -> faces m <> [] -> m <> [] /\ 0 < zsum (map snd m).
Proof.
  intros m N H. split; [intros ->; now apply H|]. pose proof (lsum_faces (fun _ => 1) m N) as E.
  rewrite (zsum_map_ext_in _ _ (fun vc => snd vc) m) in E by (intros; lia). change (zsum (map (fun vc => snd vc) m)) with (zsum (map snd m)) in E. rewrite <- E.
  destruct (faces m) as [|x l]; [congruence|]. rewrite lsum_cons. pose proof (lsum_nonneg _ (fun _ : Z => 1) l ltac:(lia)). lia.
Qed.

Lemma overflows_limit : forall z, 0 <= z -> (overflows (-1074) (z * 2 ^ (- -1074)) 1 <-> float_limit <= z).
Proof.
  intros z H. unfold overflows, float_limit. assert (P : 0 < 2 ^ 1074) by now apply Z.pow_pos_nonneg.
  rewrite Z.abs_eq by (change (- -1074) with 1074; apply Z.mul_nonneg_nonneg; lia). change (- -1074) with 1074. change (971 - -1074) with (971 + 1074). rewrite Z.pow_add_r, Z.mul_1_l by lia.
  assert (E : (2 ^ 54 - 1) * (2 ^ 971 * 2 ^ 1074) = 2 * (2 ^ 1024 - 2 ^ 970) * 2 ^ 1074).
  { change 1024 with (54 + 970). change 971 with (1 + 970). rewrite !Z.pow_add_r by lia. change (2 ^ 1) with 2. generalize (2 ^ 54) (2 ^ 970) (2 ^ 1074). intros. ring. }
  rewrite E. clear E. generalize (2 ^ 1024 - 2 ^ 970). generalize dependent (2 ^ 1074). intros. nia.
Qed.
Lemma float_of_total : forall z, 0 <= z -> z < float_limit -> exists f, float_of_Z z = Ok f.
Proof.
  intros z H L. destruct (float_of_Z_spec (-1074) z ltac:(lia)) as [[f [E _]]|[_ O]]; [now exists f|]. apply overflows_limit in O; lia.
Qed.
Lemma float_too_large : forall z, float_limit <= z -> 0 <= z -> float_of_Z z = Raise OverflowError.
Proof.
  intros z L H. destruct (float_of_Z_spec (-1074) z ltac:(lia)) as [[f [_ [_ O]]]|[E _]]; [|exact E]. exfalso. apply O. now apply overflows_limit.
Qed.

Lemma drawable_rollable : forall p, drawable p -> rollable p.
Proof. intros p D m Hm. now apply D. Qed.
Lemma choices_ok : forall m k, natural_counts m -> can_choose m -> choices m k = Ok (weighted_tuples m (Z.to_nat k)).
Proof.
  intros m k N [H L]. destruct (faces_total m N H) as [H1 H2]. unfold choices. destruct m as [|vc m]; [congruence|].
  destruct (float_of_total (zsum (map snd (vc :: m)))) as [f ->]; [lia|exact L|]. cbn [rbind].
  destruct (zsum (map snd (vc :: m)) <=? 0) eqn:E; auto. apply Z.leb_le in E. lia.
Qed.

(** ** The results of a pool *)
Lemma pool_cases : forall form dk, mk_dropkeep form = Ok dk -> 0 <= dk_num dk -> 0 <= dk_k dk ->
  (dk_simple dk = Some (SInt $"0") /\ forall sides, pool_results sides dk = [0]) \/
  (exists d, dk_simple dk = Some (SDice d) /\ dice_map d = dk_map dk /\ dice_num d = dk_num dk /\
     forall sides, pool_results sides dk = map total (tuples (Z.to_nat (dk_num dk)) (sides (dk_map dk)))) \/
  (dk_simple dk = None /\ dk_full dk /\ forall sides, pool_results sides dk = map (dk_score dk) (tuples (Z.to_nat (dk_num dk)) (sides (dk_map dk)))).
Proof.
  intros form dk Hm Hn Hk. destruct (mk_dropkeep_inv form dk Hm) as [N I].
  destruct (dk_keep dk) eqn:EK; destruct I as [I1 [I2 I3]].
  - destruct (Z.le_gt_cases (dk_num dk) (dk_k dk)) as [G|G].
    + right. left. destruct (I1 G) as [d [A [B C]]]. exists d. split; auto. split; auto. split; auto. intros sides. unfold pool_results. rewrite EK.
      destruct (dk_k dk =? 0) eqn:K.
      * apply Z.eqb_eq in K. replace (dk_num dk) with 0 by lia. reflexivity.
      * apply map_ext_in. intros t Ht. apply in_tuples in Ht. destruct Ht as [Ht _]. unfold keep_highest. rewrite firstn_all2.
        -- rewrite !total_zsum. apply zsum_perm. apply sort_desc_perm.
        -- rewrite (Permutation.Permutation_length (sort_desc_perm t)). lia.
    + destruct (Z.eq_dec (dk_k dk) 0) as [K|K].
      * left. split; [apply I2; lia|]. intros sides. unfold pool_results. rewrite EK, K. reflexivity.
      * right. right. split; [apply I3; lia|]. split; [unfold dk_full; lia|]. intros sides. unfold pool_results, dk_score. rewrite EK.
        apply Z.eqb_neq in K. now rewrite K.
  - destruct (Z.le_gt_cases (dk_num dk) (dk_k dk)) as [G|G].
    + left. split; [auto|]. intros sides. unfold pool_results. rewrite EK. apply Z.leb_le in G. now rewrite G.
    + assert (E : (dk_num dk <=? dk_k dk) = false) by (apply Z.leb_gt; lia). destruct (Z.eq_dec (dk_k dk) 0) as [K|K].
      * right. left. destruct (I2 ltac:(lia) K) as [d [A [B C]]]. exists d. split; auto. split; auto. split; auto.
        intros sides. unfold pool_results. rewrite EK, E, K. apply map_ext. intros t. unfold drop_highest. cbn [Z.to_nat skipn].
        rewrite !total_zsum. apply zsum_perm. apply sort_desc_perm.
      * right. right. split; [apply I3; lia|]. split; [unfold dk_full; lia|]. intros sides. unfold pool_results, dk_score. now rewrite EK, E.
Qed.

Lemma dk_select_score : forall dk t, dk_full dk -> length t = Z.to_nat (dk_num dk) -> dk_select dk t = dk_score dk t.
Proof.
  intros dk t [F1 F2] L. unfold dk_select, dk_score, last_n, first_n. assert (Lz : length (zsort t) = length t) by (apply Permutation.Permutation_length; apply zsort_perm).
  destruct (dk_keep dk).
  - rewrite Lz. apply keep_score. lia.
  - replace (Z.to_nat (dk_num dk - dk_k dk)) with (length t - Z.to_nat (dk_k dk))%nat by lia. apply drop_score. lia.
Qed.

(** ** Weighted runs as lists of results; [None] stands for ZeroDivisionError *)
Definition ofo {B} (F : B -> Z) (x : option B) : Z := match x with Some x => F x | None => 0 end.

Definition same_results {B} (l l' : list (option B)) : Prop :=
  (forall F, lsum (ofo F) l = lsum (ofo F) l') /\ forall x, In x l <-> In x l'.

Section Runs.
  Context (R : Runtime).
  Notation state := (state R).

  Definition run_value {A} (F : state * A -> Z) (wr : Z * (state * res A)) : Z :=
    match wr with (w, (s, Ok a)) => w * F (s, a) | (_, (_, Raise _)) => 0 end.
  Definition outcome_of {A} (run : state * res A) : option (state * A) := match run with (s, Ok a) => Some (s, a) | (_, Raise _) => None end.

  (** the runs of non-zero weight are those of [l], with the weights of [l] *)
  Definition runs_as {A} (runs : list (Z * (state * res A))) (l : list (option (state * A))) : Prop :=
    (forall F, lsum (run_value F) runs = lsum (ofo F) l) /\
    (forall x, In x l <-> exists w run, In (w, run) runs /\ w <> 0 /\ outcome_of run = x) /\
    (forall w s x, In (w, (s, Raise x)) runs -> w <> 0 -> x = ZeroDivisionError).

  Lemma runs_same : forall A (runs : list (Z * (state * res A))) l l', runs_as runs l -> same_results l l' -> runs_as runs l'.
  Proof.
    intros A runs l l' [H1 [H2 H3]] [S1 S2]. split; [|split; auto].
    - intros F. now rewrite H1.
    - intros x. now rewrite <- S2.
  Qed.

  Lemma runs_ret : forall A (a : A) s, runs_as [(1, (s, Ok a))] [Some (s, a)].
  Proof.
    intros A a s. split; [|split].
    - intros F. rewrite !lsum_cons, !lsum_nil. cbn [run_value ofo]. lia.
    - intros x. split.
      + intros [<-|[]]. exists 1, (s, Ok a). cbn. split; auto. split; [lia | auto].
      + intros [w [run [[E|[]] [_ O]]]]. injection E as <- <-. now left.
    - intros w s' x [E|[]]. discriminate.
  Qed.

  Lemma runs_raise : forall A s, runs_as [(1, (s, Raise ZeroDivisionError : res A))] [None].
  Proof.
    intros A s. split; [|split].
    - intros F. rewrite !lsum_cons, !lsum_nil. reflexivity.
    - intros x. split.
      + intros [<-|[]]. exists 1, (s, Raise ZeroDivisionError). cbn. split; auto. split; [lia | auto].
      + intros [w [run [[E|[]] [_ O]]]]. injection E as <- <-. now left.
    - intros w s' x [E|[]] _. congruence.
  Qed.

  Lemma run_value_bind : forall A B (m : W R A) (f : A -> W R B) F s,
    lsum (run_value F) (wbind R m f s) = lsum (run_value (fun sa => lsum (run_value F) (f (snd sa) (fst sa)))) (m s).
  Proof.
    intros A B m f F s. unfold wbind. rewrite lsum_flat_map. apply lsum_ext. intros [w [s' [a|x]]] _; cbn [run_value fst snd].
    - rewrite lsum_map, <- lsum_scale. apply lsum_ext. intros [w2 [s2 [b|x]]] _; cbn [run_value fst snd]; lia.
    - rewrite lsum_cons, lsum_nil. reflexivity.
  Qed.

  Lemma runs_bind : forall A B (m : W R A) (f : A -> W R B) g s l, runs_as (m s) l ->
    (forall s' a, In (Some (s', a)) l -> runs_as (f a s') (g (s', a))) ->
    runs_as (wbind R m f s) (flat_map (fun x => match x with Some sa => g sa | None => [None] end) l).
  Proof.
    intros A B m f g s l [H1 [H2 H3]] HF. split; [|split].
    - intros F. rewrite run_value_bind, H1, lsum_flat_map. apply lsum_ext. intros [[s' a]|] Hx; cbn [ofo fst snd].
      + now apply (HF s' a Hx).
      + rewrite lsum_cons, lsum_nil. reflexivity.
    - intros x. rewrite in_flat_map. unfold wbind. split.
      + intros [[[s' a]|] [Hy Hx]].
        * apply (HF s' a Hy) in Hx. destruct Hx as [w2 [run2 [Hx [W2 O2]]]]. apply H2 in Hy. destruct Hy as [w [[s1 [a1|y]] [Hy [W1 O1]]]]; [|discriminate].
          injection O1 as -> ->. exists (w * w2), run2. split; [|split; [nia | auto]]. apply in_flat_map. exists (w, (s', Ok a)). split; auto.
          apply in_map_iff. exists (w2, run2). auto.
        * destruct Hx as [<-|[]]. apply H2 in Hy. destruct Hy as [w [[s1 [a1|y]] [Hy [W1 O1]]]]; [discriminate|].
          exists w, (s1, Raise y). split; auto. apply in_flat_map. exists (w, (s1, Raise y)). split; auto. now left.
      + intros [w [run [Hr [W1 O]]]]. apply in_flat_map in Hr. destruct Hr as [[w1 [s1 [a|y]]] [Hy Hr]].
        * apply in_map_iff in Hr. destruct Hr as [[w2 run2] [E Hr]]. injection E as <- <-. cbn [fst] in W1.
          assert (W2 : w1 <> 0 /\ w2 <> 0) by (split; intros ->; lia). destruct W2 as [W2 W3].
          assert (Hl : In (Some (s1, a)) l) by (apply H2; exists w1, (s1, Ok a); auto). exists (Some (s1, a)). split; auto.
          apply (HF s1 a Hl). exists w2, run2. auto.
        * destruct Hr as [E|[]]. injection E as <- <-. exists None. split; [|left; auto]. apply H2. exists w1, (s1, Raise y). auto.
    - intros w s' x Hr W1. apply in_flat_map in Hr. destruct Hr as [[w1 [s1 [a|y]]] [Hy Hr]].
      + apply in_map_iff in Hr. destruct Hr as [[w2 run2] [E Hr]]. injection E as <- E. cbn [fst snd] in *. subst run2.
        assert (W2 : w1 <> 0 /\ w2 <> 0) by (split; intros ->; lia). destruct W2 as [W2 W3].
        assert (Hl : In (Some (s1, a)) l) by (apply H2; exists w1, (s1, Ok a); auto). destruct (HF s1 a Hl) as [_ [_ K]]. eapply K; eauto.
      + destruct Hr as [E|[]]. injection E as <- <- <-. eauto.
  Qed.

  (** ** Expressions *)
  Definition at_state (s : state) (l : list (option Z)) : list (option (state * Z)) := map (option_map (pair s)) l.
  Definition rolls_like (s : state) (runs : list (Z * (state * res Z))) (l : list (option Z)) : Prop := runs_as runs (at_state s l).

  Lemma at_state_app : forall s a b, at_state s (a ++ b) = at_state s a ++ at_state s b.
  Proof. intros. apply map_app. Qed.

  Lemma like_same : forall s runs l l', rolls_like s runs l -> same_results l l' -> rolls_like s runs l'.
  Proof.
    intros s runs l l' H [S1 S2]. apply (runs_same _ _ _ _ H). split.
    - intros F. unfold at_state. rewrite !lsum_map.
      rewrite (lsum_ext _ _ (ofo (fun x => F (s, x))) l), (lsum_ext _ _ (ofo (fun x => F (s, x))) l') by (intros [x|] _; reflexivity). apply S1.
    - intros x. unfold at_state. rewrite !in_map_iff. split; intros [y [E Hy]]; exists y; split; auto; now apply S2.
  Qed.

  Lemma like_bind : forall s m f g l, rolls_like s (m s) l -> (forall x, In (Some x) l -> rolls_like s (f x s) (g x)) ->
    rolls_like s (wbind R m f s) (flat_map (fun x => match x with Some x => g x | None => [None] end) l).
  Proof.
    intros s m f g l H HF. pose proof (runs_bind _ _ m f (fun sx => at_state s (g (snd sx))) s (at_state s l) H) as K.
    unfold rolls_like. replace (at_state s (flat_map (fun x => match x with Some x => g x | None => [None] end) l))
      with (flat_map (fun x => match x with Some sa => at_state s (g (snd sa)) | None => [None] end) (at_state s l)).
    - apply K. intros s' a Ha. unfold at_state in Ha. apply in_map_iff in Ha. destruct Ha as [[x|] [E Hx]]; [|discriminate]. injection E as <- <-. now apply HF.
    - clear. unfold at_state. rewrite !flat_map_concat_map, map_map, concat_map, map_map. f_equal. apply map_ext. now intros [x|].
  Qed.

  Lemma like_ret : forall s x, rolls_like s (wret R x s) [Some x].
  Proof. intros. apply runs_ret. Qed.

  Lemma like_map : forall s m f l, rolls_like s (m s) l -> rolls_like s (wbind R m (fun x => wret R (f x)) s) (map (option_map f) l).
  Proof.
    intros s m f l H. replace (map (option_map f) l) with (flat_map (fun x => match x with Some x => [Some (f x)] | None => [None] end) l).
    - apply like_bind; auto. intros. apply like_ret.
    - clear H. induction l as [|[x|] l IH]; cbn; [reflexivity| |]; now rewrite IH.
  Qed.

  Lemma ofo_fo : forall F, @ofo Z F = fo F.
  Proof. reflexivity. Qed.

  Lemma both_same : forall (g : Z -> Z -> option Z) a b, b <> [] ->
    same_results (flat_map (fun x => match x with Some x => flat_map (fun y => match y with Some y => [g x y] | None => [None] end) b | None => [None] end) a)
      (both g a b).
  Proof.
    intros g a b N. assert (E : forall x, flat_map (fun y => match y with Some y => [g x y] | None => [None] end) b =
      map (fun y => match y with Some y => g x y | None => None end) b).
    { intros x. clear N. induction b as [|[y|] b IH]; cbn; [reflexivity| |]; now rewrite IH. }
    split.
    - intros F. unfold both. rewrite !lsum_flat_map. apply lsum_ext. intros [x|] _; [now rewrite E|]. rewrite lsum_map, lsum_cons, lsum_nil.
      cbn. now rewrite lsum_zero.
    - intros z. unfold both. rewrite !in_flat_map. split; intros [[x|] [Hx H]]; exists (Some x) || exists None; (split; [auto|]).
      + now rewrite E in H.
      + destruct H as [<-|[]]. destruct b as [|y b]; [congruence|]. now left.
      + now rewrite E.
      + apply in_map_iff in H. destruct H as [y [<- _]]. now left.
  Qed.

  Lemma like_binop : forall s f ma mb la lb, lb <> [] -> rolls_like s (ma s) la -> rolls_like s (mb s) lb ->
    rolls_like s (wbinop R f ma mb s) (both (fun x y => Some (f x y)) la lb).
  Proof.
    intros s f ma mb la lb N Ha Hb. eapply like_same; [|apply both_same; auto]. unfold wbinop. apply (like_bind s ma _ _ la Ha). intros x _.
    apply (like_bind s mb _ (fun y => [Some (f x y)]) lb Hb). intros y _. apply like_ret.
  Qed.

  (** the divisor is rolled first *)
  Lemma div_same : forall a b, a <> [] -> b <> [] ->
    same_results (flat_map (fun y => match y with
        | Some y => if y =? 0 then [None] else flat_map (fun x => match x with Some x => [Some (x / y)] | None => [None] end) a
        | None => [None] end) b)
      (both (fun x y => if y =? 0 then None else Some (x / y)) a b).
  Proof.
    intros a b Na Nb. split.
    - intros F. rewrite ofo_fo, lsum_both. unfold lsum at 2. rewrite (zsum_map_ext_in _ _ (fun x => zsum (map (fun y => match x, y with
        Some x, Some y => if y =? 0 then 0 else F (x / y) | _, _ => 0 end) b)) a).
      + rewrite zsum_map_swap, lsum_flat_map. unfold lsum at 1. apply zsum_map_ext_in. intros [y|] _.
        * destruct (y =? 0) eqn:E.
          -- rewrite lsum_cons, lsum_nil. symmetry. apply zsum_map_zero. intros [x|] _; reflexivity.
          -- rewrite lsum_flat_map. apply zsum_map_ext_in. intros [x|] _; rewrite lsum_cons, lsum_nil; cbn; lia.
        * rewrite lsum_cons, lsum_nil. symmetry. apply zsum_map_zero. intros [x|] _; reflexivity.
      + intros [x|] _; cbn [fo].
        * apply zsum_map_ext_in. intros [y|] _; cbn [fo]; [|reflexivity]. now destruct (y =? 0).
        * symmetry. now apply zsum_map_zero.
    - intros z. unfold both. rewrite !in_flat_map. split.
      + intros [[y|] [Hy H]].
        * destruct (y =? 0) eqn:E.
          -- destruct H as [<-|[]]. destruct a as [|x a]; [congruence|]. exists x. split; [now left|]. apply in_map_iff. exists (Some y).
             split; auto. destruct x; [now rewrite E | reflexivity].
          -- apply in_flat_map in H. destruct H as [[x|] [Hx [<-|[]]]].
             ++ exists (Some x). split; auto. apply in_map_iff. exists (Some y). rewrite E. auto.
             ++ exists None. split; auto. apply in_map_iff. exists (Some y). auto.
        * destruct H as [<-|[]]. destruct a as [|x a]; [congruence|]. exists x. split; [now left|]. apply in_map_iff. exists None. split; auto. now destruct x.
      + intros [x [Hx H]]. apply in_map_iff in H. destruct H as [y [<- Hy]]. exists y. split; auto. destruct x as [x|], y as [y|]; cbn; auto.
        * destruct (y =? 0); [now left|]. apply in_flat_map. exists (Some x). split; auto. now left.
        * destruct (y =? 0); [now left|]. apply in_flat_map. exists None. split; auto. now left.
  Qed.

  Lemma like_dice : forall s m k (f : list Z -> Z), natural_counts m -> can_choose m ->
    rolls_like s (wrolls R (rolls_of f (choices m k)) s) (map (fun t => Some (f t)) (tuples (Z.to_nat k) (faces m))).
  Proof.
    intros s m k f N Hf. rewrite (choices_ok m k N Hf). unfold wrolls, rolls_of. rewrite map_map. cbn [fst snd]. split; [|split].
    - intros F. unfold at_state. rewrite !lsum_map. cbn [run_value ofo option_map]. apply (weighted_tuples_sum m (fun t => F (s, f t)) (Z.to_nat k) N).
    - intros x. unfold at_state. rewrite map_map, in_map_iff. cbn [option_map]. split.
      + intros [t [<- Ht]]. apply weighted_tuples_in in Ht; auto. destruct Ht as [w [Ht W]]. exists w, (s, Ok (f t)). split; auto.
        apply in_map_iff. exists (t, w). auto.
      + intros [w [run [Hr [W <-]]]]. apply in_map_iff in Hr. destruct Hr as [[t w'] [E Ht]]. injection E as <- <-. cbn [fst snd] in *. exists t. split; auto.
        apply weighted_tuples_in; auto. eauto.
    - intros w s' x Hr. apply in_map_iff in Hr. destruct Hr as [[t w'] [E Ht]]. discriminate.
  Qed.

  Lemma both_some : forall f a b, both (meaning (Some f)) a b = both (fun x y => Some (f x y)) a b.
  Proof. reflexivity. Qed.

  Lemma roll_operator_meaning : forall op, operator_meaning op <> None ->
    exists f g, int_operator op = Some f /\ roll_operator op = Some g /\ forall x y, f x y = g x y.
  Proof.
    intros op H. unfold operator_meaning in H. unfold roll_operator, int_operator, operator_meaning, truth.
    repeat match type of H with context [text_eqb op ?t] =>
      let E := fresh in destruct (text_eqb op t) eqn:E; [apply text_eqb_eq in E; subst op; clear; cbn; eexists; eexists; split; [reflexivity|]; split; [reflexivity|]; reflexivity|] end.
    congruence.
  Qed.

  Lemma both_ext : forall f g a b, (forall x y, In (Some x) a -> In (Some y) b -> f x y = g x y) -> both f a b = both g a b.
  Proof.
    intros f g a b H. unfold both. rewrite !flat_map_concat_map. f_equal. apply map_ext_in. intros x Hx. apply map_ext_in. intros y Hy.
    destruct x, y; auto.
  Qed.

  Lemma rolled_nonempty : forall env e, (forall m, In m (dice_of e) -> can_choose m) -> rolled env e <> [].
  Proof.
    intros env. induction e; intros H; cbn [rolled dice_of] in *; try discriminate; auto using map_nonempty;
      try (apply both_nonempty; [apply IHe1 | apply IHe2]; intros; apply H; apply in_or_app; auto).
    - apply map_nonempty. apply pool_nonempty. apply (H (dk_map d)). now left.
    - apply map_nonempty. apply tuples_nonempty. apply (H (dice_map d)). now left.
  Qed.

  Lemma rolls_expr : forall s env e, well_formed e -> no_assignment e -> (forall m, In m (dice_of e) -> can_choose m) ->
    (forall n, In n (reads e) -> exists x, env n = Some x /\ dget text_eqb (st_const s) n = Some x) ->
    rolls_like s (roll_of R e s) (rolled env e).
  Proof.
    intros s env. induction e; intros WF NA Hd Hr; cbn [well_formed no_assignment dice_of reads roll_of rolled] in *.
    - auto.
    - apply like_map; auto.
    - destruct WF as [[form Hm] [Hn Hk]]. assert (N : natural_counts (dk_map d)) by apply (mk_dropkeep_inv form d Hm). assert (F : can_choose (dk_map d)) by (apply Hd; now left).
      destruct (pool_cases form d Hm Hn Hk) as [[E P]|[[d0 [E [E1 [E2 P]]]]|[E [Fu P]]]]; rewrite E, P.
      + apply like_ret.
      + unfold dice_roll. rewrite map_map, E1, E2. now apply (like_dice s _ _ zsum).
      + unfold dk_roll_full. rewrite map_map. eapply like_same; [apply like_dice; auto|]. rewrite (map_ext_in (fun t => Some (dk_select d t)) (fun t => Some (dk_score d t))); [split; reflexivity|].
        intros t Ht. apply in_tuples in Ht. f_equal. now apply dk_select_score.
    - destruct WF as [[form Hm] Hn]. unfold dice_roll. apply (like_dice s _ _ zsum); [eapply dice_natural; eauto | apply Hd; now left].
    - destruct WF as [z E]. rewrite E. apply like_ret.
    - apply like_ret.
    - apply like_binop; [apply rolled_nonempty; intros; apply Hd; apply in_or_app; auto | apply IHe1; try tauto | apply IHe2; try tauto]; intros; (apply Hd || apply Hr); apply in_or_app; auto.
    - apply like_binop; [apply rolled_nonempty; intros; apply Hd; apply in_or_app; auto | apply IHe1; try tauto | apply IHe2; try tauto]; intros; (apply Hd || apply Hr); apply in_or_app; auto.
    - apply like_binop; [apply rolled_nonempty; intros; apply Hd; apply in_or_app; auto | apply IHe1; try tauto | apply IHe2; try tauto]; intros; (apply Hd || apply Hr); apply in_or_app; auto.
    - eapply like_same; [|apply div_same; apply rolled_nonempty; intros; apply Hd; apply in_or_app; auto].
      apply (like_bind s (roll_of R e2) _ (fun y => if y =? 0 then [None] else flat_map (fun x => match x with Some x => [Some (x / y)] | None => [None] end) (rolled env e1))).
      + apply IHe2; try tauto; intros; (apply Hd || apply Hr); apply in_or_app; auto.
      + intros y _. destruct (y =? 0); [apply runs_raise|]. apply (like_bind s (roll_of R e1) _ (fun x => [Some (x / y)])).
        * apply IHe1; try tauto; intros; (apply Hd || apply Hr); apply in_or_app; auto.
        * intros x _. apply like_ret.
    - destruct WF as [Hop [W1 W2]]. destruct (roll_operator_meaning _ Hop) as [f [g [Ef [Eg Efg]]]]. rewrite Ef, Eg, both_some.
      rewrite (both_ext (fun x y => Some (g x y)) (fun x y => Some (f x y))) by (intros; now rewrite Efg).
      apply like_binop; [apply rolled_nonempty; intros; apply Hd; apply in_or_app; auto | apply IHe1; try tauto | apply IHe2; try tauto]; intros; (apply Hd || apply Hr); apply in_or_app; auto.
    - destruct WF as [Hop [W1 W2]]. unfold minmax_operator, minmax_meaning in *.
      assert (K : forall f, rolls_like s (wbinop R f (roll_of R e1) (roll_of R e2) s) (both (meaning (Some f)) (rolled env e1) (rolled env e2))).
      { intros f. apply like_binop; [apply rolled_nonempty; intros; apply Hd; apply in_or_app; auto | apply IHe1; try tauto | apply IHe2; try tauto]; intros; (apply Hd || apply Hr); apply in_or_app; auto. }
      destruct (text_eqb min_max $"MAX"); [apply K|]. destruct (text_eqb min_max $"MIN"); [apply K | congruence].
    - apply like_map; auto.
    - contradiction.
    - destruct (Hr _ (or_introl eq_refl)) as [x [E1 E2]]. unfold get_constant. rewrite E1, E2. apply like_ret.
  Qed.

  (** ** Programs *)
  Definition line_state (n : option text) (x : Z) (s : state) : state :=
    set_stdout_const R x (match n with Some n => set_constant R n x s | None => s end).

  Fixpoint final_runs (env : text -> option Z) (s : state) (p : program) : list (option (state * const_dict)) :=
    match p with
    | [] => []
    | [(n, e)] => map (option_map (fun x => (line_state n x s, LiveConstants))) (rolled env e)
    | (n, e) :: p' =>
        flat_map (fun x => match x with Some x => final_runs (bind_value env n x) (line_state n x s) p' | None => [None] end) (rolled env e)
    end.

  Lemma line_runs : forall s env n e, well_formed e -> no_assignment e -> (forall m, In m (dice_of e) -> can_choose m) ->
    (forall n, In n (reads e) -> exists x, env n = Some x /\ dget text_eqb (st_const s) n = Some x) ->
    runs_as (wbind R (roll_of R (line_expr (n, e))) (fun v s => [(1, (set_stdout_const R v s, Ok LiveConstants))]) s)
      (map (option_map (fun x => (line_state n x s, LiveConstants))) (rolled env e)).
  Proof.
    intros s env n e WF NA Hd Hr. pose proof (rolls_expr s env e WF NA Hd Hr) as K. destruct n as [n|]; cbn [line_expr roll_of].
    - assert (K2 : runs_as (wbind R (roll_of R e) (fun x s => [(1, (set_constant R n x s, Ok x))]) s) (map (option_map (fun x => (set_constant R n x s, x))) (rolled env e))).
      { pose proof (runs_bind _ _ (roll_of R e) (fun x s => [(1, (set_constant R n x s, Ok x))]) (fun sx => [Some (set_constant R n (snd sx) (fst sx), snd sx)]) s _ K) as B.
        match goal with |- runs_as _ ?l => match type of B with _ -> runs_as _ ?l' => replace l with l' end end; [apply B; intros; apply runs_ret|].
        unfold at_state. rewrite flat_map_concat_map, map_map. clear. induction (rolled env e) as [|[x|] l IH]; cbn; [reflexivity| |]; now rewrite IH. }
      pose proof (runs_bind _ _ _ (fun v s => [(1, (set_stdout_const R v s, Ok LiveConstants))]) (fun sx => [Some (set_stdout_const R (snd sx) (fst sx), LiveConstants)]) s _ K2) as B.
      match goal with |- runs_as _ ?l => match type of B with _ -> runs_as _ ?l' => replace l with l' end end; [apply B; intros; apply runs_ret|].
      rewrite flat_map_concat_map, map_map. clear. induction (rolled env e) as [|[x|] l IH]; cbn; [reflexivity| |]; now rewrite IH.
    - pose proof (runs_bind _ _ _ (fun v s => [(1, (set_stdout_const R v s, Ok LiveConstants))]) (fun sx => [Some (set_stdout_const R (snd sx) (fst sx), LiveConstants)]) s _ K) as B.
      match goal with |- runs_as _ ?l => match type of B with _ -> runs_as _ ?l' => replace l with l' end end; [apply B; intros; apply runs_ret|].
      unfold at_state. rewrite flat_map_concat_map, map_map. clear. induction (rolled env e) as [|[x|] l IH]; cbn; [reflexivity| |]; now rewrite IH.
  Qed.

  Lemma roll_line_runs : forall t e s l, parse t = Ok e ->
    runs_as (wbind R (roll_of R e) (fun v s => [(1, (set_stdout_const R v s, Ok LiveConstants))]) s) l -> runs_as (roll_line R t s) l.
  Proof.
    intros t e s l Ht K. unfold roll_line. rewrite Ht. rewrite <- (app_nil_r l).
    apply (runs_bind _ _ (wlift R (Ok e)) _ (fun _ => l) s [Some (s, e)]); [apply runs_ret|]. intros s' a [E|[]]. injection E as <- <-. exact K.
  Qed.

  Definition agree (known : list text) (env : text -> option Z) (s : state) : Prop :=
    forall n, In n known -> n <> stdout /\ exists x, env n = Some x /\ dget text_eqb (st_const s) n = Some x.

  Lemma agree_line : forall known env s n x, agree known env s -> match n with Some n => var_name n | None => True end ->
    agree (match n with Some n => n :: known | None => known end) (bind_value env n x) (line_state n x s).
  Proof.
    intros known env s n x A V m Hm. unfold line_state, set_stdout_const. destruct n as [n|]; cbn [bind_value set_constant st_const].
    - assert (Hs : m <> stdout) by (destruct Hm as [<-|Hm]; [apply V | now apply A]). split; auto.
      rewrite (dget_dset_other text_eqb text_eqb_iff) by congruence. destruct (text_eqb m n) eqn:E.
      + apply text_eqb_eq in E. subst m. exists x. split; auto. apply (dget_dset_same text_eqb text_eqb_iff).
      + apply text_eqb_neq in E. rewrite (dget_dset_other text_eqb text_eqb_iff) by congruence. apply A. destruct Hm; congruence || auto.
    - destruct (A m Hm) as [Hs K]. split; auto. rewrite (dget_dset_other text_eqb text_eqb_iff) by congruence. exact K.
  Qed.

  Lemma roll_runs : forall p lines known env s dict, p <> [] -> program_text lines p -> closed known p -> agree known env s ->
    (forall n e, In (n, e) p -> well_formed e /\ no_assignment e /\ match n with Some n => var_name n | None => True end) -> drawable p ->
    runs_as (roll_from R dict lines s) (final_runs env s p).
  Proof.
    induction p as [|[n e] p IH]; intros lines known env s dict Hp HT HC HA HW HR; [congruence|]. clear Hp. inversion HT as [|t l' ts p' Ht HT']; subst.
    cbn [closed] in HC. destruct HC as [HC1 HC2]. destruct (HW n e (or_introl eq_refl)) as [W1 [W2 W3]]. cbn [roll_from].
    assert (L : runs_as (roll_line R t s) (map (option_map (fun x => (line_state n x s, LiveConstants))) (rolled env e))).
    { apply (roll_line_runs t _ s _ Ht). apply line_runs; auto.
      - intros m Hm. apply HR. unfold program_dice. cbn [flat_map snd]. apply in_or_app. now left.
      - intros m Hm. apply HA. auto. }
    destruct p as [|l2 p].
    - inversion HT'; subst. cbn [roll_from final_runs].
      replace (map _ (rolled env e)) with (flat_map (fun x => match x with Some sa => [Some sa] | None => [None] end) (map (option_map (fun x => (line_state n x s, LiveConstants))) (rolled env e))).
      + apply (runs_bind _ _ (roll_line R t) _ (fun sd => [Some sd]) s _ L). intros s' d _. apply runs_ret.
      + rewrite flat_map_concat_map, map_map. clear. induction (rolled env e) as [|[x|] l IH]; cbn; [reflexivity| |]; now rewrite IH.
    - change (final_runs env s ((n, e) :: l2 :: p)) with
        (flat_map (fun x => match x with Some x => final_runs (bind_value env n x) (line_state n x s) (l2 :: p) | None => [None] end) (rolled env e)).
      set (q := l2 :: p) in *.
      pose (g := fun sd : state * const_dict => match dget text_eqb (st_const (fst sd)) stdout with
        Some x => final_runs (bind_value env n x) (line_state n x s) q | None => [] end).
      assert (G : forall x d, g (line_state n x s, d) = final_runs (bind_value env n x) (line_state n x s) q).
      { intros x d. unfold g. cbn [fst line_state]. unfold line_state at 1, set_stdout_const. cbn [st_const]. now rewrite (dget_dset_same text_eqb text_eqb_iff). }
      replace (flat_map _ (rolled env e)) with (flat_map (fun x => match x with Some sd => g sd | None => [None] end)
        (map (option_map (fun x => (line_state n x s, LiveConstants))) (rolled env e))).
      2: { rewrite !flat_map_concat_map, map_map. f_equal. apply map_ext. intros [x|]; cbn [option_map]; [apply G | reflexivity]. }
      apply (runs_bind _ _ (roll_line R t) _ g s _ L). intros s' d Hs. apply in_map_iff in Hs. destruct Hs as [[x|] [E Hx]]; [|discriminate]. injection E as <- <-.
      rewrite G. eapply IH; eauto.
      + discriminate.
      + now apply agree_line.
      + intros n' e' H'. apply HW. now right.
      + intros m Hm. apply HR. unfold program_dice in *. cbn [flat_map]. apply in_or_app. now right.
  Qed.

  Lemma final_values : forall p env s,
    map (option_map (fun sd => dget text_eqb (read_dict R (fst sd) (snd sd)) stdout)) (final_runs env s p) = map (option_map Some) (rolled_program env p).
  Proof.
    induction p as [|[n e] p IH]; intros env s; [reflexivity|]. destruct p as [|l2 p].
    - cbn [final_runs rolled_program]. rewrite map_map. apply map_ext. intros [x|]; [|reflexivity]. cbn [option_map fst snd read_dict]. f_equal.
      unfold line_state, set_stdout_const. cbn [st_const]. apply (dget_dset_same text_eqb text_eqb_iff).
    - change (final_runs env s ((n, e) :: l2 :: p)) with
        (flat_map (fun x => match x with Some x => final_runs (bind_value env n x) (line_state n x s) (l2 :: p) | None => [None] end) (rolled env e)).
      change (rolled_program env ((n, e) :: l2 :: p)) with
        (flat_map (fun x => match x with Some x => rolled_program (bind_value env n x) (l2 :: p) | None => [None] end) (rolled env e)).
      rewrite !flat_map_concat_map, !concat_map, !map_map. f_equal. apply map_ext. intros [x|]; [apply IH | reflexivity].
  Qed.

  (** ** roll() *)
  Notation value_of := (fun sd : state * const_dict => dget text_eqb (read_dict R (fst sd) (snd sd)) stdout).

  Lemma program_runs : forall p lines s, program_text lines p -> runnable p -> drawable p ->
    exists l, runs_as (roll R lines s) l /\ map (option_map value_of) l = map (option_map Some) (rolled_program no_values p).
  Proof.
    intros p lines s HT [Hp [HC HW]] HR. exists (final_runs no_values s p). split; [|apply final_values].
    apply (roll_runs p lines [] no_values s EmptyDict Hp HT HC); auto. intros n [].
  Qed.

  Lemma can_roll_iff : forall p lines s v, program_text lines p -> runnable p -> drawable p ->
    (can_roll R s lines v <-> In (Some v) (rolled_program no_values p)).
  Proof.
    intros p lines s v HT HP HR. destruct (program_runs p lines s HT HP HR) as [l [[_ [H2 _]] E]].
    assert (K : In (Some v) (rolled_program no_values p) <-> In (Some (Some v)) (map (option_map value_of) l)).
    { rewrite E. rewrite in_map_iff. split; [intros H; exists (Some v); auto | intros [[x|] [X H]]; [injection X as ->; auto | discriminate]]. }
    rewrite K, in_map_iff. unfold can_roll. split.
    - intros [w [[s' [d|x]] [Hr [W O]]]]; [|discriminate]. exists (Some (s', d)). split; [cbn in *; now rewrite O|]. apply H2. exists w, (s', Ok d). auto.
    - intros [[[s' d]|] [X H]]; [|discriminate]. apply H2 in H. destruct H as [w [[s1 [d1|y]] [Hr [W O]]]]; [|discriminate]. injection O as -> ->.
      exists w, (s', Ok d). split; auto. split; auto. cbn in *. congruence.
  Qed.

  Lemma can_raise_iff : forall p lines s x, program_text lines p -> runnable p -> drawable p ->
    (can_raise R s lines x <-> x = ZeroDivisionError /\ In None (rolled_program no_values p)).
  Proof.
    intros p lines s x HT HP HR. destruct (program_runs p lines s HT HP HR) as [l [[_ [H2 H3]] E]].
    assert (K : In None (rolled_program no_values p) <-> In None l).
    { transitivity (In None (map (option_map value_of) l)).
      - rewrite E, in_map_iff. split; [intros H; exists None; auto | intros [[y|] [X H]]; [discriminate | auto]].
      - rewrite in_map_iff. split; [intros [[y|] [X H]]; [discriminate | auto] | intros H; exists None; auto]. }
    rewrite K. unfold can_raise. split.
    - intros [w [s' [Hr W]]]. split; [eapply H3; eauto|]. apply H2. exists w, (s', Raise x). auto.
    - intros [-> H]. apply H2 in H. destruct H as [w [[s' [d|y]] [Hr [W O]]]]; [discriminate|]. exists w, s'. split; auto. now rewrite <- (H3 w s' y Hr W).
  Qed.

  Lemma roll_weight_is : forall p lines s v, program_text lines p -> runnable p -> drawable p ->
    roll_weight R s lines v = occurrences v (rolled_program no_values p).
  Proof.
    intros p lines s v HT HP HR. destruct (program_runs p lines s HT HP HR) as [l [[H1 _] E]].
    set (F := fun sd : state * const_dict => match value_of sd with Some x => if x =? v then 1 else 0 | None => 0 end).
    transitivity (lsum (run_value F) (roll R lines s)).
    - unfold roll_weight. clear. induction (roll R lines s) as [|[w [s' [d|x]]] runs IH]; [reflexivity| |]; rewrite lsum_cons; cbn [filter snd stdout_of run_value].
      + unfold F at 1. cbn [fst snd]. destruct (dget text_eqb (read_dict R s' d) stdout) as [x|]; [destruct (x =? v)|]; cbn [map fst]; rewrite ?zsum_cons, IH; lia.
      + rewrite IH. lia.
    - rewrite H1, occurrences_lsum. transitivity (lsum (ofo (fun o => match o with Some x => if x =? v then 1 else 0 | None => 0 end)) (map (option_map value_of) l)).
      + rewrite lsum_map. apply lsum_ext. intros [sd|] _; reflexivity.
      + rewrite E, lsum_map. apply lsum_ext. intros [x|] _; reflexivity.
  Qed.

  Lemma roll_total_is : forall p lines s, program_text lines p -> runnable p -> drawable p -> ~ In None (rolled_program no_values p) ->
    roll_total R s lines = Z.of_nat (length (rolled_program no_values p)).
  Proof.
    intros p lines s HT HP HR HN. pose proof (can_raise_iff p lines s) as CR. destruct (program_runs p lines s HT HP HR) as [l [[H1 _] E]].
    assert (L : length (rolled_program no_values p) = length l) by (apply (f_equal (@length _)) in E; rewrite !map_length in E; auto).
    rewrite L. assert (N : ~ In None l).
    { intros H. apply HN. assert (K : In None (map (option_map value_of) l)) by (apply in_map_iff; exists None; auto). rewrite E, in_map_iff in K.
      destruct K as [[y|] [X K]]; [discriminate | auto]. }
    transitivity (lsum (run_value (fun _ => 1)) (roll R lines s)).
    - unfold roll_total, lsum. apply zsum_map_ext_in. intros [w [s' [d|x]]] H; cbn [fst run_value]; [lia|].
      destruct (Z.eq_dec w 0) as [|W]; auto. exfalso. apply HN. apply (CR x); auto. exists w, s'. auto.
    - rewrite H1. clear - N. induction l as [|[x|] l IH]; [reflexivity| |].
      + rewrite lsum_cons, IH by (intros H; apply N; now right). cbn [ofo length]. lia.
      + exfalso. apply N. now left.
  Qed.
End Runs.
