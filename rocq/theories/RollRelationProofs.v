(** * RollRelationProofs: C83 *)
From Verif Require Import Checks StateFacts Py PyFacts PyFloat Constraint Distribution DistFacts DiceModel Expr Parser Interp Instances SpecDice DiceFacts DiceProofs SpecProgram SpecRoll
  SpecInterp ExprFacts ProgramFacts JointFacts RollFacts RollProofs SpecCost BetterProofs SpecSplit SplitProofs SpecRollRelation.
Local Open Scope Z_scope.

Lemma rolled_operation : forall env E a b v, operands E = Some (a, b) ->
  lsum (fo (fun w => if w =? v then 1 else 0)) (rolled env E) = lsum (fo (fun x => lsum (fo (fun y => if roll_gives E x y v then 1 else 0)) (rolled env b))) (rolled env a).
Proof.
  intros env E a b v H. destruct E; try discriminate; cbn [operands] in H; injection H as <- <-; cbn [rolled]; rewrite lsum_both; apply lsum_fo_ext; intros x; apply lsum_fo_ext; intros y;
    unfold roll_gives, roll_combined, combined, meaning; try reflexivity.
  - now destruct (y =? 0).
  - now destruct (roll_operator _).
  - now destruct (minmax_meaning _).
Qed.
Lemma paths_sum : forall A (K : A -> (text -> option Z) -> Z) l q env, lsum (fun i => paths q env (K i)) l = paths q env (fun en => lsum (fun i => K i en) l).
Proof.
  intros A K l. induction q as [|[n f] q IH]; intros env; cbn [paths]; [reflexivity|]. rewrite lsum_swap. apply lsum_ext. intros [x|] _; cbn [fo]; [apply IH | apply lsum_zero].
Qed.
Lemma paths_scale : forall c K q env, c * paths q env K = paths q env (fun en => c * K en).
Proof.
  intros c K. induction q as [|[n f] q IH]; intros env; cbn [paths]; [reflexivity|]. rewrite <- lsum_scale. apply lsum_ext. intros [x|] _; cbn [fo]; [apply IH | lia].
Qed.
Lemma paths_nonneg : forall K q env, (forall en, 0 <= K en) -> 0 <= paths q env K.
Proof. intros K. induction q as [|[n f] q IH]; intros env H; cbn [paths]; [apply H|]. apply lsum_nonneg. intros [x|] _; cbn [fo]; [now apply IH | lia]. Qed.

Section Rolls.
  Context (R : Runtime).
  Lemma weight_paths : forall q a b E s lines v, rolls_operation q a b E lines -> roll_weight R s lines v =
    paths q no_values (fun en => lsum (fo (fun x => lsum (fo (fun y => if roll_gives E x y v then 1 else 0)) (rolled en b))) (rolled en a)).
  Proof.
    intros q a b E s lines v [O [Rn [D T]]]. destruct (roll_semantics R s lines _ T Rn D) as [_ [W _]]. rewrite W, occurrences_lsum, paths_program by discriminate.
    apply paths_ext. intros en _. cbn [rolled_program]. now apply rolled_operation.
  Qed.
  Lemma weighed_paths : forall q a b l, events_of R q a b l -> weighed R l =
    paths q no_values (fun en => lsum (fo (fun x => lsum (fo (fun y => happening R l x y)) (rolled en b))) (rolled en a)).
  Proof.
    intros q a b l H. unfold weighed. fold (lsum (fun i => e_factor i * roll_weight R (e_state i) (e_lines i) (e_value i)) l).
    rewrite (lsum_ext _ _ (fun i => paths q no_values (fun en => e_factor i * lsum (fo (fun x => lsum (fo (fun y => if roll_gives (e_expr i) x y (e_value i) then 1 else 0)) (rolled en b))) (rolled en a)))).
    - rewrite paths_sum. apply paths_ext. intros en _.
      rewrite (lsum_ext _ _ (fun i => lsum (fo (fun x => lsum (fo (fun y => if roll_gives (e_expr i) x y (e_value i) then e_factor i else 0)) (rolled en b))) (rolled en a))).
      + rewrite lsum_swap. apply lsum_ext. intros [x|] _; cbn [fo]; [|apply lsum_zero]. rewrite lsum_swap. apply lsum_ext. intros [y|] _; cbn [fo]; [reflexivity | apply lsum_zero].
      + intros i _. rewrite <- lsum_scale. apply lsum_ext. intros [x|] _; cbn [fo]; [|lia]. rewrite <- lsum_scale. apply lsum_ext. intros [y|] _; cbn [fo]; [|lia].
        destruct (roll_gives _ _ _ _); lia.
    - intros i I. rewrite (weight_paths q a b (e_expr i)) by now apply H. apply paths_scale.
  Qed.
  Lemma roll_relation : forall q a b l, events_of R q a b l -> (forall x y, can_come_up a x -> can_come_up b y -> 0 <= happening R l x y) -> 0 <= weighed R l.
  Proof.
    intros q a b l H N. rewrite (weighed_paths q a b l H). apply paths_nonneg. intros en. apply lsum_nonneg. intros [x|] Ix; cbn [fo]; [|lia]. apply lsum_nonneg.
    intros [y|] Iy; cbn [fo]; [apply N; now exists en | lia].
  Qed.
  Lemma roll_relation_equal : forall q a b l, events_of R q a b l -> (forall x y, can_come_up a x -> can_come_up b y -> happening R l x y = 0) -> weighed R l = 0.
  Proof.
    intros q a b l H N. rewrite (weighed_paths q a b l H). rewrite (paths_ext _ _ _ (fun _ => 0)).
    - change (fun _ : text -> option Z => 0) with (fun en : text -> option Z => lsum (fun i : Z => 0) []). rewrite <- paths_sum. reflexivity.
    - intros en _. rewrite (lsum_ext _ _ (fun _ => 0)), lsum_zero; [reflexivity|]. intros [x|] Ix; cbn [fo]; [|reflexivity].
      rewrite (lsum_ext _ _ (fun _ => 0)), lsum_zero; [reflexivity|]. intros [y|] Iy; cbn [fo]; [apply N; now exists en | reflexivity].
  Qed.

  Local Ltac event c E v s lines := constr:({| e_factor := c; e_expr := E; e_value := v; e_state := s; e_lines := lines |} : event R).
  Local Ltac relate q a b l :=
    let H := fresh in assert (H : weighed R l = 0);
    [apply (roll_relation_equal q a b); [intros i I; cbn [In] in I; repeat (destruct I as [<-|I]; [assumption|]); destruct I|];
     let x := fresh in let y := fresh in intros x y ? ?; unfold happening; cbn [map e_expr e_value e_factor]; unfold roll_gives, roll_combined, combined; cbn -[Z.eqb Z.ltb Z.leb Z.gtb Z.geb zsum]
    |unfold weighed in H; cbn [map e_factor e_state e_lines e_value] in H; rewrite ?zsum_cons in H; change (zsum []) with 0 in H].
  Local Ltac compare_values := unfold truth; rewrite !zsum_cons; change (zsum []) with 0;
    repeat match goal with |- context[?x <? ?y] => destruct (Z.ltb_spec x y) | |- context[?x <=? ?y] => destruct (Z.leb_spec x y)
      | |- context[?x =? ?y] => is_var x; is_var y; destruct (Z.eqb_spec x y) end; cbn; lia.
  Lemma roll_compare : forall q a b s1 s2 s3 l1 l2 l3, rolls_operation q a b (EBin $"<" a b) l1 -> rolls_operation q a b (EBin $"==" a b) l2 -> rolls_operation q a b (EBin $">" a b) l3 ->
    roll_weight R s1 l1 1 + roll_weight R s2 l2 1 + roll_weight R s3 l3 1 = roll_weight R s1 l1 0 + roll_weight R s1 l1 1.
  Proof.
    intros q a b s1 s2 s3 l1 l2 l3 H1 H2 H3.
    let e1 := event 1 (EBin $"==" a b) 1 s2 l2 in let e2 := event 1 (EBin $">" a b) 1 s3 l3 in let e3 := event (-1) (EBin $"<" a b) 0 s1 l1 in relate q a b [e1; e2; e3].
    - compare_values.
    - lia.
  Qed.
  Lemma roll_compare_both : forall q a b s1 s2 s3 s4 s5 s6 l1 l2 l3 l4 l5 l6, rolls_operation q a b (EBin $"<" a b) l1 -> rolls_operation q a b (EBin $"==" a b) l2 ->
    rolls_operation q a b (EBin $">" a b) l3 -> rolls_operation q a b (EBin $"<=" a b) l4 -> rolls_operation q a b (EBin $">=" a b) l5 -> rolls_operation q a b (EBin $"!=" a b) l6 ->
    roll_weight R s4 l4 1 = roll_weight R s1 l1 1 + roll_weight R s2 l2 1 /\ roll_weight R s5 l5 1 = roll_weight R s3 l3 1 + roll_weight R s2 l2 1 /\
    roll_weight R s6 l6 1 = roll_weight R s1 l1 1 + roll_weight R s3 l3 1.
  Proof.
    intros q a b s1 s2 s3 s4 s5 s6 l1 l2 l3 l4 l5 l6 H1 H2 H3 H4 H5 H6. split; [|split].
    - let e1 := event 1 (EBin $"<" a b) 1 s1 l1 in let e2 := event 1 (EBin $"==" a b) 1 s2 l2 in let e3 := event (-1) (EBin $"<=" a b) 1 s4 l4 in relate q a b [e1; e2; e3]; [compare_values | lia].
    - let e1 := event 1 (EBin $">" a b) 1 s3 l3 in let e2 := event 1 (EBin $"==" a b) 1 s2 l2 in let e3 := event (-1) (EBin $">=" a b) 1 s5 l5 in relate q a b [e1; e2; e3]; [compare_values | lia].
    - let e1 := event 1 (EBin $"<" a b) 1 s1 l1 in let e2 := event 1 (EBin $">" a b) 1 s3 l3 in let e3 := event (-1) (EBin $"!=" a b) 1 s6 l6 in relate q a b [e1; e2; e3]; [compare_values | lia].
  Qed.
  Lemma roll_difference : forall q a b s1 s2 l1 l2, rolls_operation q a b (ESub a b) l1 -> rolls_operation q a b (EBin $"==" a b) l2 -> roll_weight R s1 l1 0 = roll_weight R s2 l2 1.
  Proof.
    intros q a b s1 s2 l1 l2 H1 H2. let e1 := event 1 (ESub a b) 0 s1 l1 in let e2 := event (-1) (EBin $"==" a b) 1 s2 l2 in relate q a b [e1; e2]; [|lia].
    unfold truth. rewrite !zsum_cons. change (zsum []) with 0. match goal with |- context[?x =? ?y] => match goal with |- context[x - y =? 0] => destruct (Z.eqb_spec x y), (Z.eqb_spec (x - y) 0) end end;
    cbn; lia.
  Qed.
  Lemma roll_and_or : forall q a b s1 s2 l1 l2, rolls_operation q a b (EBin $"AND" a b) l1 -> rolls_operation q a b (EBin $"OR" a b) l2 -> roll_weight R s1 l1 1 <= roll_weight R s2 l2 1.
  Proof.
    intros q a b s1 s2 l1 l2 H1 H2. let e1 := event 1 (EBin $"OR" a b) 1 s2 l2 in let e2 := event (-1) (EBin $"AND" a b) 1 s1 l1 in assert (H : 0 <= weighed R [e1; e2]).
    - apply (roll_relation q a b); [intros i I; cbn [In] in I; repeat (destruct I as [<-|I]; [assumption|]); destruct I|]. intros x y _ _. unfold happening. cbn [map e_expr e_value e_factor].
      unfold roll_gives, roll_combined, combined. cbn -[Z.eqb Z.land Z.lor zsum]. rewrite !zsum_cons. change (zsum []) with 0.
      destruct (Z.eqb_spec (Z.lor x y) 0) as [L|L].
      + apply Z.lor_eq_0_iff in L. destruct L as [-> ->]. discriminate.
      + destruct (Z.land x y =? 0); discriminate.
    - unfold weighed in H. cbn [map e_factor e_state e_lines e_value] in H. rewrite !zsum_cons in H. change (zsum []) with 0 in H. lia.
  Qed.
  Lemma roll_logic : forall q a b s1 s2 s3 l1 l2 l3, (forall x, can_come_up a x -> x = 0 \/ x = 1) -> (forall y, can_come_up b y -> y = 0 \/ y = 1) ->
    rolls_operation q a b (EBin $"AND" a b) l1 -> rolls_operation q a b (EBin $"OR" a b) l2 -> rolls_operation q a b (EAdd a b) l3 ->
    roll_weight R s1 l1 1 + roll_weight R s2 l2 1 = roll_weight R s3 l3 1 + 2 * roll_weight R s3 l3 2.
  Proof.
    intros q a b s1 s2 s3 l1 l2 l3 A B H1 H2 H3.
    let e1 := event 1 (EBin $"AND" a b) 1 s1 l1 in let e2 := event 1 (EBin $"OR" a b) 1 s2 l2 in let e3 := event (-1) (EAdd a b) 1 s3 l3 in let e4 := event (-2) (EAdd a b) 2 s3 l3 in
      assert (H : weighed R [e1; e2; e3; e4] = 0).
    - apply (roll_relation_equal q a b); [intros i I; cbn [In] in I; repeat (destruct I as [<-|I]; [assumption|]); destruct I|]. intros x y X Y.
      destruct (A x X) as [-> | ->], (B y Y) as [-> | ->]; vm_compute; reflexivity.
    - unfold weighed in H. cbn [map e_factor e_state e_lines e_value] in H. rewrite !zsum_cons in H. change (zsum []) with 0 in H. lia.
  Qed.
End Rolls.

(** ** For the examples *)
Lemma comparison_comes_up : forall op a b x, (text_eqb op $"==" || text_eqb op $"<=")%bool = true -> can_come_up (EParen (EBin op a b)) x -> x = 0 \/ x = 1.
Proof.
  intros op a b x O [env I]. cbn [rolled] in I. apply in_both in I. destruct I as [u [v [_ [_ I]]]]. apply Bool.orb_true_iff in O.
  destruct O as [O|O]; apply text_eqb_iff in O; subst op; cbn -[Z.eqb Z.leb] in I; injection I as <-; unfold truth; [destruct (u =? v) | destruct (u <=? v)]; auto.
Qed.
Ltac show_operation := match goal with |- rolls_operation ?q ?a ?b ?E ?lines =>
  let T := fresh in assert (T : program_text lines (q ++ [(None, E)])) by (apply program_of_text; vm_compute; reflexivity);
  split; [reflexivity|]; split; [exact (good_runnable _ (checked_good _ _ T ltac:(vm_compute; reflexivity)))|]; split; [apply drawableb_iff; vm_compute; reflexivity | exact T] end.
