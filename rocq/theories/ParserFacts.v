(** * ParserFacts: the LR parser of Parser.v accepts the grammar of SpecGrammar.v and groups as it says *)
From Verif Require Import Py PyFacts Regex Lexer DiceModel Expr Parser SpecGrammar.

Definition look (input : list token) : option tokname := match input with [] => None | t :: _ => Some (tk_name t) end.

(** ** The fuel *)
Fixpoint toks (st : stack) : nat :=
  match st with
  | [] => 0
  | (_, STok _) :: st' => S (toks st')
  | (_, SExp _) :: st' => toks st'
  end.

Lemma reduce_toks : forall st r st', reduce st = Some (r, st') -> (toks st' < toks st)%nat.
Proof.
  intros st r st' H. unfold reduce in H.
  repeat match type of H with
         | match ?x with _ => _ end = _ => destruct x; try discriminate
         end; inversion H; subst; simpl; lia.
Qed.

Definition size (st : stack) (input : list token) : nat := 2 * length input + toks st.

Lemma fuel_enough : forall f f' st input, (size st input < f)%nat -> (size st input < f')%nat ->
  lr_loop f st input = lr_loop f' st input.
Proof.
  induction f as [|f IH]; intros f' st input H H'; [lia|]. destruct f' as [|f']; [lia|].
  cbn [lr_loop]. fold (look input). destruct (lr_action (top_state st) (look input)) as [s| | |]; auto.
  - destruct input as [|t input]; auto. apply IH; unfold size in *; simpl in *; lia.
  - destruct (reduce st) as [[[e|x] st']|] eqn:E; auto. destruct (top_state st'); auto.
    apply reduce_toks in E. apply IH; unfold size in *; simpl in *; lia.
Qed.

(** ** Several steps of the parser *)
Definition leads (st : stack) (i : list token) (st' : stack) (i' : list token) : Prop :=
  exists n, forall f, lr_loop (n + f) st i = lr_loop f st' i'.

Lemma leads_trans : forall a i b j c k, leads a i b j -> leads b j c k -> leads a i c k.
Proof.
  intros a i b j c k [n H] [m H']. exists (n + m)%nat. intros f. now rewrite <- Nat.add_assoc, H, H'.
Qed.

Lemma leads_shift : forall st t i s, lr_action (top_state st) (Some (tk_name t)) = AShift s ->
  leads st (t :: i) ((s, STok t) :: st) i.
Proof. intros st t i s H. exists 1%nat. intros f. cbn [Nat.add lr_loop]. now rewrite H. Qed.

Lemma leads_reduce : forall st i e st' k, lr_action (top_state st) (look i) = AReduce -> reduce st = Some (Ok e, st') ->
  top_state st' = SCtx k -> leads st i ((SAfter k, SExp e) :: st') i.
Proof.
  intros st i e st' k H H1 H2. exists 1%nat. intros f. cbn [Nat.add lr_loop]. fold (look i). now rewrite H, H1, H2.
Qed.

Ltac shift := eapply leads_trans; [apply leads_shift|].

(** ** Completeness: a well grouped tree is found *)
Definition tight (i : infix) : nat :=
  match i with IAdd | ISub => 1 | IMul | IDiv => 2 | IBin => 3 end.
Definition node (i : infix) (o : token) (a b : expr) : expr :=
  match i with
  | IAdd => EAdd a b | ISub => ESub a b | IMul => EMul a b | IDiv => EDiv a b | IBin => EBin (tk_text o) a b
  end.

Lemma node_tight : forall i o a b, tightness (node i o a b) = Some (tight i).
Proof. destruct i; reflexivity. Qed.
Lemma node_open : forall i o a b, open_ended (node i o a b) = open_ended b.
Proof. destruct i; reflexivity. Qed.
Lemma node_grouped : forall i o a b, well_grouped (node i o a b) <->
  left_operand (tight i) a /\ right_operand (tight i) b /\ well_grouped a /\ well_grouped b.
Proof. destruct i; reflexivity. Qed.
Lemma node_derives : forall i o a ta b tb, tk_name o = infix_tok i -> derives a ta -> derives b tb ->
  derives (node i o a b) (ta ++ o :: tb).
Proof. destruct i; intros; constructor; auto. Qed.
Lemma infix_of_tok : forall i, infix_of (infix_tok i) = Some i.
Proof. destruct i; reflexivity. Qed.
Lemma infix_of_inv : forall t i, infix_of t = Some i -> t = infix_tok i.
Proof. destruct t; intros i H; inversion H; reflexivity. Qed.

Definition admits (k : ctx) (e : expr) : Prop :=
  match k with KInfix j => right_operand (tight j) e | _ => True end.
Definition follows (e : expr) (rest : list token) : Prop :=
  match rest with
  | [] => True
  | t :: _ => match infix_of (tk_name t) with
              | Some i => left_operand (tight i) e
              | None => tk_name t = T_CLOSE_PARENTHESIS \/ tk_name t = T_COMMA
              end
  end.

Lemma resolve_infix : forall j i s, resolve (infix_tok j) (infix_tok i) s = if (tight j <? tight i)%nat then AShift s else AReduce.
Proof. intros [] [] s; reflexivity. Qed.

Lemma default_only : forall k, default_reduction k = match k with KInfix IBin => true | _ => false end.
Proof. destruct k as [| | |[]| | | |]; reflexivity. Qed.

Lemma after_shift : forall k i e, admits k e -> tightness e = Some (tight i) ->
  lr_action (SAfter k) (Some (infix_tok i)) = AShift (SCtx (KInfix i)).
Proof.
  intros k i e A T. cbn [lr_action]. rewrite default_only. unfold after_action. rewrite infix_of_tok. destruct k as [| | |j| | | |]; cbn [complete_after]; auto.
  - destruct i; reflexivity.
  - rewrite resolve_infix. unfold admits, right_operand in A. rewrite T in A.
    assert (X : (tight i <= 3)%nat) by (destruct i; cbn; lia). destruct j; cbn [tight] in *; try lia; apply Nat.ltb_lt in A; now rewrite A.
  - destruct i; reflexivity.
Qed.

Lemma after_reduce : forall i o a b rest, follows (node i o a b) rest -> lr_action (SAfter (KInfix i)) (look rest) = AReduce.
Proof.
  intros i o a b [|t rest] F; [destruct i; reflexivity|]. unfold follows in F. cbn [look lr_action].
  destruct (default_reduction (KInfix i)); [reflexivity|]. unfold after_action.
  destruct (infix_of (tk_name t)) as [j|] eqn:E.
  - apply infix_of_inv in E. rewrite E. cbn [complete_after]. rewrite resolve_infix.
    destruct F as [_ F]. rewrite node_tight in F. apply Nat.ltb_ge in F. now rewrite F.
  - destruct F as [-> | ->]; reflexivity.
Qed.

Lemma prefix_reduce : forall k e rest, (k = KNot \/ k = KAssign) -> open_ended e = true -> follows e rest ->
  lr_action (SAfter k) (look rest) = AReduce.
Proof.
  intros k e [|t rest] K O F; [destruct K; subst; reflexivity|]. unfold follows in F. cbn [look lr_action]. rewrite default_only.
  unfold after_action. destruct (infix_of (tk_name t)) as [j|] eqn:E.
  - destruct F as [F _]. congruence.
  - destruct K; subst k; destruct F as [-> | ->]; reflexivity.
Qed.

Definition parses (e : expr) (ts : list token) : Prop :=
  forall k st rest, top_state st = SCtx k -> admits k e -> follows e rest ->
  leads st (ts ++ rest) ((SAfter k, SExp e) :: st) rest.

Lemma parses_infix : forall i o a ta b tb, tk_name o = infix_tok i -> well_grouped (node i o a b) ->
  parses a ta -> parses b tb -> parses (node i o a b) (ta ++ o :: tb).
Proof.
  intros i o a ta b tb N W Ha Hb k st rest T A F. apply node_grouped in W. destruct W as [L [Rt _]].
  rewrite <- app_assoc. cbn [app]. eapply leads_trans; [apply (Ha k); auto|].
  - destruct k; auto. cbn [admits] in *. unfold right_operand in *. rewrite node_tight in A.
    destruct L as [_ L]. destruct (tightness a); auto. lia.
  - unfold follows. now rewrite N, infix_of_tok.
  - shift; [rewrite N; eapply after_shift; [exact A | apply node_tight]|].
    eapply leads_trans; [apply (Hb (KInfix i)); auto|].
    + destruct rest as [|t rest]; auto. unfold follows in *. destruct (infix_of (tk_name t)) as [j|]; auto.
      destruct F as [F1 F2]. rewrite node_open in F1. rewrite node_tight in F2. split; auto.
      unfold right_operand in Rt. destruct (tightness b); auto. lia.
    + eapply leads_reduce; [eapply after_reduce; eauto| |exact T]. destruct i; reflexivity.
Qed.

Ltac leaf n :=
  let k := fresh in let st := fresh in let rest := fresh in let T := fresh in
  intros k st rest T _ _; cbn [app]; eapply leads_trans; [apply leads_shift with (s := SLeaf n); rewrite T;
    match goal with H : named _ _ |- _ => rewrite H end; reflexivity|];
  eapply leads_reduce; [reflexivity| |exact T].

Lemma complete : forall e ts, derives e ts -> well_grouped e -> parses e ts.
Proof.
  induction 1 as [o e ts c No D IH Nc | n e ts Nn D IH | t d N M | t d N M | t N | t N
    | a ta o b tb Da IHa No Db IHb | a ta o b tb Da IHa No Db IHb | a ta o b tb Da IHa No Db IHb | a ta o b tb Da IHa No Db IHb
    | a ta o b tb Da IHa No Db IHb
    | m o a ta k0 b tb c Nm No Da IHa Nk Db IHb Nc | m o e ts c Nm No D IH Nc | v n q e ts Nv Nn Nq D IH | t N]; intros W.
  - (* parentheses *) intros k st rest T _ _. cbn [app]. rewrite <- app_assoc.
    shift; [rewrite T, No; reflexivity|].
    eapply leads_trans; [apply (IH W KParen); cbn; auto|].
    + rewrite Nc; cbn; auto.
    + cbn [app]. shift; [rewrite Nc; reflexivity|].
      eapply leads_reduce; [reflexivity | reflexivity | exact T].
  - (* not *) intros k st rest T _ F. cbn [app].
    shift; [rewrite T, Nn; reflexivity|].
    eapply leads_trans; [apply (IH W KNot); cbn; auto|].
    + destruct rest as [|t rest]; auto. cbn in *. destruct (infix_of (tk_name t)); auto. destruct F; discriminate.
    + eapply leads_reduce; [eapply (prefix_reduce KNot); [auto | | exact F]; reflexivity | reflexivity | exact T].
  - leaf T_DROP_KEEP_DICE. unfold reduce. rewrite M. reflexivity.
  - leaf T_DICE. unfold reduce. rewrite M. reflexivity.
  - leaf T_CONSTANT_INTEGER. reflexivity.
  - leaf T_CONSTANT_BINARY. reflexivity.
  - destruct W as [? [? [? ?]]]. apply (parses_infix IAdd); auto. repeat split; auto; apply H.
  - destruct W as [? [? [? ?]]]. apply (parses_infix ISub); auto. repeat split; auto; apply H.
  - destruct W as [? [? [? ?]]]. apply (parses_infix IMul); auto. repeat split; auto; apply H.
  - destruct W as [? [? [? ?]]]. apply (parses_infix IDiv); auto. repeat split; auto; apply H.
  - destruct W as [? [? [? ?]]]. apply (parses_infix IBin); auto. repeat split; auto; apply H.
  - (* MIN, MAX *) intros k st rest T _ _. cbn [app]. rewrite <- app_assoc. cbn [app]. rewrite <- app_assoc. cbn [app].
    destruct W as [Wa Wb].
    shift; [rewrite T, Nm; reflexivity|]. shift; [rewrite No; reflexivity|].
    eapply leads_trans; [apply (IHa Wa KMinMax1); cbn; auto; rewrite Nk; cbn; auto|].
    shift; [rewrite Nk; reflexivity|].
    eapply leads_trans; [apply (IHb Wb KMinMax2); cbn; auto; rewrite Nc; cbn; auto|].
    shift; [rewrite Nc; reflexivity|].
    eapply leads_reduce; [reflexivity | reflexivity | exact T].
  - (* ABS *) intros k st rest T _ _. cbn [app]. rewrite <- app_assoc. cbn [app].
    shift; [rewrite T, Nm; reflexivity|]. shift; [rewrite No; reflexivity|].
    eapply leads_trans; [apply (IH W KAbs); cbn; auto; rewrite Nc; cbn; auto|].
    shift; [rewrite Nc; reflexivity|].
    eapply leads_reduce; [reflexivity | reflexivity | exact T].
  - (* VAR *) intros k st rest T _ F. cbn [app].
    shift; [rewrite T, Nv; reflexivity|]. shift; [rewrite Nn; reflexivity|]. shift; [rewrite Nq; reflexivity|].
    eapply leads_trans; [apply (IH W KAssign); cbn; auto|].
    + destruct rest as [|t rest]; auto. cbn in *. destruct (infix_of (tk_name t)); auto. destruct F; discriminate.
    + eapply leads_reduce; [eapply (prefix_reduce KAssign (EAssign (tk_text n) e)); [auto | reflexivity | exact F] | reflexivity | exact T].
  - leaf T_NAME. reflexivity.
Qed.

Lemma parse_complete : forall e ts, derives e ts -> well_grouped e -> parse_tokens ts = Parsed e.
Proof.
  intros e ts D W. destruct (complete e ts D W KStart [] []) as [n H]; cbn; auto. rewrite app_nil_r in H.
  unfold parse_tokens. rewrite (fuel_enough _ (n + (2 * length ts + 2))).
  - rewrite H. now rewrite Nat.add_comm.
  - unfold size. simpl. lia.
  - unfold size. simpl. lia.
Qed.

(** ** Every derivable sequence has a well grouped tree *)

(** [insert i o a b]: the tree of "a o b" when the top of [b] binds tighter than [i] (or is no infix operator) *)
Fixpoint insert (i : infix) (o : token) (a b : expr) : expr :=
  match a with
  | ENot e => ENot (insert i o e b)
  | EAssign n e => EAssign n (insert i o e b)
  | EAdd x y => if open_ended y || (1 <? tight i)%nat then EAdd x (insert i o y b) else node i o a b
  | ESub x y => if open_ended y || (1 <? tight i)%nat then ESub x (insert i o y b) else node i o a b
  | EMul x y => if open_ended y || (2 <? tight i)%nat then EMul x (insert i o y b) else node i o a b
  | EDiv x y => if open_ended y || (2 <? tight i)%nat then EDiv x (insert i o y b) else node i o a b
  | EBin p x y => if open_ended y || (3 <? tight i)%nat then EBin p x (insert i o y b) else node i o a b
  | _ => node i o a b
  end.

Lemma insert_tight : forall i o b a, (open_ended a = true -> tightness (insert i o a b) = tightness a) /\
  (open_ended a = false -> match tightness (insert i o a b) with
                           | Some m => m = tight i \/ (m < tight i)%nat /\ tightness a = Some m
                           | None => False end).
Proof.
  intros i o b a. destruct a; cbn [insert open_ended]; (split; intros O; try discriminate);
    rewrite ?O, ?node_tight; cbn [orb tightness]; auto;
    match goal with |- context [if ?x then _ else _] => destruct x eqn:L end; rewrite ?node_tight; cbn [tightness]; auto;
    right; split; auto; apply Nat.ltb_lt in L; auto.
Qed.

Lemma insert_grouped : forall i o b, well_grouped b -> right_operand (tight i) b -> forall a, well_grouped a ->
  well_grouped (insert i o a b).
Proof.
  intros i o b Wb Rb.
  assert (N : forall a, well_grouped a -> left_operand (tight i) a -> well_grouped (node i o a b)) by (intros; apply node_grouped; auto).
  assert (St : forall n y, right_operand n y -> (open_ended y || (n <? tight i)%nat = true) -> right_operand n (insert i o y b)).
  { intros n y Hy H. unfold right_operand in *. destruct (insert_tight i o b y) as [T1 T2].
    destruct (open_ended y); [rewrite T1; auto|]. cbn [orb] in H. apply Nat.ltb_lt in H.
    specialize (T2 eq_refl). destruct (tightness (insert i o y b)); auto. destruct T2 as [->|[_ T2]]; auto. now rewrite T2 in Hy. }
  assert (Lf : forall n y a, tightness a = Some n -> open_ended a = open_ended y -> open_ended y || (n <? tight i)%nat = false -> left_operand (tight i) a).
  { intros n y a T O H. apply orb_false_iff in H. destruct H as [H1 H2]. apply Nat.ltb_ge in H2. split; [congruence|]. now rewrite T. }
  induction a; intros W; cbn [insert];
    try (apply N; [exact W | split; [reflexivity|exact I]]);
    try (cbn [well_grouped] in *; apply IHa; exact W);
    try (pose proof W as [W1 [W2 [W3 W4]]];
         match goal with |- context [if ?x then _ else _] => destruct x eqn:L end;
         [cbn [well_grouped]; repeat split; auto; apply W1 | apply N; [exact W | eapply Lf; eauto; reflexivity]]).
Qed.

Lemma insert_derives : forall i o b tb, tk_name o = infix_tok i -> derives b tb -> forall a ta, derives a ta ->
  derives (insert i o a b) (ta ++ o :: tb).
Proof.
  intros i o b tb N Db. induction 1; cbn [insert];
    try (match goal with |- context [if ?x then _ else _] => destruct x end);
    try (apply node_derives; auto; constructor; auto; fail);
    try (rewrite <- app_assoc; cbn [app]; constructor; auto; fail);
    try (cbn [app]; constructor; auto; fail).
Qed.

Lemma attach_infix : forall j o' b1 t1 b2 t2, tk_name o' = infix_tok j -> derives b1 t1 -> derives b2 t2 ->
  (well_grouped b1 -> forall i o a ta, tk_name o = infix_tok i -> derives a ta -> well_grouped a ->
   exists e, well_grouped e /\ derives e (ta ++ o :: t1)) ->
  well_grouped (node j o' b1 b2) -> forall i o a ta, tk_name o = infix_tok i -> derives a ta -> well_grouped a ->
  exists e, well_grouped e /\ derives e (ta ++ o :: t1 ++ o' :: t2).
Proof.
  intros j o' b1 t1 b2 t2 N' D1 D2 IH W i o a ta N Da Wa. destruct (tight i <? tight j)%nat eqn:L.
  - exists (insert i o a (node j o' b1 b2)). split.
    + apply insert_grouped; auto. unfold right_operand. rewrite node_tight. now apply Nat.ltb_lt.
    + apply insert_derives; auto. now apply node_derives.
  - apply node_grouped in W. destruct W as [_ [Rt [W1 W2]]].
    destruct (IH W1 i o a ta N Da Wa) as [e [We De]]. exists (insert j o' e b2). split.
    + apply insert_grouped; auto.
    + replace (ta ++ o :: t1 ++ o' :: t2) with ((ta ++ o :: t1) ++ o' :: t2) by (now rewrite <- app_assoc).
      apply insert_derives; auto.
Qed.

Lemma attach : forall b tb, derives b tb -> well_grouped b -> forall i o a ta, tk_name o = infix_tok i -> derives a ta ->
  well_grouped a -> exists e, well_grouped e /\ derives e (ta ++ o :: tb).
Proof.
  induction 1; intros W i o' a' ta' N' Da Wa;
    try (match goal with
         | |- exists e, _ /\ derives e (_ ++ _ :: ?t) =>
             match goal with
             | W : well_grouped ?b |- _ => exists (insert i o' a' b); split;
                 [apply insert_grouped; auto; exact I | apply insert_derives; auto; constructor; auto]
             end
         end; fail).
  - eapply (attach_infix IAdd); eauto.
  - eapply (attach_infix ISub); eauto.
  - eapply (attach_infix IMul); eauto.
  - eapply (attach_infix IDiv); eauto.
  - eapply (attach_infix IBin); eauto.
Qed.

Lemma grouped_exists : forall e ts, derives e ts -> exists e', well_grouped e' /\ derives e' ts.
Proof.
  induction 1;
    repeat match goal with IH : exists e', _ /\ _ |- _ => destruct IH as [? [? ?]] end;
    try (eapply (attach _ _ ltac:(eassumption) ltac:(assumption) IAdd); eauto; fail);
    try (eapply (attach _ _ ltac:(eassumption) ltac:(assumption) ISub); eauto; fail);
    try (eapply (attach _ _ ltac:(eassumption) ltac:(assumption) IMul); eauto; fail);
    try (eapply (attach _ _ ltac:(eassumption) ltac:(assumption) IDiv); eauto; fail);
    try (eapply (attach _ _ ltac:(eassumption) ltac:(assumption) IBin); eauto; fail).
  - eexists. split; [|constructor; eauto]. auto.
  - eexists. split; [|constructor; eauto]. auto.
  - eexists. split; [|apply dv_dropkeep; eauto]. exact I.
  - eexists. split; [|apply dv_dice; eauto]. exact I.
  - eexists. split; [|apply dv_int; eauto]. exact I.
  - eexists. split; [|apply dv_bool; eauto]. exact I.
  - eexists. split; [|apply dv_minmax; eauto]. split; auto.
  - eexists. split; [|apply dv_abs; eauto]. auto.
  - eexists. split; [|apply dv_assign; eauto]. auto.
  - eexists. split; [|apply dv_var; eauto]. exact I.
Qed.

(** ** Soundness *)

(** The transitions of the automaton *)
Inductive goes : lrstate -> symbol -> lrstate -> Prop :=
| go_exp : forall k e, goes (SCtx k) (SExp e) (SAfter k)
| go_open : forall k t, named T_OPEN_PARENTHESIS t -> goes (SCtx k) (STok t) (SCtx KParen)
| go_not : forall k t, named T_NOT t -> goes (SCtx k) (STok t) (SCtx KNot)
| go_minmax : forall k t, named T_MINMAX t -> goes (SCtx k) (STok t) SMinMax
| go_abs : forall k t, named T_ABS t -> goes (SCtx k) (STok t) SAbs
| go_var : forall k t, named T_VAR t -> goes (SCtx k) (STok t) SVar
| go_leaf : forall k n t, In n [T_DROP_KEEP_DICE; T_DICE; T_CONSTANT_INTEGER; T_CONSTANT_BINARY; T_NAME] -> named n t ->
    goes (SCtx k) (STok t) (SLeaf n)
| go_infix : forall k i t, named (infix_tok i) t -> goes (SAfter k) (STok t) (SCtx (KInfix i))
| go_close : forall k t, In k [KParen; KMinMax2; KAbs] -> named T_CLOSE_PARENTHESIS t -> goes (SAfter k) (STok t) (SClose k)
| go_comma : forall t, named T_COMMA t -> goes (SAfter KMinMax1) (STok t) (SCtx KMinMax2)
| go_minmax_open : forall t, named T_OPEN_PARENTHESIS t -> goes SMinMax (STok t) (SCtx KMinMax1)
| go_abs_open : forall t, named T_OPEN_PARENTHESIS t -> goes SAbs (STok t) (SCtx KAbs)
| go_name : forall t, named T_NAME t -> goes SVar (STok t) SVarName
| go_assign : forall t, named T_ASSIGNMENT t -> goes SVarName (STok t) (SCtx KAssign).

(** What a symbol stands for *)
Definition spells (x : symbol) (ts : list token) : Prop :=
  match x with STok t => ts = [t] | SExp e => derives e ts end.

(** A stack of the automaton, and the tokens it has consumed *)
Inductive valid : stack -> list token -> Prop :=
| valid_nil : valid [] []
| valid_cons : forall s x st ts ts', valid st ts -> goes (top_state st) x s -> spells x ts' -> valid ((s, x) :: st) (ts ++ ts').

Lemma resolve_shift : forall rt t s a, resolve rt t s = a -> a = AReduce \/ a = AShift s \/ a = AError.
Proof.
  intros rt t s a <-. unfold resolve. destruct (precedence rt) as [c l]. destruct (l <? _)%nat; auto. destruct (l =? _)%nat; auto.
  destruct c; auto.
Qed.

Lemma action_shift : forall s t s', lr_action s (Some (tk_name t)) = AShift s' -> goes s (STok t) s'.
Proof.
  intros s t s' H. destruct s as [k|k|n| | | | |k]; cbn [lr_action] in H.
  - unfold ctx_action in H. destruct (tk_name t) eqn:E; inversion H; subst; constructor; auto; simpl; tauto.
  - destruct (default_reduction k); [discriminate|]. unfold after_action in H. destruct (infix_of (tk_name t)) as [i|] eqn:E.
    + apply infix_of_inv in E.
      assert (X : AShift s' = AShift (SCtx (KInfix i))).
      { destruct (complete_after k); [|congruence]. apply resolve_shift in H. destruct H as [H|[H|H]]; congruence. }
      inversion X. constructor; auto.
    + destruct (tk_name t) eqn:E'; try discriminate; destruct k; inversion H; subst; constructor; simpl; auto.
  - discriminate.
  - destruct (tk_name t) eqn:E; inversion H; subst; constructor; auto.
  - destruct (tk_name t) eqn:E; inversion H; subst; constructor; auto.
  - destruct (tk_name t) eqn:E; inversion H; subst; constructor; auto.
  - destruct (tk_name t) eqn:E; inversion H; subst; constructor; auto.
  - discriminate.
Qed.

Lemma action_none : forall s, match lr_action s None with AShift _ => False | _ => True end.
Proof. destruct s as [k|k|n| | | | |k]; cbn; auto. destruct k as [| | |[]| | | |]; cbn; auto. Qed.

(** The states below an expression *)
Lemma valid_after : forall k x st ts, valid ((SAfter k, x) :: st) ts ->
  exists e t1 t2, x = SExp e /\ ts = t1 ++ t2 /\ valid st t1 /\ derives e t2 /\ top_state st = SCtx k.
Proof.
  intros k x st ts H. inversion H as [|? ? ? t1 t2 V G Sp]; subst. inversion G; subst. cbn in Sp. repeat eexists; eauto.
Qed.

Lemma valid_tok : forall s x st ts, valid ((s, x) :: st) ts -> (forall k, s <> SAfter k) ->
  exists t t1, x = STok t /\ ts = t1 ++ [t] /\ valid st t1 /\ goes (top_state st) (STok t) s.
Proof.
  intros s x st ts H N. inversion H as [|? ? ? t1 t2 V G Sp]; subst. destruct x as [t|e].
  - cbn in Sp. subst t2. repeat eexists; eauto.
  - inversion G; subst. exfalso. eapply N; eauto.
Qed.

Lemma top_after : forall st k, top_state st = SAfter k -> exists x st', st = (SAfter k, x) :: st'.
Proof. intros [|[s x] st] k H; cbn in H; [discriminate|]. subst. eauto. Qed.

Lemma top_tok : forall st s ts, valid st ts -> top_state st = s -> s <> SCtx KStart -> (forall k, s <> SAfter k) ->
  exists t t1 st', st = (s, STok t) :: st' /\ ts = t1 ++ [t] /\ valid st' t1 /\ goes (top_state st') (STok t) s.
Proof.
  intros [|[s' x] st] s ts V T N1 N2; cbn in T; [congruence|]. subst s'.
  destruct (valid_tok _ _ _ _ V N2) as [t [t1 [-> [-> [V' G]]]]]. repeat eexists; eauto.
Qed.

Ltac pop_tok :=
  match goal with
  | V : valid ?st ?ts, T : top_state ?st = ?s |- _ =>
      let t := fresh "t" in let t1 := fresh "u" in let st' := fresh "st" in let E := fresh in let V' := fresh "V" in let G := fresh "G" in
      destruct (top_tok st s ts V T ltac:(discriminate) ltac:(discriminate)) as [t [t1 [st' [-> [-> [V' G]]]]]]; clear V T
  end.
Ltac pop_exp :=
  match goal with
  | V : valid ?st ?ts, T : top_state ?st = SAfter ?k |- _ =>
      let x := fresh "x" in let st' := fresh "st" in let E := fresh in let V' := fresh "V" in let D := fresh "D" in
      let e := fresh "e" in let t1 := fresh "u" in let t2 := fresh "w" in let T' := fresh "T" in
      destruct (top_after st k T) as [x [st' ->]]; clear T;
      destruct (valid_after _ _ _ _ V) as [e [t1 [t2 [-> [-> [V' [D T']]]]]]]; clear V
  end.

(** States in which the parser reduces *)
Definition reducing (s : lrstate) : Prop :=
  match s with
  | SLeaf n => In n [T_DROP_KEEP_DICE; T_DICE; T_CONSTANT_INTEGER; T_CONSTANT_BINARY; T_NAME]
  | SClose k => In k [KParen; KMinMax2; KAbs]
  | SAfter (KNot | KInfix _ | KAssign) => True
  | _ => False
  end.

Lemma action_reduce : forall s la, (match s with SLeaf _ | SClose _ => reducing s | _ => True end) -> lr_action s la = AReduce -> reducing s.
Proof.
  intros s la P H. destruct s as [k|k|n| | | | |k]; cbn [lr_action] in H; auto; try (destruct la as [[]|]; discriminate).
  rewrite default_only in H. unfold after_action in H. destruct k as [| | |j| | | |]; cbn [reducing]; auto; destruct la as [t|]; try discriminate H.
  all: destruct (infix_of t); [discriminate|destruct t; discriminate]. Qed.

Ltac invert :=
  match goal with G : goes _ _ _ |- _ => inversion G; subst; clear G end; repeat match goal with H : _ = top_state _ |- _ => symmetry in H end.
Ltac built :=
  do 5 eexists; split; [reflexivity|]; split; [eassumption|]; split; [eassumption|];
  split; [econstructor; eassumption | rewrite <- ?app_assoc; reflexivity].

(** Reducing builds a derived expression, or the production function of a die raises *)
Lemma reduce_sound : forall st ts, valid st ts -> reducing (top_state st) ->
  (exists e st' k t1 t2, reduce st = Some (Ok e, st') /\ valid st' t1 /\ top_state st' = SCtx k /\ derives e t2 /\ ts = t1 ++ t2) \/
  (exists x t st', reduce st = Some (Raise x, st') /\ In t ts /\
     (named T_DICE t /\ mk_dice (tk_text t) = Raise x \/ named T_DROP_KEEP_DICE t /\ mk_dropkeep (tk_text t) = Raise x)).
Proof.
  intros st ts V Rd. destruct (top_state st) as [k|k|n| | | | |k] eqn:T; try solve [destruct Rd]; cbn [reducing] in Rd.
  - destruct k as [| | |i| | | |]; try solve [destruct Rd].
    + (* NOT *) pop_exp. pop_tok. invert. left. built.
    + (* infix *) pop_exp. pop_tok. invert. pop_exp. left. destruct i; built.
    + (* VAR *) pop_exp. pop_tok. invert. pop_tok. invert. pop_tok. invert. left. built.
  - (* leaves *) pop_tok. invert. simpl in Rd. destruct Rd as [<-|[<-|[<-|[<-|[<-|[]]]]]].
    + destruct (mk_dropkeep (tk_text t)) as [d|x] eqn:M.
      * left. do 5 eexists. split; [unfold reduce; rewrite M; reflexivity|]. split; [eassumption|]. split; [eassumption|].
        split; [eapply dv_dropkeep; eauto|reflexivity].
      * right. exists x, t. eexists. unfold reduce. rewrite M. repeat split; auto. apply in_or_app. simpl. auto.
    + destruct (mk_dice (tk_text t)) as [d|x] eqn:M.
      * left. do 5 eexists. split; [unfold reduce; rewrite M; reflexivity|]. split; [eassumption|]. split; [eassumption|].
        split; [eapply dv_dice; eauto|reflexivity].
      * right. exists x, t. eexists. unfold reduce. rewrite M. repeat split; auto. apply in_or_app. simpl. auto.
    + left. built.
    + left. built.
    + left. built.
  - (* closing parentheses *) pop_tok. invert. pop_exp. left. simpl in Rd. destruct Rd as [<-|[<-|[<-|[]]]].
    + pop_tok. invert. built.
    + pop_tok. invert. pop_exp. pop_tok. invert. pop_tok. invert. built.
    + pop_tok. invert. pop_tok. invert. built.
Qed.

(** What the parser can return *)
Definition sound_result (ts : list token) (r : parse_result) : Prop :=
  match r with
  | Parsed e => derives e ts
  | ParseError _ => True
  | ParseRaise x => exists t, In t ts /\
      (named T_DICE t /\ mk_dice (tk_text t) = Raise x \/ named T_DROP_KEEP_DICE t /\ mk_dropkeep (tk_text t) = Raise x)
  end.

Lemma valid_reducing : forall st ts, valid st ts -> match top_state st with SLeaf _ | SClose _ => reducing (top_state st) | _ => True end.
Proof.
  intros st ts V. destruct (top_state st) eqn:T; auto; pop_tok; inversion G; subst; auto.
Qed.

Lemma loop_sound : forall f st ts i, valid st ts -> (size st i < f)%nat -> sound_result (ts ++ i) (lr_loop f st i).
Proof.
  induction f as [|f IH]; intros st ts i V L; [lia|]. cbn [lr_loop]. fold (look i).
  destruct (lr_action (top_state st) (look i)) as [s| | |] eqn:A.
  - destruct i as [|t i].
    + cbn [look] in A. pose proof (action_none (top_state st)) as N. rewrite A in N. destruct N.
    + cbn [look] in A. apply action_shift in A. replace (ts ++ t :: i) with ((ts ++ [t]) ++ i) by (now rewrite <- app_assoc).
      apply IH; [econstructor; eauto; reflexivity|]. unfold size in *; simpl in *; lia.
  - apply action_reduce in A; [|eapply valid_reducing; eauto].
    destruct (reduce_sound st ts V A) as [[e [st' [k [t1 [t2 [Rd [V' [T [D ->]]]]]]]]]|[x [t [st' [Rd [I P]]]]]].
    + rewrite Rd, T. apply IH.
      * econstructor; eauto. rewrite T. constructor.
      * apply reduce_toks in Rd. unfold size in *; simpl in *; lia.
    + rewrite Rd. exists t. split; auto. apply in_or_app; auto.
  - destruct (top_state st) as [k|k|n| | | | |k] eqn:T; cbn [lr_action] in A;
      try (destruct i as [|[[] ?] ?]; discriminate).
    rewrite default_only in A. destruct i as [|t i].
    + destruct k as [| | |[]| | | |]; try discriminate. pop_exp. cbn [sound_result]. rewrite app_nil_r.
      match goal with V : valid ?s _, T : top_state ?s = _ |- _ => destruct s as [|[s' x'] s'']; [inversion V; subst; auto|]; cbn in T; subst s'; inversion V as [|? ? ? ? ? ? G]; subst; inversion G end.
    + cbn [look] in A. destruct (match k with KInfix IBin => true | _ => false end); [discriminate|]. unfold after_action in A.
      destruct (infix_of (tk_name t)) as [j|].
      * destruct (complete_after k); [|discriminate]. apply resolve_shift in A. destruct A as [A|[A|A]]; discriminate.
      * destruct (tk_name t); try discriminate; destruct k; discriminate.
  - exact I.
Qed.

Lemma parse_sound : forall ts, sound_result ts (parse_tokens ts).
Proof. intros ts. apply (loop_sound _ [] [] ts); [constructor | unfold size; simpl; lia]. Qed.

(** ** C41 and C42 on token sequences *)
Lemma parsed_iff : forall ts e, parse_tokens ts = Parsed e <-> derives e ts /\ well_grouped e.
Proof.
  intros ts e. split.
  - intros P. pose proof (parse_sound ts) as S. rewrite P in S. cbn in S. split; auto.
    destruct (grouped_exists e ts S) as [e' [W D]]. rewrite (parse_complete e' ts D W) in P. inversion P. now subst.
  - intros [D W]. now apply parse_complete.
Qed.

Lemma derivable_parses : forall ts, (exists e, derives e ts) <-> exists e, parse_tokens ts = Parsed e.
Proof.
  intros ts. split.
  - intros [e D]. destruct (grouped_exists e ts D) as [e' [W D']]. exists e'. now apply parse_complete.
  - intros [e P]. exists e. apply parsed_iff in P. tauto.
Qed.

Lemma tree_unique : forall ts e e', derives e ts -> well_grouped e -> derives e' ts -> well_grouped e' -> e = e'.
Proof.
  intros ts e e' D W D' W'. apply parse_complete in D; auto. apply parse_complete in D'; auto. congruence.
Qed.
