(** * CallFacts: what calls change *)
From Verif Require Import Py PyFacts PyFloat Constraint Distribution DiceModel Expr Parser Interp SpecDice SpecProgram SpecInterp ConstraintFacts
  StateFacts WfFacts SpecRoll SpecCalls.

Section Facts.
  Context (R : Runtime).
  Notation state := (state R).

  (** ** Pieces *)
  Lemma wbind_assoc : forall A B C (m : W R A) (f : A -> W R B) (g : B -> W R C) s,
    wbind R (wbind R m f) g s = wbind R m (fun a => wbind R (f a) g) s.
  Proof.
    intros. unfold wbind. induction (m s) as [|[w [s1 [a|x]]] l IH]; [reflexivity| |]; cbn [flat_map].
    - rewrite flat_map_app, IH. f_equal. clear IH. induction (f a s1) as [|[w2 [s2 [b|x]]] l2 IH2]; [reflexivity| |]; cbn [flat_map map fst snd].
      + rewrite map_app, IH2. f_equal. rewrite map_map. apply map_ext. intros [w3 r3]. cbn [fst snd]. now rewrite Z.mul_assoc.
      + cbn [app map fst snd]. now rewrite IH2.
    - cbn [app flat_map]. now rewrite IH.
  Qed.

  Lemma wbind_ext : forall A B (m : W R A) (f g : A -> W R B) s, (forall a s, f a s = g a s) -> wbind R m f s = wbind R m g s.
  Proof.
    intros. unfold wbind. apply flat_map_ext. intros [w [s1 [a|x]]]; [|reflexivity]. now rewrite H.
  Qed.

  Lemma roll_from_app : forall l1 l2 d s, l2 <> [] -> roll_from R d (l1 ++ l2) s = wbind R (roll_from R d l1) (fun _ => roll R l2) s.
  Proof.
    induction l1 as [|l l1 IH]; intros l2 d s H.
    - destruct l2 as [|x l2]; [congruence|]. cbn [app roll_from]. unfold roll. cbn [roll_from]. unfold wbind at 2, wret. cbn [flat_map].
      rewrite app_nil_r. rewrite <- (map_id (wbind R (roll_line R x) (fun d0 : const_dict => roll_from R d0 l2) s)) at 1.
      apply map_ext. intros [w r]. cbn [fst snd]. f_equal. destruct w; reflexivity.
    - cbn [app roll_from]. rewrite wbind_assoc. apply wbind_ext. intros. now apply IH.
  Qed.

  Lemma roll_pieces : forall l1 l2 s, l2 <> [] -> roll R (l1 ++ l2) s = then_rolls R (roll R l1 s) (roll R l2).
  Proof. intros. unfold roll at 1. rewrite roll_from_app by auto. reflexivity. Qed.

  Lemma ext_from_app : forall mx l1 l2 d s, l2 <> [] ->
    ext_from R mx d (l1 ++ l2) s = then_call R (ext_from R mx d l1 s) (fun s1 _ => extreme R mx l2 s1).
  Proof.
    induction l1 as [|l l1 IH]; intros l2 d s H.
    - destruct l2 as [|x l2]; [congruence|]. unfold extreme, max_call, min_call. destruct mx; reflexivity.
    - cbn [app ext_from]. unfold bind. destruct (ext_line R mx l s) as [s1 [a|x]]; [now apply IH|reflexivity].
  Qed.
  Lemma extreme_pieces : forall mx l1 l2 s, l2 <> [] -> extreme R mx (l1 ++ l2) s = then_call R (extreme R mx l1 s) (fun s1 _ => extreme R mx l2 s1).
  Proof. intros. destruct mx; exact (ext_from_app _ l1 l2 EmptyDict s H). Qed.

  Lemma dist_lines_app : forall l1 l2 r s, l2 <> [] ->
    dist_lines R r (l1 ++ l2) s = then_call R (dist_lines R r l1 s) (fun s1 _ => get_probability_distributions R l2 s1).
  Proof.
    induction l1 as [|l l1 IH]; intros l2 r s H.
    - destruct l2 as [|x l2]; [congruence|]. reflexivity.
    - cbn [app dist_lines]. unfold bind. destruct (dist_line R l s) as [s1 [a|x]]; [now apply IH|reflexivity].
  Qed.
  Lemma distribution_pieces : forall l1 l2 s, l2 <> [] -> get_probability_distributions R (l1 ++ l2) s =
    then_call R (get_probability_distributions R l1 s) (fun s1 _ => get_probability_distributions R l2 s1).
  Proof. intros. now apply dist_lines_app. Qed.

  Lemma cost_from_start : forall l t s, cost_from R t l s = bind R (cost_from R 0 l) (fun c => ret R (t + c)) s.
  Proof.
    induction l as [|x l IH]; intros t s.
    - cbn. unfold bind, ret. now rewrite Z.add_0_r.
    - cbn [cost_from]. unfold bind, lift at 1 2. destruct (parse x) as [e|y]; [|reflexivity].
      destruct (cost_of R e s) as [s1 [c|y]]; [|reflexivity]. rewrite IH, (IH (0 + c)). unfold bind, ret.
      destruct (cost_from R 0 l s1) as [s2 [c2|y]]; [|reflexivity]. do 2 f_equal. lia.
  Qed.
  Lemma cost_from_app : forall l1 l2 t s, cost_from R t (l1 ++ l2) s = then_call R (cost_from R t l1 s) (fun s1 c => cost_from R c l2 s1).
  Proof.
    induction l1 as [|l l1 IH]; intros l2 t s; [reflexivity|].
    cbn [app cost_from]. unfold bind, lift. destruct (parse l) as [e|y]; [|reflexivity].
    destruct (cost_of R e s) as [s1 [c|y]]; [apply IH|reflexivity].
  Qed.
  Lemma cost_pieces : forall l1 l2 s, get_estimated_cost R (l1 ++ l2) s =
    then_call R (get_estimated_cost R l1 s) (fun s1 c1 => then_call R (get_estimated_cost R l2 s1) (fun s2 c2 => (s2, Ok (c1 + c2)))).
  Proof.
    intros. unfold get_estimated_cost. rewrite cost_from_app. destruct (cost_from R 0 l1 s) as [s1 [c|x]]; [|reflexivity].
    cbn [then_call]. now rewrite cost_from_start.
  Qed.

  (** ** Relations between the state before and after *)
  Section Relation.
    Context (P : state -> state -> Prop) (Prefl : forall s, P s s) (Ptrans : forall a b c, P a b -> P b c -> P a c).
    Context (OKc OKv : text -> Prop).
    Context (Hc : forall n v s, OKc n -> P s (set_constant R n v s)) (Hv : forall n d s, OKv n -> P s (fst (set_var R n d s))).

    Lemma bind_rel : forall A B (m : M R A) (f : A -> M R B) s, P s (fst (m s)) -> (forall a s, P s (fst (f a s))) -> P s (fst (bind R m f s)).
    Proof. intros A B m f s H1 H2. unfold bind. destruct (m s) as [s1 [a|x]]; cbn [fst] in *; [eapply Ptrans; eauto|auto]. Qed.
    Lemma lift_rel : forall A (r : res A) s, P s (fst (lift R r s)).
    Proof. intros. apply Prefl. Qed.
    Lemma binop_rel : forall op a b s, (forall s, P s (fst (a s))) -> (forall s, P s (fst (b s))) -> P s (fst (binop_m R op a b s)).
    Proof. intros op a b s Ha Hb. apply bind_rel; [apply Ha|]. intros. apply bind_rel; [apply Hb|]. intros. apply lift_rel. Qed.

    Definition okv (e : expr) : Prop := forall n, In n (assigned e) -> OKv n.
    Definition okc (e : expr) : Prop := forall n, In n (assigned e) -> OKc n.

    Ltac sub H := let n := fresh in let h := fresh in intros n h; apply H; cbn [assigned]; try apply in_or_app; cbn [In]; auto.

    Lemma dist_of_rel : forall e, okv e -> forall s, P s (fst (dist_of R e s)).
    Proof.
      induction e; intros OK s; cbn [dist_of];
        try (apply binop_rel; [apply IHe1; sub OK|apply IHe2; sub OK]);
        try (apply bind_rel; [apply IHe; sub OK|intros; apply Prefl]);
        try apply lift_rel; try apply Prefl.
      - apply IHe. sub OK.
      - destruct (dk_simple d) as [[]|]; apply lift_rel.
      - destruct (dist_operator operator); [|apply lift_rel]. apply binop_rel; [apply IHe1; sub OK|apply IHe2; sub OK].
      - apply bind_rel; [apply IHe; sub OK|]. intros. apply bind_rel; [apply Hv, OK; now left|]. intros. apply Prefl.
    Qed.

    Lemma ext_via_rel : forall mx e, okv e -> forall s, P s (fst (ext_via_dist R mx e s)).
    Proof. intros. apply bind_rel; [now apply dist_of_rel|]. intros. apply lift_rel. Qed.

    Lemma ext_of_rel : forall mx e, okv e -> okc e -> forall s, P s (fst (ext_of R mx e s)).
    Proof.
      induction e; intros V C s; cbn [ext_of]; try (now apply ext_via_rel); try apply lift_rel; try apply Prefl.
      - apply IHe; [sub V|sub C].
      - destruct (dk_simple d) as [[]|]; apply lift_rel.
      - apply bind_rel; [apply dist_of_rel; sub V|]. intros d s1. destruct (contains_zero R d); [apply lift_rel|now apply ext_via_rel].
      - destruct (minmax_operator min_max); [|apply lift_rel]. apply bind_rel; [apply IHe1; [sub V|sub C]|]. intros.
        apply bind_rel; [apply IHe2; [sub V|sub C]|]. intros. apply Prefl.
      - apply bind_rel; [apply IHe; [sub V|sub C]|]. intros v s1. apply bind_rel; [apply Hc, C; now left|]. intros _ s2.
        apply bind_rel; [apply dist_of_rel; sub V|]. intros d s3. apply bind_rel; [apply Hv, V; now left|]. intros. apply Prefl.
    Qed.

    Lemma cost_of_rel : forall e, okc e -> forall s, P s (fst (cost_of R e s)).
    Proof.
      induction e; intros C s; cbn [cost_of]; try apply Prefl;
        try (apply bind_rel; [apply IHe1; sub C|]; intros; apply bind_rel; [apply IHe2; sub C|]; intros; apply Prefl);
        try (apply IHe; sub C).
      - apply bind_rel; [apply IHe; sub C|]. intros. apply lift_rel.
      - destruct (dk_simple d) as [[]|]; apply Prefl.
      - apply bind_rel; [apply IHe; sub C|]. intros. apply bind_rel; [apply Hc, C; now left|]. intros. apply Prefl.
    Qed.

    Definition wrel {A} (s : state) (l : list (Z * (state * res A))) : Prop := forall w s' r, In (w, (s', r)) l -> P s s'.
    Lemma wbind_rel : forall A B (m : W R A) (f : A -> W R B) s, wrel s (m s) -> (forall a s, wrel s (f a s)) -> wrel s (wbind R m f s).
    Proof.
      intros A B m f s H1 H2 w s' r H. unfold wbind in H. apply in_flat_map in H. destruct H as [[w1 [s1 [a|x]]] [I J]].
      - apply in_map_iff in J. destruct J as [[w2 [s2 r2]] [E J]]. cbn [fst snd] in E. inversion E; subst. eapply Ptrans; [eapply H1; eauto|eapply H2; eauto].
      - destruct J as [J|[]]. inversion J; subst. eapply H1; eauto.
    Qed.
    Lemma one_rel : forall A w s s' (r : res A), P s s' -> wrel s [(w, (s', r))].
    Proof. intros A w s s' r H w1 s1 r1 [E|[]]. inversion E; now subst. Qed.
    Lemma rolls_rel : forall A (l : rolls A) s, wrel s (wrolls R l s).
    Proof. intros A l s w s' r H. apply in_map_iff in H. destruct H as [x [E _]]. inversion E; subst. apply Prefl. Qed.
    Lemma wbinop_rel : forall f a b s, (forall s, wrel s (a s)) -> (forall s, wrel s (b s)) -> wrel s (wbinop R f a b s).
    Proof. intros f a b s Ha Hb. apply wbind_rel; [apply Ha|]. intros. apply wbind_rel; [apply Hb|]. intros. apply one_rel, Prefl. Qed.

    Lemma roll_of_rel : forall e, okc e -> forall s, wrel s (roll_of R e s).
    Proof.
      induction e; intros C s; cbn [roll_of];
        try (apply wbinop_rel; [apply IHe1; sub C|apply IHe2; sub C]);
        try (apply wbind_rel; [apply IHe; sub C|intros; apply one_rel; apply Prefl]);
        try apply rolls_rel; try (apply one_rel, Prefl).
      - apply IHe. sub C.
      - destruct (dk_simple d) as [[]|]; [apply rolls_rel|apply one_rel, Prefl|apply rolls_rel].
      - apply wbind_rel; [apply IHe2; sub C|]. intros d s1. destruct (d =? 0); [apply one_rel, Prefl|].
        apply wbind_rel; [apply IHe1; sub C|]. intros. apply one_rel, Prefl.
      - destruct (int_operator operator); [|apply one_rel, Prefl]. apply wbinop_rel; [apply IHe1; sub C|apply IHe2; sub C].
      - destruct (minmax_operator min_max); [|apply one_rel, Prefl]. apply wbinop_rel; [apply IHe1; sub C|apply IHe2; sub C].
      - apply wbind_rel; [apply IHe; sub C|]. intros. apply one_rel, Hc, C. now left.
    Qed.

    Definition okc_lines (lines : list text) : Prop := forall n, assigns lines n -> OKc n.
    Definition okv_lines (lines : list text) : Prop := forall n, assigns lines n -> OKv n.
    Lemma okc_line : forall l lines e, okc_lines (l :: lines) -> parse l = Ok e -> okc e.
    Proof. intros l lines e H E n I. apply H. exists l, e. cbn; auto. Qed.
    Lemma okc_rest : forall l lines, okc_lines (l :: lines) -> okc_lines lines.
    Proof. intros l lines H n [t [e [I J]]]. apply H. exists t, e. cbn; auto. Qed.
    Lemma okv_line : forall l lines e, okv_lines (l :: lines) -> parse l = Ok e -> okv e.
    Proof. intros l lines e H E n I. apply H. exists l, e. cbn; auto. Qed.
    Lemma okv_rest : forall l lines, okv_lines (l :: lines) -> okv_lines lines.
    Proof. intros l lines H n [t [e [I J]]]. apply H. exists t, e. cbn; auto. Qed.

    Lemma parse_bind_rel : forall A l (f : expr -> M R A) s, (forall e, parse l = Ok e -> P s (fst (f e s))) -> P s (fst (bind R (lift R (parse l)) f s)).
    Proof. intros A l f s H. unfold bind, lift. destruct (parse l) as [e|x]; [now apply H|apply Prefl]. Qed.
    Lemma parse_wbind_rel : forall A l (f : expr -> W R A) s, (forall e, parse l = Ok e -> wrel s (f e s)) -> wrel s (wbind R (wlift R (parse l)) f s).
    Proof.
      intros A l f s H. unfold wbind, wlift. destruct (parse l) as [e|x]; cbn [flat_map].
      - rewrite app_nil_r. intros w s' r I. apply in_map_iff in I. destruct I as [[w2 [s2 r2]] [E I]]. inversion E; subst. exact (H e eq_refl _ _ _ I).
      - apply one_rel, Prefl.
    Qed.

    Lemma cost_from_rel : forall lines t s, okc_lines lines -> P s (fst (cost_from R t lines s)).
    Proof.
      induction lines as [|l lines IH]; intros t s C; [apply Prefl|]. cbn [cost_from]. apply parse_bind_rel. intros e E.
      apply bind_rel; [eapply cost_of_rel, okc_line; eauto|]. intros. apply IH. eapply okc_rest; eauto.
    Qed.
    Lemma last_dist_rel : forall lines d s, okv_lines lines -> P s (fst (last_dist R d lines s)).
    Proof.
      induction lines as [|l lines IH]; intros d s C; [apply Prefl|]. cbn [last_dist]. apply parse_bind_rel. intros e E.
      apply bind_rel; [eapply dist_of_rel, okv_line; eauto|]. intros. apply IH. eapply okv_rest; eauto.
    Qed.

    Context (Hso : Prop) (Hsc : Hso -> forall v s, P s (set_stdout_const R v s)) (Hvo : Prop) (Hsv : Hvo -> forall d s, P s (set_stdout_var R d s)).

    Lemma roll_from_rel : forall lines d s, okc_lines lines -> Hso -> wrel s (roll_from R d lines s).
    Proof.
      induction lines as [|l lines IH]; intros d s C S; [apply one_rel, Prefl|]. cbn [roll_from]. apply wbind_rel.
      - unfold roll_line. apply parse_wbind_rel. intros e E. apply wbind_rel; [eapply roll_of_rel, okc_line; eauto|]. intros. apply one_rel; auto.
      - intros. apply IH; auto. eapply okc_rest; eauto.
    Qed.
    Lemma ext_from_rel : forall mx lines d s, okc_lines lines -> okv_lines lines -> Hso -> P s (fst (ext_from R mx d lines s)).
    Proof.
      induction lines as [|l lines IH]; intros d s C V S; [apply Prefl|]. cbn [ext_from]. apply bind_rel.
      - unfold ext_line. apply parse_bind_rel. intros e E. apply bind_rel; [apply ext_of_rel; [eapply okv_line|eapply okc_line]; eauto|].
        intros. cbn [fst]. auto.
      - intros. apply IH; auto; [eapply okc_rest|eapply okv_rest]; eauto.
    Qed.
    Lemma dist_lines_rel : forall lines r s, okv_lines lines -> Hvo -> P s (fst (dist_lines R r lines s)).
    Proof.
      induction lines as [|l lines IH]; intros d s V S; [apply Prefl|]. cbn [dist_lines]. apply bind_rel.
      - unfold dist_line. apply parse_bind_rel. intros e E. apply bind_rel; [eapply dist_of_rel, okv_line; eauto|]. intros. cbn [fst]. auto.
      - intros. apply IH; auto. eapply okv_rest; eauto.
    Qed.

    Definition writes_constants (c : call) : Prop := match c with CRoll _ | CMax _ | CMin _ | CCost _ => True | _ => False end.
    Definition writes_variables (c : call) : Prop := match c with CRoll _ | CCost _ => False | _ => True end.
    Definition stdout_constant (c : call) : Prop := match c with CRoll _ | CMax _ | CMin _ => True | _ => False end.
    Definition stdout_variable (c : call) : Prop := match c with CDistributions _ | CDict _ | CAverage _ => True | _ => False end.

    Lemma does_rel : forall c s s', does R c s s' -> (forall n, assigns (call_lines c) n -> (writes_constants c -> OKc n) /\ (writes_variables c -> OKv n)) ->
      (stdout_constant c -> Hso) -> (stdout_variable c -> Hvo) -> P s s'.
    Proof.
      intros c s s' D H S V. destruct D; cbn in H, S, V;
        try assert (C : okc_lines lines) by (intros ? ?; now apply H); try assert (C' : okv_lines lines) by (intros ? ?; now apply H).
      - eapply roll_from_rel; eauto.
      - apply ext_from_rel; auto.
      - apply ext_from_rel; auto.
      - apply dist_lines_rel; auto.
      - apply bind_rel; [apply dist_lines_rel; auto|]. intros. apply lift_rel.
      - apply bind_rel; [apply dist_lines_rel; auto|]. intros. apply lift_rel.
      - apply bind_rel; [apply last_dist_rel; auto|]. intros. apply lift_rel.
      - apply bind_rel; [apply last_dist_rel; auto|]. intros. apply lift_rel.
      - apply bind_rel; [apply last_dist_rel; auto|]. intros. apply lift_rel.
      - apply cost_from_rel; auto.
    Qed.
  End Relation.

  Lemma after_does : forall (P : state -> Prop), (forall c s s', does R c s s' -> P s -> P s') ->
    (forall n v s, P s -> P (set_constant R n v s)) -> (forall n d s, P s -> P (fst (set_var R n d s))) ->
    (forall c s, P s -> P {| st_var := st_var s; st_const := c; st_times := st_times s |}) ->
    forall s0 s, after R s0 s -> P s0 -> P s.
  Proof.
    intros P Hc Hk Hv Hd s0 s H H0. induction H; auto;
      (eapply Hc; [|exact (IHafter H0)]); first [eapply do_roll; eassumption | apply do_max | apply do_min | apply do_distributions
        | apply do_dict | apply do_average | apply do_histogram | apply do_at_least | apply do_at_most | apply do_cost].
  Qed.

  (** ** What stays *)
  Lemma set_var_const : forall n d s, st_const (fst (set_var R n d s)) = st_const s.
  Proof. intros. unfold set_var. destruct (tag_dist _ _ _); reflexivity. Qed.
  Lemma set_var_other : forall n d s m, m <> n -> variable R (fst (set_var R n d s)) m = variable R s m.
  Proof. intros. unfold set_var, variable. destruct (tag_dist _ _ _); cbn [fst st_var]; auto. apply dget_dset_other; auto using text_eqb_iff. Qed.
End Facts.
