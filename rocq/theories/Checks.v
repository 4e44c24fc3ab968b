(** * Checks: deciding the conditions of the theorems for concrete programs (used by the examples only) *)
From Verif Require Import Py PyFacts PyFloat Constraint Distribution SpecDice DiceModel Expr Lexer Parser Interp SpecProgram WfFacts SpecInterp SpecAlgebra SpecRoll.

Fixpoint program_of (lines : list text) : option program :=
  match lines with
  | [] => Some []
  | t :: lines' =>
      match parse t, program_of lines' with
      | Ok (EAssign n e), Some p => Some ((Some n, e) :: p)
      | Ok e, Some p => Some ((None, e) :: p)
      | _, _ => None
      end
  end.

Lemma program_of_text : forall lines p, program_of lines = Some p -> program_text lines p.
Proof.
  induction lines as [|t lines IH]; intros p H; cbn [program_of] in H.
  - injection H as <-. constructor.
  - destruct (parse t) as [e|x] eqn:E; [|discriminate]. destruct (program_of lines) as [q|]; [|destruct e; discriminate].
    destruct e; injection H as <-; constructor; auto; apply IH; auto.
Qed.

Fixpoint simpleb (e : expr) : bool :=
  match e with
  | EParen e | ENot e | EAbs e => simpleb e
  | EDice d => 1 <=? dice_num d
  | EDropKeep dk => 1 <=? dk_num dk
  | EInt _ | EBool _ | EVar _ => true
  | EAdd a b | ESub a b | EMul a b | EDiv a b | EBin _ a b | EMinMax _ a b => simpleb a && simpleb b
  | EAssign _ _ => false
  end.

Lemma simpleb_iff : forall e, well_formed e -> simpleb e = true -> simple e.
Proof.
  induction e; cbn [well_formed simpleb simple]; intros W H; auto; try (apply andb_true_iff in H; tauto); try discriminate;
    apply Z.leb_le in H; tauto.
Qed.

Definition has (n : text) (l : list text) : bool := existsb (text_eqb n) l.
Lemma has_iff : forall n l, has n l = true <-> In n l.
Proof.
  intros n l. unfold has. rewrite existsb_exists. split.
  - intros [x [H E]]. apply text_eqb_eq in E. now subst.
  - intros H. exists n. split; auto. apply text_eqb_refl.
Qed.

Fixpoint closedb (known : list text) (p : program) : bool :=
  match p with
  | [] => true
  | (n, e) :: p' => forallb (fun m => has m known) (reads e) && closedb (match n with Some n => n :: known | None => known end) p'
  end.
Lemma closedb_iff : forall p known, closedb known p = true -> closed known p.
Proof.
  induction p as [|[n e] p IH]; intros known H; cbn [closedb closed] in *; auto. apply andb_true_iff in H. destruct H as [H1 H2]. split; [|now apply IH].
  intros m Hm. apply has_iff. exact (proj1 (forallb_forall _ _) H1 m Hm).
Qed.

Definition nameb (n : option text) : bool := match n with Some n => negb (text_eqb n $"stdout") | None => true end.

(** everything but the uses of variables *)
Definition checked (p : program) : bool :=
  match p with [] => false | _ => true end && closedb [] p && forallb (fun l => simpleb (snd l) && nameb (fst l)) p.
Definition rollableb (p : program) : bool := forallb (fun m => match faces m with [] => false | _ => true end) (program_dice p).
Definition drawableb (p : program) : bool := rollableb p && forallb (fun m => zsum (map snd m) <? float_limit) (program_dice p).
Definition positiveb (p : program) : bool := forallb (fun m => match m with [] => false | _ => forallb (fun vc => 0 <? snd vc) m end) (program_dice p).

Lemma checked_good : forall lines p, program_text lines p -> checked p = true -> good_program p.
Proof.
  intros lines p T H. unfold checked in H. rewrite !andb_true_iff in H. destruct H as [[H1 H2] H3]. split; [intros ->; discriminate|].
  split; [now apply closedb_iff|]. intros n e He. rewrite forallb_forall in H3. specialize (H3 _ He). cbn [fst snd] in H3.
  apply andb_true_iff in H3. destruct H3 as [H3 H4].
  assert (W : well_formed (line_expr (n, e))).
  { clear - T He. induction T; [destruct He|]. destruct He as [->|He]; auto. eapply parse_wf; eauto. }
  destruct n as [n|]; cbn [line_expr well_formed nameb] in *.
  - destruct W as [W1 W2]. split; [now apply simpleb_iff|]. split; auto. apply negb_true_iff in H4. now apply text_eqb_neq in H4.
  - split; auto. now apply simpleb_iff.
Qed.

Lemma rollableb_iff : forall p, rollableb p = true -> rollable p.
Proof.
  intros p H m Hm. unfold rollableb in H. rewrite forallb_forall in H. specialize (H m Hm). destruct (faces m); [discriminate | congruence].
Qed.
Lemma drawableb_iff : forall p, drawableb p = true -> drawable p.
Proof.
  intros p H m Hm. unfold drawableb in H. apply andb_true_iff in H. destruct H as [H1 H2]. rewrite forallb_forall in H2. specialize (H2 m Hm).
  apply Z.ltb_lt in H2. split; [now apply (rollableb_iff p)|exact H2].
Qed.
Lemma positiveb_iff : forall p, positiveb p = true -> positive p /\ sided p.
Proof.
  intros p H. unfold positiveb in H. rewrite forallb_forall in H. split.
  - intros m v c Hm Hv. specialize (H m Hm). destruct m as [|vc m]; [discriminate|]. rewrite forallb_forall in H. apply Z.ltb_lt. exact (H _ Hv).
  - intros m Hm E. specialize (H m Hm). rewrite E in H. discriminate.
Qed.

(** the result map of stdout *)
Definition shown (R : Runtime) (s : state R) (lines : list text) : option (list (Z * Z)) :=
  match snd (get_probability_distributions R lines s) with
  | Ok dict => option_map (get_result_map R) (dget text_eqb dict stdout)
  | Raise _ => None
  end.
Lemma shown_reports : forall R s lines m, shown R s lines = Some m -> exists d, reports R s lines d /\ get_result_map R d = m.
Proof.
  intros R s lines m H. unfold shown in H. unfold reports. destruct (get_probability_distributions R lines s) as [s' [dict|x]]; [|discriminate].
  cbn [snd] in H. destruct (dget text_eqb dict stdout) as [d|] eqn:E; [|discriminate]. injection H as <-. exists d. split; auto. exists s', dict. auto.
Qed.

Lemma example_program : forall R s lines p m, program_of lines = Some p -> checked p = true -> rollableb p = true -> shown R s lines = Some m ->
  exists d, program_text lines p /\ good_program p /\ rollable p /\ reports R s lines d /\ get_result_map R d = m.
Proof.
  intros R s lines p m H1 H2 H3 H4. destruct (shown_reports R s lines m H4) as [d [Hd Hm]]. exists d. apply program_of_text in H1.
  split; auto. split; [eapply checked_good; eauto|]. split; [now apply rollableb_iff|]. auto.
Qed.

Lemma example_rolled : forall R s lines p m, program_of lines = Some p -> checked p = true -> drawableb p = true -> shown R s lines = Some m ->
  exists d, program_text lines p /\ good_program p /\ drawable p /\ reports R s lines d /\ get_result_map R d = m.
Proof.
  intros R s lines p m H1 H2 H3 H4. destruct (shown_reports R s lines m H4) as [d [Hd Hm]]. exists d. apply program_of_text in H1.
  split; auto. split; [eapply checked_good; eauto|]. split; [now apply drawableb_iff|]. auto.
Qed.

(** ** Looking at distributions without normalising them *)
Definition dist_at (R : Runtime) (s : state R) (lines : list text) (n : text) : option (dist R) :=
  match snd (get_probability_distributions R lines s) with Ok dict => dget text_eqb dict n | Raise _ => None end.
Definition state_after (R : Runtime) (lines : list text) (s : state R) : state R := fst (get_probability_distributions R lines s).

Lemma dist_at_gives : forall R s lines n d, dist_at R s lines n = Some d -> gives R s lines (state_after R lines s) n d.
Proof.
  intros R s lines n d H. unfold dist_at in H. unfold gives, state_after. destruct (get_probability_distributions R lines s) as [s' [dict|x]]; [|discriminate].
  exists dict. auto.
Qed.
Lemma dist_at_reports : forall R s lines d, dist_at R s lines stdout = Some d -> reports R s lines d.
Proof.
  intros R s lines d H. apply dist_at_gives in H. destruct H as [dict H]. exists (state_after R lines s), dict. exact H.
Qed.
Lemma reports_obtainable : forall R s lines d, reachable R s -> reports R s lines d -> obtainable R d.
Proof.
  intros R s lines d Hs [s' [dict [E H]]]. apply (ob_returned R s lines s' dict stdout d Hs E). 
  clear - H. induction dict as [|[k v] l IH]; [discriminate|]. cbn [dget] in H. destruct (text_eqb k stdout) eqn:K.
  - apply text_eqb_eq in K. inversion H; subst. now left.
  - right. auto.
Qed.
Lemma after_lines : forall R s lines, reachable R s -> reachable R (state_after R lines s).
Proof. intros R s lines H. now apply af_distributions. Qed.

Lemma seen2 : forall A B C (f : A -> B -> C) o o' m, option_map (fun p => f (fst p) (snd p)) (match o, o' with Some a, Some b => Some (a, b) | _, _ => None end) = Some m ->
  exists a b, o = Some a /\ o' = Some b /\ f a b = m.
Proof. intros A B C f [a|] [b|] m H; try discriminate. exists a, b. injection H as <-. auto. Qed.
Lemma seen : forall A B (f : A -> B) o m, option_map f o = Some m -> exists d, o = Some d /\ f d = m.
Proof. intros A B f [d|] m H; [injection H as <-; eauto | discriminate]. Qed.

(** the outcomes with the constraints that tie them to variables *)
Definition view (R : Runtime) (d : dist R) : list (Z * list (text * list Z) * Z) :=
  map (fun oc => (o_value (fst oc),
                  flat_map (fun c => match c with CVar n vs => [(n, z_iter (rt_z R) vs)] | _ => [] end) (cs_iter (rt_c R) (o_cs (fst oc))),
                  snd oc)) (d_map d).

Lemma view_mentions : forall R d n, mentions R d n <-> In n (flat_map (fun x => map fst (snd (fst x))) (view R d)).
Proof.
  intros R d n. unfold mentions, view. split.
  - intros [o [c [vs [Ho Hc]]]]. apply in_flat_map. eexists. split; [apply in_map; exact Ho|]. cbn [fst snd]. apply in_map_iff.
    exists (n, z_iter (rt_z R) vs). split; auto. apply in_flat_map. exists (CVar n vs). split; auto. now left.
  - intros H. apply in_flat_map in H. destruct H as [x [Hx Hn]]. apply in_map_iff in Hx. destruct Hx as [[o c] [<- Ho]]. cbn [fst snd] in Hn.
    apply in_map_iff in Hn. destruct Hn as [[m vs] [E Hm]]. cbn in E. subst m. apply in_flat_map in Hm. destruct Hm as [k [Hk Hm]].
    destruct k as [| |m ws]; try (destruct Hm; fail). destruct Hm as [E|[]]. injection E as -> _. exists o, c, ws. auto.
Qed.

Lemma view_disjoint : forall R a b, (forall n, In n (flat_map (fun x => map fst (snd (fst x))) (view R a)) ->
  ~ In n (flat_map (fun x => map fst (snd (fst x))) (view R b))) -> no_shared_variable R a b.
Proof. intros R a b H n Ma Mb. apply view_mentions in Ma. apply view_mentions in Mb. exact (H n Ma Mb). Qed.

(** two distributions and what an operator makes of them *)
Definition combined (R : Runtime) (op : vop) (a b : option (dist R)) :=
  match a, b with
  | Some a, Some b =>
      match d_binop R op a b with
      | Ok d => Some (view R a, view R b, get_result_map R a, get_result_map R b, get_result_map R d)
      | Raise _ => None
      end
  | _, _ => None
  end.
Lemma combined_seen : forall R op oa ob va vb ma mb md, combined R op oa ob = Some (va, vb, ma, mb, md) ->
  exists a b d, oa = Some a /\ ob = Some b /\ d_binop R op a b = Ok d /\ view R a = va /\ view R b = vb /\
    get_result_map R a = ma /\ get_result_map R b = mb /\ get_result_map R d = md.
Proof.
  intros R op [a|] [b|] va vb ma mb md H; cbn [combined] in H; try discriminate. destruct (d_binop R op a b) as [d|x] eqn:E; [|discriminate].
  injection H as <- <- <- <- <-. exists a, b, d. auto 10.
Qed.

Definition raised {A} (r : res A) : option exn := match r with Ok _ => None | Raise x => Some x end.
Lemma raised_iff : forall A (r : res A) x, raised r = Some x -> r = Raise x.
Proof. intros A [a|y] x H; [discriminate | now injection H as ->]. Qed.

(** ** Conditions on programs that are rolled *)
Fixpoint no_assignmentb (e : expr) : bool :=
  match e with
  | EParen e | ENot e | EAbs e => no_assignmentb e
  | EDropKeep _ | EDice _ | EInt _ | EBool _ | EVar _ => true
  | EAdd a b | ESub a b | EMul a b | EDiv a b | EBin _ a b | EMinMax _ a b => no_assignmentb a && no_assignmentb b
  | EAssign _ _ => false
  end.
Lemma no_assignmentb_iff : forall e, no_assignmentb e = true -> no_assignment e.
Proof. induction e; cbn; intros H; auto; try (apply andb_true_iff in H; tauto); discriminate. Qed.

Definition runs_checked (p : program) : bool :=
  match p with [] => false | _ => true end && closedb [] p && forallb (fun l => no_assignmentb (snd l) && nameb (fst l)) p.
Lemma checked_runnable : forall lines p, program_text lines p -> runs_checked p = true -> runnable p.
Proof.
  intros lines p T H. unfold runs_checked in H. rewrite !andb_true_iff in H. destruct H as [[H1 H2] H3]. split; [intros ->; discriminate|].
  split; [now apply closedb_iff|]. intros n e He. rewrite forallb_forall in H3. specialize (H3 _ He). cbn [fst snd] in H3.
  apply andb_true_iff in H3. destruct H3 as [H3 H4].
  assert (W : well_formed (line_expr (n, e))).
  { clear - T He. induction T; [destruct He|]. destruct He as [->|He]; auto. eapply parse_wf; eauto. }
  apply no_assignmentb_iff in H3. destruct n as [n|]; cbn [line_expr well_formed nameb] in *.
  - destruct W as [W1 W2]. split; auto. split; auto. split; auto. apply negb_true_iff in H4. now apply text_eqb_neq in H4.
  - auto.
Qed.

Fixpoint truth_valuedb (e : expr) : bool :=
  match e with
  | EParen e | EAbs e => truth_valuedb e
  | ENot _ | EBool _ | EBin _ _ _ => true
  | EMul a b | EMinMax _ a b => truth_valuedb a && truth_valuedb b
  | _ => false
  end.
Fixpoint logicalb (e : expr) : bool :=
  match e with
  | EParen e | EAbs e | EAssign _ e => logicalb e
  | ENot e => logicalb e && truth_valuedb e
  | EDropKeep _ | EDice _ | EInt _ | EBool _ | EVar _ => true
  | EAdd a b | ESub a b | EMul a b | EDiv a b | EMinMax _ a b => logicalb a && logicalb b
  | EBin op a b => logicalb a && logicalb b && (negb (text_eqb op $"AND" || text_eqb op $"OR") || truth_valuedb a && truth_valuedb b)
  end.
Lemma truth_valuedb_iff : forall e, truth_valuedb e = true -> truth_valued e.
Proof. induction e; cbn; intros H; auto; try (apply andb_true_iff in H; tauto); discriminate. Qed.
Lemma logicalb_iff : forall e, logicalb e = true -> logical e.
Proof.
  induction e; cbn [logicalb logical]; intros H; auto; rewrite ?andb_true_iff in H; try tauto.
  - split; [tauto | now apply truth_valuedb_iff].
  - destruct H as [[H2 H3] H1]. rewrite orb_true_iff, negb_true_iff, andb_true_iff in H1. split; auto. split; auto. intros Hop.
    destruct H1 as [H1|[H1 H4]]; auto using truth_valuedb_iff. exfalso. apply orb_false_iff in H1. destruct H1 as [A O].
    destruct Hop as [->| ->]; rewrite text_eqb_refl in *; discriminate.
Qed.
Definition program_logicalb (p : program) : bool := forallb (fun l => logicalb (snd l)) p.
Lemma program_logicalb_iff : forall p, program_logicalb p = true -> forall n e, In (n, e) p -> logical e.
Proof. intros p H n e He. unfold program_logicalb in H. rewrite forallb_forall in H. apply logicalb_iff. exact (H _ He). Qed.

(** ** max() and min() *)
Definition extreme_at (R : Runtime) (mx : bool) (s : state R) (lines : list text) : option Z :=
  match extreme R mx lines s with (s', Ok dict) => dget text_eqb (read_dict R s' dict) stdout | (_, Raise _) => None end.
Lemma extreme_at_is : forall R mx s lines v, extreme_at R mx s lines = Some v -> extreme_is R mx s lines v.
Proof.
  intros R mx s lines v H. unfold extreme_at in H. unfold extreme_is. destruct (extreme R mx lines s) as [s' [dict|x]]; [|discriminate]. eauto.
Qed.

Definition unrelatedb (origins : text -> list nat) (a b : expr) : bool :=
  forallb (fun m => forallb (fun n => forallb (fun k => negb (existsb (Nat.eqb k) (origins n))) (origins m)) (reads b)) (reads a).
Lemma unrelatedb_iff : forall origins a b, unrelatedb origins a b = true -> unrelated origins a b.
Proof.
  intros origins a b H m n k Hm Hn Hk C. unfold unrelatedb in H. rewrite forallb_forall in H. specialize (H m Hm). rewrite forallb_forall in H.
  specialize (H n Hn). rewrite forallb_forall in H. specialize (H k Hk). apply negb_true_iff in H.
  assert (X : existsb (Nat.eqb k) (origins n) = true) by (apply existsb_exists; exists k; split; auto; apply Nat.eqb_refl). congruence.
Qed.
Fixpoint extreme_exactb (mx : bool) (origins : text -> list nat) (ok : text -> bool) (e : expr) : bool :=
  match e with
  | EParen e | EAssign _ e => extreme_exactb mx origins ok e
  | EMinMax mm a b => extreme_exactb mx origins ok a && extreme_exactb mx origins ok b &&
      (text_eqb mm (if mx then $"MAX" else $"MIN") || unrelatedb origins a b)
  | EVar n => ok n
  | _ => true
  end.
Lemma extreme_exactb_iff : forall mx origins (ok : text -> Prop) ok' e, (forall n, ok' n = true -> ok n) -> extreme_exactb mx origins ok' e = true ->
  extreme_exact mx origins ok e.
Proof.
  intros mx origins ok ok' e HO. induction e; intros H; cbn [extreme_exactb extreme_exact] in *; auto.
  rewrite !andb_true_iff, orb_true_iff in H. destruct H as [[H1 H2] H3]. split; auto. split; auto.
  destruct H3 as [H3|H3]; [left; now apply text_eqb_eq | right; now apply unrelatedb_iff].
Qed.
Definition next_exactb (mx : bool) (origins : text -> list nat) (ok : text -> bool) (n : option text) (e : expr) : text -> bool :=
  match n with Some n => fun m => if text_eqb m n then extreme_exactb mx origins ok e else ok m | None => ok end.
Fixpoint exact_linesb (mx : bool) (i : nat) (origins : text -> list nat) (ok : text -> bool) (p : program) : bool :=
  match p with
  | [] => false
  | [(_, e)] => extreme_exactb mx origins ok e
  | (n, e) :: p' => exact_linesb mx (S i) (next_origins i origins n e) (next_exactb mx origins ok n e) p'
  end.
Lemma exact_linesb_iff : forall mx p i origins (ok : text -> Prop) ok', (forall n, ok' n = true -> ok n) -> exact_linesb mx i origins ok' p = true ->
  exact_lines mx i origins ok p.
Proof.
  intros mx. induction p as [|[n e] p IH]; intros i origins ok ok' HO H; [discriminate|]. destruct p as [|l p].
  - cbn in *. now apply (extreme_exactb_iff mx origins ok ok').
  - change (exact_lines mx i origins ok ((n, e) :: l :: p)) with (exact_lines mx (S i) (next_origins i origins n e) (next_exact mx origins ok n e) (l :: p)).
    apply (IH (S i) _ _ (next_exactb mx origins ok' n e)); [|exact H]. destruct n as [n|]; [|auto]. cbn [next_exact next_exactb]. intros m Hm.
    destruct (text_eqb m n) eqn:E.
    + left. apply text_eqb_eq in E. split; auto. now apply (extreme_exactb_iff mx origins ok ok').
    + right. split; auto. now apply text_eqb_neq.
Qed.
Lemma exactb_iff : forall mx p, exact_linesb mx 0 (fun _ => []) (fun _ => false) p = true -> program_extreme_exact mx p.
Proof. intros mx p H. apply (exact_linesb_iff mx p 0 _ _ (fun _ => false)); [discriminate | exact H]. Qed.

(** ** Programs that always raise the same exception *)
Definition run_exns (R : Runtime) (s : state R) (lines : list text) : list (Z * option exn) :=
  map (fun wr => (fst wr, match snd (snd wr) with Ok _ => None | Raise x => Some x end)) (roll R lines s).
Lemma raises_only : forall R s lines x, run_exns R s lines = [(1, Some x)] -> (forall v, ~ can_roll R s lines v) /\ can_raise R s lines x.
Proof.
  intros R s lines x H. unfold run_exns in H. unfold can_roll, can_raise. destruct (roll R lines s) as [|[w [s' r]] [|? ?]]; try discriminate.
  cbn [map fst snd] in H. destruct r as [a|y]; inversion H; subst. split.
  - intros v [w' [run [[E|[]] [_ S]]]]. inversion E; subst. discriminate.
  - exists 1, s'. split; [now left|lia].
Qed.
Lemma raises_none : forall R s lines, forallb (fun r => match snd r with None => true | Some _ => false end) (run_exns R s lines) = true -> forall x, ~ can_raise R s lines x.
Proof.
  intros R s lines H x [w [s' [I _]]]. rewrite forallb_forall in H. specialize (H (w, Some x)). unfold run_exns in H. discriminate H.
  apply in_map_iff. now exists (w, (s', Raise x)).
Qed.
Lemma positive_rollable : forall p, positive p /\ sided p -> rollable p.
Proof.
  intros p [P D] m Hm C. specialize (D m Hm). destruct m as [|[y k] m]; [congruence|]. assert (Hk : 0 < k) by (apply (P ((y, k) :: m) y); [exact Hm|now left]).
  unfold faces in C. cbn [flat_map fst snd] in C. apply app_eq_nil in C. destruct C as [C _]. replace k with (Z.succ (k - 1)) in C by lia. rewrite Z2Nat.inj_succ in C by lia. discriminate.
Qed.
Lemma light_drawable : forall p, positive p /\ sided p -> forallb (fun m => zsum (map snd m) <? float_limit) (program_dice p) = true -> drawable p.
Proof.
  intros p P H m Hm. rewrite forallb_forall in H. specialize (H m Hm). apply Z.ltb_lt in H. split; [now apply (positive_rollable p)|exact H].
Qed.
