(** * RelationProofs: C79 *)
From Coq Require Import QArith Qabs Permutation Lqa.
From Verif Require Import Py PyFacts PyFloat Constraint Distribution DistFacts DiceModel Expr Parser Interp Instances SpecDice DiceFacts DiceProofs SpecProgram SpecRoll
  SpecInterp SpecAlgebra AlgebraFacts ExprFacts ProgramFacts JointFacts RaiseFacts WfFacts InterpRun RollFacts ProgramProofs RollProofs
  Checks SpecProb ProbProofs SpecExchange ExchangeProofs SpecBetter BetterProofs SpecFormula SpecCases CaseProofs SpecCost SpecSplit SplitProofs SpecPool PoolProofs SpecRelation SpecAlgebra SpecSplit.
Local Open Scope Z_scope.

(** ** Joint results *)
Lemma both_after : forall (F : option Z -> option Z) h a b, F None = None -> map F (both h a b) = both (fun x y => F (h x y)) a b.
Proof.
  intros F h a b F0. unfold both. induction a as [|x a IH]; [reflexivity|]. cbn [flat_map]. rewrite map_app, IH, map_map. f_equal. apply map_ext. intros y. destruct x, y; auto.
Qed.
Lemma both_one_right : forall f l z, both f l [Some z] = map (fun v => match v with Some v => f v z | None => None end) l.
Proof. intros f l z. unfold both. induction l as [|x l IH]; [reflexivity|]. cbn [flat_map map app]. f_equal. Qed.
Lemma both_one_left : forall f l z, both f [Some z] l = map (fun v => match v with Some v => f z v | None => None end) l.
Proof. intros f l z. unfold both. cbn [flat_map]. now rewrite app_nil_r. Qed.
Lemma computed_joint : forall a b E h, computed a b E h -> forall sides env, joint sides env E = both h (joint sides env a) (joint sides env b).
Proof.
  induction 1 as [E HE|E h C IH|E h C IH|E h C IH|E h E' t z C IH HE Ht|E h E' t z C IH HE Ht]; intros sides env.
  - now apply operands_joint.
  - apply IH.
  - cbn [joint]. rewrite IH. now apply both_after.
  - cbn [joint]. rewrite IH. now apply both_after.
  - rewrite (operands_joint _ _ _ sides env HE), IH. cbn [joint]. rewrite Ht, both_one_right. now rewrite both_after.
  - rewrite (operands_joint _ _ _ sides env HE), IH. cbn [joint]. rewrite Ht, both_one_left. now rewrite both_after.
Qed.
Lemma computed_reads : forall a b E h, computed a b E h -> reads E = reads a ++ reads b.
Proof.
  induction 1 as [E HE|E h C IH|E h C IH|E h C IH|E h E' t z C IH HE Ht|E h E' t z C IH HE Ht]; cbn [reads]; auto; [now apply operands_reads| |]; rewrite (operands_reads _ _ _ HE); cbn [reads app];
    rewrite ?app_nil_r; exact IH.
Qed.

Section Relations.
  Context (R : Runtime).
  Notation dist := (Distribution.dist R).
  Notation keys d := (map fst (get_result_map R d)).
  Context (q : program) (a b : expr).
  Notation worlds := (envs (EAdd a b) None no_values q).
  Notation ja we := (joint faces (snd we) a).
  Notation jb we := (joint faces (snd we) b).

  (** the sum over all joint results of the two operands *)
  Definition all_pairs (F : option Z -> option Z -> Z) : Z := lsum (fun we => fst we * lsum (fun x => lsum (fun y => F x y) (jb we)) (ja we)) worlds.
  Lemma calculates_sum : forall h (d : dist), calculates R q a b h d -> dinv R d /\ 0 < total_ways R d /\ (forall g, lsum (fun v => g v * reported R d v) (keys d) = all_pairs (fun x y => fo g (bothv h x y))) /\
    forall w en x y, In (w, en) worlds -> In x (joint faces en a) -> In y (joint faces en b) -> bothv h x y <> None.
  Proof.
    intros h d [E [s [lines [C [G [Rl [T [Hs H]]]]]]]]. destruct (last_sum R q None E s lines d Hs T G H) as [D [A N]]. specialize (N (rollable_sided _ Rl)).
    assert (Er : reads E = reads (EAdd a b)) by (rewrite (computed_reads _ _ _ _ C); reflexivity). rewrite (envs_last E (EAdd a b) None Er q no_values) in *.
    split; [exact D|]. split; [exact (total_pos R s lines _ d Hs T G Rl H)|]. split.
    - intros g. rewrite A. apply lsum_ext. intros we _. f_equal. rewrite (computed_joint _ _ _ _ C), lsum_both2. reflexivity.
    - intros w en x y Iw Ix Iy X. apply (N w en Iw). rewrite (computed_joint _ _ _ _ C). unfold both. apply in_flat_map. exists x. split; [exact Ix|]. apply in_map_iff. exists y. split; [exact X | exact Iy].
  Qed.
  Lemma pairs_le : forall F G, (forall w en x y, In (w, en) worlds -> In x (joint faces en a) -> In y (joint faces en b) -> F x y <= G x y) -> all_pairs F <= all_pairs G.
  Proof.
    intros F G H. apply lsum_le. intros [w en] Iw. cbn [fst snd]. assert (W := envs_pos _ _ _ _ _ _ Iw). apply Z.mul_le_mono_nonneg_l; [lia|].
    apply lsum_le. intros x Ix. apply lsum_le. intros y Iy. now apply (H w en).
  Qed.
  Lemma pairs_plus : forall F G, all_pairs (fun x y => F x y + G x y) = all_pairs F + all_pairs G.
  Proof.
    intros F G. unfold all_pairs. rewrite <- lsum_plus. apply lsum_ext. intros we _. rewrite <- Z.mul_add_distr_l. f_equal. rewrite <- lsum_plus. apply lsum_ext. intros x _. apply lsum_plus.
  Qed.
  Lemma pairs_scale : forall c F, all_pairs (fun x y => c * F x y) = c * all_pairs F.
  Proof.
    intros c F. unfold all_pairs. rewrite <- lsum_scale. apply lsum_ext. intros we _. rewrite (lsum_ext _ _ (fun x => c * lsum (fun y => F x y) (jb we))) by (intros x _; apply lsum_scale). rewrite lsum_scale. ring.
  Qed.
  Lemma pairs_ext : forall F G, (forall w en x y, In (w, en) worlds -> In x (joint faces en a) -> In y (joint faces en b) -> F x y = G x y) -> all_pairs F = all_pairs G.
  Proof. intros F G H. apply Z.le_antisymm; apply pairs_le; intros w en x y I1 I2 I3; rewrite (H w en x y I1 I2 I3); lia. Qed.
  Lemma calculates_total : forall h (d : dist), calculates R q a b h d -> total_ways R d = all_pairs (fun _ _ => 1).
  Proof.
    intros h d H. destruct (calculates_sum h d H) as [D [_ [A N]]]. rewrite (total_sum R d D), (A (fun _ => 1)). apply pairs_ext. intros w en x y I1 I2 I3.
    specialize (N w en x y I1 I2 I3). destruct (bothv h x y); [reflexivity | contradiction].
  Qed.
  Lemma calculates_mean : forall h (d : dist), calculates R q a b h d -> (mean R d == inject_Z (all_pairs (fun x y => fo (fun v => v) (bothv h x y))) / inject_Z (all_pairs (fun _ _ => 1%Z)))%Q.
  Proof.
    intros h d H. destruct (calculates_sum h d H) as [D [_ [A _]]]. rewrite <- (expected_mean R d D). unfold expected. now rewrite (A (fun v => v)), (calculates_total h d H).
  Qed.

  Definition pair_sum (l : results_of R) (x y : option Z) : Z := zsum (map (fun t => fst (fst t) * fo (fun v => v) (bothv (snd (fst t)) x y)) l).
  Lemma means_sum : forall l, calculated R q a b l -> (sum_of_means R l == inject_Z (all_pairs (pair_sum l)) / inject_Z (all_pairs (fun _ _ => 1%Z)))%Q.
  Proof.
    induction l as [|[[c h] d] l IH]; intros C.
    - change (pair_sum []) with (fun _ _ : option Z => 0). rewrite (pairs_ext _ (fun x y => 0 * (fun _ _ => 0) x y)) by (intros; reflexivity). rewrite pairs_scale, Z.mul_0_l. unfold sum_of_means, Qdiv. cbn [map qtotal fold_right]. ring.
    - change (sum_of_means R ((c, h, d) :: l)) with (inject_Z c * mean R d + sum_of_means R l)%Q. rewrite (IH (fun c' h' d' I => C c' h' d' (or_intror I))), (calculates_mean h d (C c h d (or_introl eq_refl))).
      rewrite (pairs_ext (pair_sum ((c, h, d) :: l)) (fun x y => c * fo (fun v => v) (bothv h x y) + pair_sum l x y)) by (intros; reflexivity).
      rewrite pairs_plus, (pairs_scale c (fun x y => fo (fun v => v) (bothv h x y))), inject_Z_plus, inject_Z_mult. unfold Qdiv. ring.
  Qed.

  Lemma possible_here : forall l, calculated R q a b l -> l <> [] -> forall w en x y, In (w, en) worlds -> In x (joint faces en a) -> In y (joint faces en b) ->
    exists x' y', x = Some x' /\ y = Some y' /\ possible_pair R a b l x' y' /\ pair_sum l x y = sum_at R l x' y'.
  Proof.
    intros l C Nl w en x y I1 I2 I3.
    assert (B : forall c h d, In (c, h, d) l -> bothv h x y <> None) by (intros c h d I; destruct (calculates_sum h d (C c h d I)) as [_ [_ [_ N]]]; now apply (N w en)).
    destruct x as [x|]; [|exfalso; destruct l as [|[[c h] d] l']; [congruence|]; apply (B c h d (or_introl eq_refl)); reflexivity].
    destruct y as [y|]; [|exfalso; destruct l as [|[[c h] d] l']; [congruence|]; apply (B c h d (or_introl eq_refl)); reflexivity].
    assert (Inc : forall env f, incl (joint faces env f) (joint (map fst) env f)) by (intros env f; apply joint_incl; intros m _ z; apply faces_sides).
    exists x, y. split; [reflexivity|]. split; [reflexivity|]. split; [|reflexivity]. split; [exists en; now apply Inc|]. split; [exists en; now apply Inc|]. exact B.
  Qed.
  Theorem relation_le : forall l k, calculated R q a b l -> l <> [] -> (forall x y, possible_pair R a b l x y -> sum_at R l x y <= k) -> (sum_of_means R l <= inject_Z k)%Q.
  Proof.
    intros l k C Nl H. rewrite (means_sum l C). destruct l as [|[[c h] d] l']; [congruence|]. set (l := (c, h, d) :: l') in *.
    assert (P : 0 < all_pairs (fun _ _ => 1)) by (rewrite <- (calculates_total h d (C c h d (or_introl eq_refl))); exact (proj1 (proj2 (calculates_sum h d (C c h d (or_introl eq_refl)))))).
    apply Qle_shift_div_r; [change 0%Q with (inject_Z 0); rewrite <- Zlt_Qlt; exact P|]. rewrite <- inject_Z_mult, <- Zle_Qle, <- pairs_scale. apply pairs_le. intros w en x y I1 I2 I3.
    destruct (possible_here l C Nl w en x y I1 I2 I3) as [x' [y' [-> [-> [B ->]]]]]. specialize (H x' y' B). lia.
  Qed.
  Definition opposite (l : results_of R) : results_of R := map (fun t => (- fst (fst t), snd (fst t), snd t)) l.
  Lemma opposite_means : forall l, (sum_of_means R (opposite l) == - sum_of_means R l)%Q.
  Proof.
    induction l as [|[[c h] d] l IH]; [reflexivity|]. unfold sum_of_means, opposite in *. cbn [map fst snd qtotal fold_right]. unfold qtotal in IH. rewrite IH, inject_Z_opp. ring.
  Qed.
  Lemma opposite_at : forall l x y, sum_at R (opposite l) x y = - sum_at R l x y.
  Proof. induction l as [|[[c h] d] l IH]; intros x y; [reflexivity|]. unfold sum_at, opposite in *. cbn [map fst snd]. rewrite !zsum_cons, IH. ring. Qed.
  Theorem relation_eq : forall l k, calculated R q a b l -> l <> [] -> (forall x y, possible_pair R a b l x y -> sum_at R l x y = k) -> (sum_of_means R l == inject_Z k)%Q.
  Proof.
    intros l k C Nl H. apply Qle_antisym.
    - apply relation_le; auto. intros x y P. rewrite (H x y P). lia.
    - assert (L := relation_le (opposite l) (- k)). rewrite opposite_means, inject_Z_opp in L. enough (X : (- sum_of_means R l <= - inject_Z k)%Q) by lra. apply L; clear L.
      + intros c h d I. apply in_map_iff in I. destruct I as [[[c' h'] d'] [E I]]. injection E as _ <- <-. exact (C _ _ _ I).
      + destruct l; [congruence | discriminate].
      + intros x y [P1 [P2 P3]]. rewrite opposite_at, H; [lia|]. split; [exact P1|]. split; [exact P2|]. intros c h d I. apply (P3 (- c) h d). apply in_map_iff. now exists (c, h, d).
  Qed.
  Lemma truth_mean : forall h (d : dist), calculates R q a b h d -> (forall x y v, h x y = Some v -> v = 0 \/ v = 1) -> (probability R d 1 == mean R d)%Q.
  Proof.
    intros h d H B. rewrite (calculates_mean h d H), <- expected_probability. unfold expected. destruct (calculates_sum h d H) as [_ [_ [A _]]]. rewrite (A (fun w => if w =? 1 then 1 else 0)), (calculates_total h d H).
    rewrite (pairs_ext _ (fun x y => fo (fun v => v) (bothv h x y))); [reflexivity|]. intros w en x y _ _ _. destruct (bothv h x y) as [v|] eqn:E; [|reflexivity]. destruct x as [x|], y as [y|]; try discriminate.
    cbn [fo]. destruct (B x y v E) as [->| ->]; reflexivity.
  Qed.
End Relations.

(** ** Comparisons, MAX and MIN, AND and OR *)
Lemma operator_truth : forall op f, operator_meaning op = Some f -> forall x y, f x y = 0 \/ f x y = 1.
Proof.
  intros op f H x y. unfold operator_meaning in H.
  repeat match type of H with (if ?c then _ else _) = _ => destruct c; [injection H as <-; match goal with |- truth ?c = 0 \/ _ => destruct c; auto end|] end. discriminate.
Qed.
Lemma combined_truth : forall op a b x y v, combined (EBin op a b) x y = Some v -> v = 0 \/ v = 1.
Proof.
  intros op a b x y v H. cbn [combined] in H. destruct (operator_meaning op) as [f|] eqn:E; [|discriminate]. injection H as <-. now apply (operator_truth op).
Qed.
(** a comparison, AND or OR is 0 or 1 *)
Lemma comparison_can_be : forall op a b x, can_be (EParen (EBin op a b)) (Some x) -> x = 0 \/ x = 1.
Proof.
  intros op a b x [env I]. cbn [joint] in I. apply ExprFacts.in_both in I. destruct I as [u [v [_ [_ I]]]]. exact (combined_truth op a b u v x I).
Qed.
Section Laws.
  Context (R : Runtime) (q : program) (a b : expr).
  Notation dist := (Distribution.dist R).
  Notation result := (calculates R q a b).
  Notation op t := (combined (EBin t a b)).
  Ltac members := let c := fresh in let h := fresh in let d := fresh in let I := fresh in intros c h d I; repeat (destruct I as [I|I]; [injection I as <- <- <-; assumption|]); destruct I.

  Theorem relation_compare : forall dlt deq dgt, result (op $"<") dlt -> result (op $"==") deq -> result (op $">") dgt -> (probability R dlt 1 + probability R deq 1 + probability R dgt 1 == 1)%Q.
  Proof.
    intros dlt deq dgt H1 H2 H3. rewrite (truth_mean R q a b _ _ H1 (combined_truth _ _ _)), (truth_mean R q a b _ _ H2 (combined_truth _ _ _)), (truth_mean R q a b _ _ H3 (combined_truth _ _ _)).
    assert (E := relation_eq R q a b [(1, op $"<", dlt); (1, op $"==", deq); (1, op $">", dgt)] 1 ltac:(members) ltac:(discriminate)).
    unfold sum_of_means in E. cbn [map fst snd qtotal fold_right] in E. rewrite <- E; [change (inject_Z 1) with 1%Q; ring|]. intros x y _. unfold sum_at. cbn [map fst snd]. rewrite !zsum_cons. cbn -[Z.ltb Z.eqb Z.mul Z.add]. unfold truth.
    change (zsum []) with 0. destruct (Z.ltb_spec x y), (Z.eqb_spec x y), (Z.ltb_spec y x); lia.
  Qed.
  Theorem relation_compare_both : forall dlt deq dgt dle dge dne, result (op $"<") dlt -> result (op $"==") deq -> result (op $">") dgt -> result (op $"<=") dle -> result (op $">=") dge -> result (op $"!=") dne ->
    (probability R dle 1 == probability R dlt 1 + probability R deq 1)%Q /\ (probability R dge 1 == probability R dgt 1 + probability R deq 1)%Q /\
    (probability R dne 1 == probability R dlt 1 + probability R dgt 1)%Q.
  Proof.
    intros dlt deq dgt dle dge dne H1 H2 H3 H4 H5 H6.
    rewrite (truth_mean R q a b _ _ H1 (combined_truth _ _ _)), (truth_mean R q a b _ _ H2 (combined_truth _ _ _)), (truth_mean R q a b _ _ H3 (combined_truth _ _ _)),
      (truth_mean R q a b _ _ H4 (combined_truth _ _ _)), (truth_mean R q a b _ _ H5 (combined_truth _ _ _)), (truth_mean R q a b _ _ H6 (combined_truth _ _ _)).
    assert (E1 := relation_eq R q a b [(1, op $"<", dlt); (1, op $"==", deq); (-1, op $"<=", dle)] 0 ltac:(members) ltac:(discriminate)).
    assert (E2 := relation_eq R q a b [(1, op $">", dgt); (1, op $"==", deq); (-1, op $">=", dge)] 0 ltac:(members) ltac:(discriminate)).
    assert (E3 := relation_eq R q a b [(1, op $"<", dlt); (1, op $">", dgt); (-1, op $"!=", dne)] 0 ltac:(members) ltac:(discriminate)).
    unfold sum_of_means in E1, E2, E3. cbn [map fst snd qtotal fold_right] in E1, E2, E3. change (inject_Z 1) with 1%Q in *. change (inject_Z (-1)) with (-1)%Q in *. change (inject_Z 0) with 0%Q in *.
    split; [|split]; [match type of E1 with ?P -> _ => assert (X : P) end; [|specialize (E1 X); lra]
      | match type of E2 with ?P -> _ => assert (X : P) end; [|specialize (E2 X); lra] | match type of E3 with ?P -> _ => assert (X : P) end; [|specialize (E3 X); lra]];
      clear; intros x y _; unfold sum_at; cbn [map fst snd]; rewrite !zsum_cons; cbn -[Z.ltb Z.eqb Z.leb Z.mul Z.add]; unfold truth; change (zsum []) with 0;
      destruct (Z.ltb_spec x y), (Z.eqb_spec x y), (Z.ltb_spec y x), (Z.leb_spec x y), (Z.leb_spec y x); cbn [negb]; lia.
  Qed.
  Theorem relation_minmax : forall dmax dmin dadd, result (combined (EMinMax $"MAX" a b)) dmax -> result (combined (EMinMax $"MIN" a b)) dmin -> result (combined (EAdd a b)) dadd ->
    (mean R dmax + mean R dmin == mean R dadd)%Q.
  Proof.
    intros dmax dmin dadd H1 H2 H3.
    assert (E := relation_eq R q a b [(1, combined (EMinMax $"MAX" a b), dmax); (1, combined (EMinMax $"MIN" a b), dmin); (-1, combined (EAdd a b), dadd)] 0 ltac:(members) ltac:(discriminate)).
    unfold sum_of_means in E. cbn [map fst snd qtotal fold_right] in E. change (inject_Z 1) with 1%Q in *. change (inject_Z (-1)) with (-1)%Q in *. change (inject_Z 0) with 0%Q in *.
    match type of E with ?P -> _ => assert (X : P) end; [|specialize (E X); lra]. intros x y _. unfold sum_at. cbn [map fst snd]. rewrite !zsum_cons. cbn -[Z.max Z.min Z.mul Z.add]. change (zsum []) with 0. lia.
  Qed.
  Theorem relation_distance : forall dmax dmin dabs dsub, result (combined (EMinMax $"MAX" a b)) dmax -> result (combined (EMinMax $"MIN" a b)) dmin ->
    result (fun x y => option_map Z.abs (combined (ESub a b) x y)) dabs -> result (combined (ESub a b)) dsub -> (mean R dmax - mean R dmin == mean R dabs)%Q /\ (Qabs (mean R dsub) <= mean R dabs)%Q.
  Proof.
    intros dmax dmin dabs dsub H1 H2 H3 H4. split.
    - assert (E := relation_eq R q a b [(1, combined (EMinMax $"MAX" a b), dmax); (-1, combined (EMinMax $"MIN" a b), dmin); (-1, fun x y => option_map Z.abs (combined (ESub a b) x y), dabs)] 0 ltac:(members) ltac:(discriminate)).
      unfold sum_of_means in E. cbn [map fst snd qtotal fold_right] in E. change (inject_Z 1) with 1%Q in *. change (inject_Z (-1)) with (-1)%Q in *. change (inject_Z 0) with 0%Q in *.
      match type of E with ?P -> _ => assert (X : P) end; [|specialize (E X); lra]. intros x y _. unfold sum_at. cbn [map fst snd]. rewrite !zsum_cons. cbn -[Z.max Z.min Z.mul Z.add Z.sub Z.abs]. change (zsum []) with 0. lia.
    - assert (E1 := relation_le R q a b [(1, combined (ESub a b), dsub); (-1, fun x y => option_map Z.abs (combined (ESub a b) x y), dabs)] 0 ltac:(members) ltac:(discriminate)).
      assert (E2 := relation_le R q a b [(-1, combined (ESub a b), dsub); (-1, fun x y => option_map Z.abs (combined (ESub a b) x y), dabs)] 0 ltac:(members) ltac:(discriminate)).
      unfold sum_of_means in E1, E2. cbn [map fst snd qtotal fold_right] in E1, E2. change (inject_Z 1) with 1%Q in *. change (inject_Z (-1)) with (-1)%Q in *. change (inject_Z 0) with 0%Q in *.
      match type of E1 with ?P -> _ => assert (X : P) end; [|specialize (E1 X)].
      + intros x y _. unfold sum_at. cbn [map fst snd]. rewrite !zsum_cons. cbn -[Z.mul Z.add Z.sub Z.abs]. change (zsum []) with 0. lia.
      + match type of E2 with ?P -> _ => assert (Y : P) end; [|specialize (E2 Y)].
        * intros x y _. unfold sum_at. cbn [map fst snd]. rewrite !zsum_cons. cbn -[Z.mul Z.add Z.sub Z.abs]. change (zsum []) with 0. lia.
        * apply Qabs_Qle_condition. split; lra.
  Qed.
  Theorem relation_logic : forall dand dor dadd, (forall x, can_be a (Some x) -> x = 0 \/ x = 1) -> (forall y, can_be b (Some y) -> y = 0 \/ y = 1) -> result (op $"AND") dand -> result (op $"OR") dor ->
    result (combined (EAdd a b)) dadd -> (probability R dand 1 + probability R dor 1 == mean R dadd)%Q.
  Proof.
    intros dand dor dadd Ta Tb H1 H2 H3. rewrite (truth_mean R q a b _ _ H1 (combined_truth _ _ _)), (truth_mean R q a b _ _ H2 (combined_truth _ _ _)).
    assert (E := relation_eq R q a b [(1, op $"AND", dand); (1, op $"OR", dor); (-1, combined (EAdd a b), dadd)] 0 ltac:(members) ltac:(discriminate)).
    unfold sum_of_means in E. cbn [map fst snd qtotal fold_right] in E. change (inject_Z 1) with 1%Q in *. change (inject_Z (-1)) with (-1)%Q in *. change (inject_Z 0) with 0%Q in *.
    match type of E with ?P -> _ => assert (X : P) end; [|specialize (E X); lra]. intros x y [Px [Py _]]. destruct (Ta x Px) as [->| ->], (Tb y Py) as [->| ->]; reflexivity.
  Qed.
End Laws.

(** ** Showing what a program of two lines calculates *)
Ltac show_calculates lines H proof :=
  let r := eval vm_compute in (program_of lines) in match r with Some (?l :: (None, ?E) :: nil) =>
    let T := fresh in assert (T : program_text lines ([l] ++ [(None, E)])) by (apply program_of_text; vm_compute; reflexivity);
    exists E, (empty_state rt_fwd), lines; split; [proof|]; split; [exact (checked_good _ _ T ltac:(vm_compute; reflexivity))|]; split; [apply rollableb_iff; vm_compute; reflexivity|];
    split; [exact T|]; split; [apply af_now | exact H] end.
Ltac by_operation := idtac; match goal with |- computed ?a ?b ?E _ => exact (co_operation a b E eq_refl) end.
Ltac by_distance := idtac; match goal with |- computed ?a ?b (EAbs ?E) _ => exact (co_abs a b E _ (co_operation a b E eq_refl)) end.
