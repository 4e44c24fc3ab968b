(** * TextProofs: the lemmas behind PropsText *)
From Coq Require Import Permutation.
From Verif Require Import Py PyFacts PyFloat Constraint Distribution DiceModel Expr Lexer Parser Interp SpecDice SpecNotation SpecGrammar SpecLexer SpecOps SpecInterp SpecText
  DiceFacts DropKeepFacts NotationFacts DiceProofs LexFacts LexProofs SpaceProofs StateFacts WfFacts CallFacts.

(** ** Custom dice *)
Lemma unspaced_digits : forall t, (forall c, In c t -> is_space c = false) -> filter (fun c => negb (is_space c)) t = t.
Proof.
  induction t as [|c t IH]; intros H; [reflexivity|]. cbn [filter]. rewrite (H c (or_introl eq_refl)). cbn [negb]. rewrite IH; [reflexivity|]. intros x I. apply H. now right.
Qed.
Lemma unspaced_blank : forall t, blank t -> filter (fun c => negb (is_space c)) t = [].
Proof.
  induction t as [|c t IH]; intros H; [reflexivity|]. unfold blank in H. cbn [forallb] in H. apply andb_true_iff in H. destruct H as [Hc H]. cbn [filter]. rewrite Hc. now apply IH.
Qed.
Lemma unspaced_padded : forall e w, entry_ok e -> padded e w -> filter (fun c => negb (is_space c)) w = entry_text e.
Proof.
  intros e w O [a [b [A [B ->]]]]. rewrite !filter_app, (unspaced_blank a A), (unspaced_blank b B), app_nil_r. apply unspaced_digits. intros c H.
  apply entry_text_chars in H; [|exact O]. destruct H as [H|[->| ->]]; [|reflexivity|reflexivity]. destruct c as [[] [] [] [] [] [] [] []]; vm_compute in H; try discriminate; reflexivity.
Qed.
Lemma unspaced_join : forall es ws, (forall e, In e es -> entry_ok e) -> Forall2 padded es ws ->
  filter (fun c => negb (is_space c)) (join $"," ws) = join $"," (map entry_text es).
Proof.
  intros es ws O F. induction F as [|e w es ws P F IH]; [reflexivity|]. cbn [map]. rewrite <- (unspaced_padded e w) by (auto; apply O; now left).
  specialize (IH (fun e' I => O e' (or_intror I))). destruct F as [|e' w' es ws P' F]; [reflexivity|].
  change (join $"," (w :: w' :: ws)) with (w ++ $"," ++ join $"," (w' :: ws)). rewrite !filter_app, IH. reflexivity.
Qed.

Lemma custom_text_body : forall es tr s, custom_text es tr s -> exists body, s = $"[" ++ body ++ $"]" /\ ~ In "["%char body /\ ~ In "]"%char body /\
  filter (fun c => negb (is_space c)) body = join $"," (map entry_text es) ++ (if tr then $"," else []).
Proof.
  intros es tr s C. pose proof (custom_form es tr s C) as [body [E B]]. exists body. split; [exact E|].
  assert (X : forall c, In c body -> bracket_char c = true) by (apply forallb_forall; exact B).
  split; [intros I; apply X in I; discriminate|]. split; [intros I; apply X in I; discriminate|]. destruct C as [Ne [O [ws [sp [F [Sp Es]]]]]].
  assert (Eb : body = join $"," ws ++ (if tr then $"," ++ sp else [])).
  { apply (app_inv_tail $"]"). apply (app_inv_head $"["). rewrite <- app_assoc, <- Es. symmetry. exact E. }
  rewrite Eb, filter_app, (unspaced_join es ws O F). destruct tr; [|reflexivity]. rewrite filter_app, (unspaced_blank sp Sp), app_nil_r. reflexivity.
Qed.
Lemma custom_text_is : forall es s, custom_text es false s -> is_custom s es.
Proof.
  intros es s C. destruct (custom_text_body es false s C) as [body [E [B1 [B2 F]]]]. destruct C as [Ne [O _]]. split; [exact Ne|]. split; [exact O|]. exists body.
  rewrite app_nil_r in F. auto.
Qed.
Lemma custom_text_trailing : forall es s, custom_text es true s -> is_custom_trailing s es.
Proof.
  intros es s C. destruct (custom_text_body es true s C) as [body [E [B1 [B2 F]]]]. destruct C as [Ne [O _]]. split; [exact Ne|]. split; [exact O|]. exists body. auto.
Qed.

Lemma die_text_notation : forall s fs vs, die_text s fs vs -> die_notation s fs.
Proof. intros s fs vs H. destruct H; constructor; auto. now apply custom_text_is. Qed.
Lemma die_text_sides : forall s fs vs, die_text s fs vs -> sides_form s.
Proof. intros s fs vs H. destruct H; [now apply sides_number|apply sides_percent|apply sides_fate|now apply (sides_custom es false)]. Qed.
Lemma die_text_values : forall s fs vs m, die_text s fs vs -> get_single_dice_outcome_map s = Ok m -> forall v, In v (map fst m) <-> In v vs.
Proof.
  intros s fs vs m H E v. destruct H as [s H| | |s es H].
  - rewrite (numbered_die_spec s H) in E. apply Ok_inj in E. subst m. rewrite map_map. cbn [fst]. rewrite map_id, zrange_seq; [reflexivity|]. apply int_of_is_digits in H. tauto.
  - apply Ok_inj in E. subst m. reflexivity.
  - apply Ok_inj in E. subst m. reflexivity.
  - apply custom_text_is in H. destruct (custom_die_spec s es H) as [m' [E' [_ [_ [_ K]]]]]. assert (m' = m) by congruence. subst m'. rewrite K, in_flat_map. reflexivity.
Qed.

Lemma count_digits : forall ct n, count_notation ct n -> forallb is_digit ct = true.
Proof. intros ct n [[-> _]|[[_ H] _]]; [reflexivity|exact H]. Qed.
Lemma dice_form_of : forall ct n sides fs vs, count_notation ct n -> die_text sides fs vs -> dice_form_text (ct ++ $"d" ++ sides).
Proof. intros ct n sides fs vs C D. exists ct, sides. split; [reflexivity|]. split; [eapply count_digits; eauto|eapply die_text_sides; eauto]. Qed.

(** ** Lines with one token *)
Lemma laid_blank : forall a p s ts, blank a -> laid_out (last_of p a) s ts -> laid_out p (a ++ s) ts.
Proof.
  induction a as [|c a IH]; intros p s ts B L; [exact L|]. unfold blank in B. cbn [forallb] in B. apply andb_true_iff in B. destruct B as [Bc B]. cbn [app last_of] in *.
  apply lo_space; [exact Bc|]. now apply IH.
Qed.
Lemma space_any : forall c x, is_space c = true -> may_meet c x = true.
Proof.
  intros c x H. assert (X : is_word c || Ascii.eqb c "%" || Ascii.eqb c "]" = false /\ Ascii.eqb c "=" || Ascii.eqb c "!" || Ascii.eqb c "<" || Ascii.eqb c ">" = false /\ Ascii.eqb c "-" = false).
  { destruct c as [[] [] [] [] [] [] [] []]; vm_compute in H; try discriminate; repeat split. }
  destruct X as [X1 [X2 X3]]. unfold may_meet. now rewrite X1, X2, X3.
Qed.
Lemma follow_blank : forall a w, blank a -> may_follow (last_of None a) w.
Proof.
  intros a w B. destruct a as [|c a]; [exact I|]. destruct (exists_last (l := c :: a)) as [u [x E]]; [discriminate|]. rewrite E, last_of_end. cbn [may_follow].
  destruct w as [|y w]; [exact I|]. apply space_any. unfold blank in B. rewrite E, forallb_app in B. apply andb_true_iff in B. destruct B as [_ B]. cbn [forallb] in B.
  now rewrite andb_true_r in B.
Qed.
Lemma alone_lexes : forall n w t, token_form n w -> alone w t -> lex t = LexOk [{| tk_name := n; tk_text := w |}].
Proof.
  intros n w t F [a [b [A [B ->]]]]. apply laid_out_tokens. apply laid_blank; [exact A|]. apply (lo_token _ {| tk_name := n; tk_text := w |}); [exact F|now apply follow_blank|].
  rewrite <- (app_nil_r b). apply laid_blank; [exact B|]. apply lo_end.
Qed.
Lemma alone_parses : forall n w t e, token_form n w -> alone w t -> derives e [{| tk_name := n; tk_text := w |}] -> well_grouped e -> parse t = Ok e.
Proof. intros n w t e F A D W. apply parse_ok. eexists. split; [eapply alone_lexes; eauto|]. auto. Qed.

Lemma dice_line : forall ct n sides fs vs t d, count_notation ct n -> die_text sides fs vs -> alone (ct ++ $"d" ++ sides) t -> mk_dice (ct ++ $"d" ++ sides) = Ok d -> parse t = Ok (EDice d).
Proof.
  intros ct n sides fs vs t d C D A M. apply (alone_parses T_DICE _ t _ (dice_form_of ct n sides fs vs C D) A); [|exact I].
  apply (dv_dice {| tk_name := T_DICE; tk_text := ct ++ $"d" ++ sides |}); [reflexivity|exact M].
Qed.
Lemma dropkeep_line : forall ct n sides fs vs (keep : bool) kt t dk, count_notation ct n -> die_text sides fs vs -> is_digits kt ->
  alone (ct ++ $"d" ++ sides ++ (if keep then $"k" else $"d") ++ kt) t -> mk_dropkeep (ct ++ $"d" ++ sides ++ (if keep then $"k" else $"d") ++ kt) = Ok dk -> parse t = Ok (EDropKeep dk).
Proof.
  intros ct n sides fs vs keep kt t dk C D K A M. apply (alone_parses T_DROP_KEEP_DICE (ct ++ $"d" ++ sides ++ (if keep then $"k" else $"d") ++ kt) t); [|exact A| |exact I].
  - exists (ct ++ $"d" ++ sides), (if keep then "k"%char else "d"%char), kt. split; [destruct keep; now rewrite <- !app_assoc|]. split; [eapply dice_form_of; eauto|].
    split; [destruct keep; auto|exact K].
  - apply (dv_dropkeep {| tk_name := T_DROP_KEEP_DICE; tk_text := ct ++ $"d" ++ sides ++ (if keep then $"k" else $"d") ++ kt |}); [reflexivity|exact M].
Qed.

Section WithRuntime.
  Context (R : Runtime).

  Lemma line_reports : forall t e s d, parse t = Ok e -> dist_of R e s = (s, Ok d) -> reports R s [t] d.
  Proof.
    intros t e s d P D. unfold reports, get_probability_distributions, dist_lines, dist_line, bind, lift. rewrite P, D. eexists _, _. split; [reflexivity|].
    unfold set_stdout_var. cbn [st_var]. apply dget_dset_same. apply text_eqb_iff.
  Qed.

  Lemma tuples_values : forall n l l' t, (forall v : Z, In v l <-> In v l') -> (In t (tuples n l) <-> In t (tuples n l')).
  Proof. intros n l l' t H. rewrite !in_tuples. split; intros [A B]; (split; [exact A|]); intros x I; apply H; now apply B. Qed.

  Lemma dice_program : forall s t ct n sides fs vs, count_notation ct n -> 1 <= n -> die_text sides fs vs -> alone (ct ++ $"d" ++ sides) t ->
    exists d, reports R s [t] d /\ (forall v, reported R d v = ways total (Z.to_nat n) fs v) /\
      (forall v, listed R d v <-> exists r, In r (tuples (Z.to_nat n) vs) /\ total r = v).
  Proof.
    intros s t ct n sides fs vs C N D A. destruct (mk_dice_text ct n sides fs C (die_text_notation _ _ _ D)) as [d [M [En [Nc [P Em]]]]].
    destruct (dice_counts R s d Nc) as [dd [Ed [Cn L]]]; [lia|]. rewrite En in Cn, L. exists dd. split; [|split].
    - apply (line_reports t (EDice d)); [eapply dice_line; eauto|exact Ed].
    - intros v. rewrite Cn. now apply ways_perm.
    - intros v. rewrite L. split; intros [r [I T]]; exists r; (split; [|exact T]); revert I; apply tuples_values; intros x;
        [symmetry|]; now apply (die_text_values sides fs vs _ D).
  Qed.

  Lemma dropkeep_program : forall s t ct n sides fs vs (keep : bool) kt, count_notation ct n -> die_text sides fs vs -> is_digits kt -> 0 < decimal kt < n ->
    alone (ct ++ $"d" ++ sides ++ (if keep then $"k" else $"d") ++ kt) t ->
    let score := if keep then keep_highest (Z.to_nat (decimal kt)) else drop_highest (Z.to_nat (decimal kt)) in
    exists d, reports R s [t] d /\ (forall v, reported R d v = ways score (Z.to_nat n) fs v) /\
      (forall v, listed R d v <-> exists r, In r (tuples (Z.to_nat n) vs) /\ score r = v).
  Proof.
    intros s t ct n sides fs vs keep kt C D K Hn A score. destruct (mk_dropkeep_text ct n sides fs keep kt C (die_text_notation _ _ _ D) K) as [dk [M [En [Ek [Kp [N [P Em]]]]]]].
    destruct (dropkeep_counts R s _ dk M) as [dd [Ed [Cn L]]]; [lia|]. exists dd.
    assert (Es : forall r, dk_score dk r = score r) by (intros r; unfold dk_score, score; rewrite Kp, Ek; now destruct keep).
    split; [|split].
    - apply (line_reports t (EDropKeep dk)); [eapply dropkeep_line; eauto|exact Ed].
    - intros v. rewrite Cn, En, (ways_perm _ _ _ _ _ P). unfold ways. f_equal. f_equal. apply filter_ext. intros r. now rewrite Es.
    - intros v. rewrite L, En. split; intros [r [I T]]; exists r; [rewrite <- Es|rewrite Es]; (split; [|exact T]); revert I; apply tuples_values; intros x;
        [symmetry|]; now apply (die_text_values sides fs vs _ D).
  Qed.

  (** ** Interchangeable lines *)
  Lemma bind_ext : forall A B (m : M R A) (f g : A -> M R B) s, (forall a s, f a s = g a s) -> bind R m f s = bind R m g s.
  Proof. intros A B m f g s H. unfold bind. destruct (m s) as [s' [a|x]]; [apply H|reflexivity]. Qed.

  Lemma same_lines : forall t1 t2 e1 e2, parse t1 = Ok e1 -> parse t2 = Ok e2 -> same_operations R e1 e2 -> interchangeable R t1 t2.
  Proof.
    intros t1 t2 e1 e2 P1 P2 [Hr [Hx [Hc Hd]]] before after s.
    assert (Lr : forall s, roll_line R t1 s = roll_line R t2 s) by (intros s0; unfold roll_line, wbind, wlift; rewrite P1, P2; cbn [flat_map]; now rewrite Hr).
    assert (Lx : forall mx s, ext_line R mx t1 s = ext_line R mx t2 s) by (intros mx s0; unfold ext_line, bind, lift; rewrite P1, P2; now rewrite Hx).
    assert (Ld : forall s, dist_line R t1 s = dist_line R t2 s) by (intros s0; unfold dist_line, bind, lift; rewrite P1, P2; now rewrite Hd).
    assert (Xr : forall l d s, roll_from R d (l ++ t1 :: after) s = roll_from R d (l ++ t2 :: after) s).
    { induction l as [|x l IH]; intros d s0; cbn [app roll_from].
      - unfold wbind. now rewrite Lr.
      - apply wbind_ext. intros. apply IH. }
    assert (Xx : forall mx l d s, ext_from R mx d (l ++ t1 :: after) s = ext_from R mx d (l ++ t2 :: after) s).
    { intros mx. induction l as [|x l IH]; intros d s0; cbn [app ext_from].
      - unfold bind. now rewrite Lx.
      - apply bind_ext. intros. apply IH. }
    assert (Xd : forall l r s, dist_lines R r (l ++ t1 :: after) s = dist_lines R r (l ++ t2 :: after) s).
    { induction l as [|x l IH]; intros r s0; cbn [app dist_lines].
      - unfold bind. now rewrite Ld.
      - apply bind_ext. intros. apply IH. }
    assert (Xh : forall l d s, last_dist R d (l ++ t1 :: after) s = last_dist R d (l ++ t2 :: after) s).
    { induction l as [|x l IH]; intros d s0; cbn [app last_dist].
      - unfold bind, lift. rewrite P1, P2, Hd. reflexivity.
      - apply bind_ext. intros. apply bind_ext. intros. apply IH. }
    assert (Xc : forall l n s, cost_from R n (l ++ t1 :: after) s = cost_from R n (l ++ t2 :: after) s).
    { induction l as [|x l IH]; intros n s0; cbn [app cost_from].
      - unfold bind, lift. rewrite P1, P2, Hc. reflexivity.
      - apply bind_ext. intros. apply bind_ext. intros. apply IH. }
    unfold roll, max_call, min_call, get_probability_distributions, get_probability_distributions_dict, get_average, get_histogram, get_at_least_histogram, get_at_most_histogram,
      get_estimated_cost, bind. rewrite Xr, !Xx, Xd, Xh, Xc. repeat split.
  Qed.

  Lemma same_parse : forall t1 t2, parse t1 = parse t2 -> interchangeable R t1 t2.
  Proof.
    intros t1 t2 P before after s.
    assert (Xr : forall l d s, roll_from R d (l ++ t1 :: after) s = roll_from R d (l ++ t2 :: after) s).
    { induction l as [|x l IH]; intros d s0; cbn [app roll_from]; [unfold wbind, roll_line; now rewrite P|]. apply wbind_ext. intros. apply IH. }
    assert (Xx : forall mx l d s, ext_from R mx d (l ++ t1 :: after) s = ext_from R mx d (l ++ t2 :: after) s).
    { intros mx. induction l as [|x l IH]; intros d s0; cbn [app ext_from]; [unfold bind, ext_line; now rewrite P|]. apply bind_ext. intros. apply IH. }
    assert (Xd : forall l r s, dist_lines R r (l ++ t1 :: after) s = dist_lines R r (l ++ t2 :: after) s).
    { induction l as [|x l IH]; intros r s0; cbn [app dist_lines]; [unfold bind, dist_line; now rewrite P|]. apply bind_ext. intros. apply IH. }
    assert (Xh : forall l d s, last_dist R d (l ++ t1 :: after) s = last_dist R d (l ++ t2 :: after) s).
    { induction l as [|x l IH]; intros d s0; cbn [app last_dist]; [unfold bind, lift; now rewrite P|]. apply bind_ext. intros. apply bind_ext. intros. apply IH. }
    assert (Xc : forall l n s, cost_from R n (l ++ t1 :: after) s = cost_from R n (l ++ t2 :: after) s).
    { induction l as [|x l IH]; intros n s0; cbn [app cost_from]; [unfold bind, lift; now rewrite P|]. apply bind_ext. intros. apply bind_ext. intros. apply IH. }
    unfold roll, max_call, min_call, get_probability_distributions, get_probability_distributions_dict, get_average, get_histogram, get_at_least_histogram, get_at_most_histogram,
      get_estimated_cost, bind. rewrite Xr, !Xx, Xd, Xh, Xc. repeat split.
  Qed.
  Lemma same_tokens_program : forall t1 t2 ts, lex t1 = LexOk ts -> lex t2 = LexOk ts -> interchangeable R t1 t2.
  Proof. intros t1 t2 ts L1 L2. apply same_parse. unfold parse. now rewrite L1, L2. Qed.
  Lemma spaced_program : forall u sp v ts1 ts2, lex (u ++ v) = LexOk (ts1 ++ ts2) -> spelled u ts1 -> blank sp -> interchangeable R (u ++ v) (u ++ sp ++ v).
  Proof. intros u sp v ts1 ts2 L H B. eapply same_tokens_program; [exact L|]. now apply insert_spaces. Qed.

  Lemma same_dice : forall d1 d2, dice_map d1 = dice_map d2 -> dice_num d1 = dice_num d2 -> same_operations R (EDice d1) (EDice d2).
  Proof.
    intros [f1 m1 n1] [f2 m2 n2] E1 E2. cbn in E1, E2. subst. repeat split.
  Qed.
  Lemma same_operations_trans : forall a b c, same_operations R a b -> same_operations R b c -> same_operations R a c.
  Proof.
    intros a b c [A1 [A2 [A3 A4]]] [B1 [B2 [B3 B4]]]. repeat split; intros; [now rewrite A1|now rewrite A2|now rewrite A3|now rewrite A4].
  Qed.

  Lemma boundary_dice : forall t1 t2 ct n sides fs vs (keep : bool) kt, count_notation ct n -> die_text sides fs vs -> is_digits kt ->
    (if keep then n <= decimal kt else decimal kt = 0 /\ 0 < n) ->
    alone (ct ++ $"d" ++ sides ++ (if keep then $"k" else $"d") ++ kt) t1 -> alone (ct ++ $"d" ++ sides) t2 -> interchangeable R t1 t2.
  Proof.
    intros t1 t2 ct n sides fs vs keep kt C D K Hn A1 A2. destruct (mk_dropkeep_text ct n sides fs keep kt C (die_text_notation _ _ _ D) K) as [dk [M [En [Ek [Kp [_ [_ Em]]]]]]].
    destruct (mk_dice_text ct n sides fs C (die_text_notation _ _ _ D)) as [d [M' [En' [_ [_ Em']]]]].
    apply (same_lines t1 t2 (EDropKeep dk) (EDice d)); [eapply dropkeep_line; eauto|eapply dice_line; eauto|].
    destruct (dropkeep_plain R _ dk M) as [d' [F1 [F2 S]]].
    { rewrite Kp, En, Ek. destruct keep; [left|right]; auto. }
    apply (same_operations_trans _ _ _ S). apply same_dice; congruence.
  Qed.
  Lemma boundary_zero : forall t1 t2 ct n sides fs vs (keep : bool) kt, count_notation ct n -> die_text sides fs vs -> is_digits kt ->
    (if keep then decimal kt = 0 /\ 0 < n else n <= decimal kt) ->
    alone (ct ++ $"d" ++ sides ++ (if keep then $"k" else $"d") ++ kt) t1 -> alone $"0" t2 -> interchangeable R t1 t2.
  Proof.
    intros t1 t2 ct n sides fs vs keep kt C D K Hn A1 A2. destruct (mk_dropkeep_text ct n sides fs keep kt C (die_text_notation _ _ _ D) K) as [dk [M [En [Ek [Kp _]]]]].
    apply (same_lines t1 t2 (EDropKeep dk) (EInt $"0")); [eapply dropkeep_line; eauto| |].
    - apply (alone_parses T_CONSTANT_INTEGER $"0" t2); [|exact A2|apply (dv_int {| tk_name := T_CONSTANT_INTEGER; tk_text := $"0" |}); reflexivity|exact I].
      exists {| n_minus := false; n_digits := $"0" |}. split; [split; [discriminate|reflexivity]|reflexivity].
    - apply (dropkeep_zero R _ dk M). rewrite Kp, En, Ek. destruct keep; [left|right]; auto.
  Qed.

  (** The order of the entries does not matter, nor how the same faces are written *)
  Lemma same_faces_program : forall s ct n s1 s2 fs1 fs2 vs1 vs2 t1 t2, count_notation ct n -> 1 <= n -> die_text s1 fs1 vs1 -> die_text s2 fs2 vs2 -> Permutation fs1 fs2 ->
    alone (ct ++ $"d" ++ s1) t1 -> alone (ct ++ $"d" ++ s2) t2 ->
    exists d1 d2, reports R s [t1] d1 /\ reports R s [t2] d2 /\ forall v, reported R d1 v = reported R d2 v.
  Proof.
    intros s ct n s1 s2 fs1 fs2 vs1 vs2 t1 t2 C N D1 D2 P A1 A2. destruct (dice_program s t1 ct n s1 fs1 vs1 C N D1 A1) as [d1 [R1 [C1 _]]].
    destruct (dice_program s t2 ct n s2 fs2 vs2 C N D2 A2) as [d2 [R2 [C2 _]]]. exists d1, d2. split; [exact R1|]. split; [exact R2|]. intros v. rewrite C1, C2. now apply ways_perm.
  Qed.

  (** ** Trailing commas *)
  Lemma failing_line : forall t x, parse t = Raise x -> always_raises R t x.
  Proof.
    intros t x P after s. unfold roll, max_call, min_call, get_probability_distributions, get_probability_distributions_dict, get_average, get_histogram, get_at_least_histogram,
      get_at_most_histogram, get_estimated_cost. cbn [roll_from ext_from dist_lines last_dist cost_from]. unfold roll_line, ext_line, dist_line, wbind, wlift, bind, lift.
    rewrite P. repeat split.
  Qed.
End WithRuntime.

(** Every die of an accepted text is a die *)
Lemma derives_dice : forall e ts, derives e ts -> forall k, In k ts -> (named T_DICE k -> exists d, mk_dice (tk_text k) = Ok d) /\ (named T_DROP_KEEP_DICE k -> exists d, mk_dropkeep (tk_text k) = Ok d).
Proof.
  assert (X : forall (k : token) a b, In k (a ++ b) -> In k a \/ In k b) by (intros; now apply in_app_or).
  intros e ts D. induction D; intros k' I;
    repeat match goal with
      | H : In _ (_ ++ _) |- _ => apply X in H
      | H : In _ (_ :: _) |- _ => destruct H as [H|H]
      | H : In _ [] |- _ => destruct H
      | H : _ \/ _ |- _ => destruct H as [H|H]
      end; subst; auto;
    split; intros N; unfold named in *; try congruence; eauto.
Qed.

Lemma bracket_not_dk : forall c, bracket_char c = true -> is_dk c = false.
Proof. intros c. destruct c as [[] [] [] [] [] [] [] []]; vm_compute; congruence. Qed.
Lemma custom_not_dk : forall es tr s c, custom_text es tr s -> In c s -> is_dk c = false.
Proof.
  intros es tr s c C I. apply custom_form in C. destruct C as [body [-> B]]. rewrite !in_app_iff in I. cbn [list_ascii_of_string In] in I.
  destruct I as [[<-|[]]|[I|[<-|[]]]]; [reflexivity| |reflexivity]. apply bracket_not_dk. unfold in_bracket in B. rewrite forallb_forall in B. now apply B.
Qed.
Lemma digits_not_dk : forall t c, forallb is_digit t = true -> In c t -> is_dk c = false.
Proof. intros t c H I. rewrite forallb_forall in H. apply H in I. unfold is_dk. rewrite !is_ch_digit; auto. Qed.

Lemma trailing_dice : forall ct es s, forallb is_digit ct = true -> custom_text es true s -> mk_dice (ct ++ $"d" ++ s) = Raise ValueError.
Proof.
  intros ct es s D C. unfold mk_dice. cbn [app list_ascii_of_string]. rewrite split_on_app_gen by reflexivity. rewrite (split_on_free _ ct), (split_on_free _ s).
  - cbn [app index nth_error rbind]. rewrite (trailing_comma_raises s es) by now apply custom_text_trailing. reflexivity.
  - intros c I. apply (custom_not_dk es true s c C) in I. unfold is_dk in I. apply orb_false_iff in I. tauto.
  - intros c I. apply (digits_not_dk ct c D) in I. unfold is_dk in I. apply orb_false_iff in I. tauto.
Qed.
Lemma trailing_dropkeep : forall ct es s k kt d, forallb is_digit ct = true -> custom_text es true s -> k = "k"%char \/ k = "d"%char -> mk_dropkeep (ct ++ $"d" ++ s ++ [k] ++ kt) <> Ok d.
Proof.
  intros ct es s k kt d D C K. unfold mk_dropkeep. cbn [app list_ascii_of_string]. rewrite split_on_app_gen by reflexivity. rewrite split_on_app_gen by (destruct K; subst; reflexivity).
  rewrite (split_on_free _ ct), (split_on_free _ s) by (intros c I; eauto using custom_not_dk, digits_not_dk). cbn [app index nth_error rbind].
  destruct (number_of_dice _); [|discriminate]. cbn [rbind]. rewrite (trailing_comma_raises s es) by now apply custom_text_trailing. discriminate.
Qed.

Lemma trailing_program : forall R t ts k ct es s, lex t = LexOk ts -> In k ts -> forallb is_digit ct = true -> custom_text es true s ->
  (named T_DICE k /\ tk_text k = ct ++ $"d" ++ s) \/ (named T_DROP_KEEP_DICE k /\ exists o kt, (o = "k"%char \/ o = "d"%char) /\ tk_text k = ct ++ $"d" ++ s ++ [o] ++ kt) ->
  always_raises R t ValueError.
Proof.
  intros R t ts k ct es s L I D C H. apply failing_line. destruct (parse t) as [e|x] eqn:P; [|apply parse_raise in P; now subst].
  exfalso. apply parse_ok in P. destruct P as [ts' [L' [De _]]]. assert (ts' = ts) by congruence. subst ts'. destruct (derives_dice e ts De k I) as [H1 H2].
  destruct H as [[N E]|[N [o [kt [O E]]]]].
  - destruct (H1 N) as [d M]. rewrite E, (trailing_dice ct es s D C) in M. discriminate.
  - destruct (H2 N) as [d M]. rewrite E in M. now apply (trailing_dropkeep ct es s o kt d D C O) in M.
Qed.

Lemma trailing_line : forall R t ct es s, forallb is_digit ct = true -> custom_text es true s -> alone (ct ++ $"d" ++ s) t ->
  lex t = LexOk [{| tk_name := T_DICE; tk_text := ct ++ $"d" ++ s |}] /\ always_raises R t ValueError.
Proof.
  intros R t ct es s D C A. assert (L : lex t = LexOk [{| tk_name := T_DICE; tk_text := ct ++ $"d" ++ s |}]).
  { apply alone_lexes; [|exact A]. exists ct, s. split; [reflexivity|]. split; [exact D|]. now apply (sides_custom es true). }
  split; [exact L|]. eapply trailing_program; [exact L|now left|exact D|exact C|]. left. split; reflexivity.
Qed.
