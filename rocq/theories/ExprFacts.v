(** * ExprFacts: distributions of expressions without assignments, in a state whose variables are known *)
From Verif Require Import Py PyFacts PyFloat Constraint ConstraintFacts Distribution DistFacts SpecDice DiceFacts DiceModel
  DropKeepFacts NotationFacts DiceProofs Expr TagFacts SpecProgram.

Definition fo (f : Z -> Z) (x : option Z) : Z := match x with Some x => f x | None => 0 end.

Lemma lsum_zero : forall A (l : list A), lsum (fun _ => 0) l = 0.
Proof. intros. unfold lsum. apply zsum_map_zero. auto. Qed.
Lemma lsum_scale : forall A (f : A -> Z) k l, lsum (fun x => k * f x) l = k * lsum f l.
Proof. intros. apply zsum_map_mul_l. Qed.
Lemma lsum_cons : forall A (f : A -> Z) x l, lsum f (x :: l) = f x + lsum f l.
Proof. reflexivity. Qed.
Lemma lsum_nil : forall A (f : A -> Z), lsum f [] = 0.
Proof. reflexivity. Qed.
Lemma lsum_nonneg : forall A (f : A -> Z) l, (forall x, In x l -> 0 <= f x) -> 0 <= lsum f l.
Proof. intros. now apply zsum_map_nonneg. Qed.
Lemma lsum_app : forall A (f : A -> Z) a b, lsum f (a ++ b) = lsum f a + lsum f b.
Proof. intros. unfold lsum. now rewrite map_app, zsum_app. Qed.

Lemma occurrences_lsum : forall v l, occurrences v l = lsum (fo (fun x => if x =? v then 1 else 0)) l.
Proof.
  intros. unfold occurrences. rewrite <- lsum_count. apply lsum_ext. intros [x|] _; reflexivity.
Qed.

Lemma lsum_both : forall g a b (f : Z -> Z),
  lsum (fo f) (both g a b) = lsum (fo (fun x => lsum (fo (fun y => fo f (g x y))) b)) a.
Proof.
  intros. unfold both. rewrite lsum_flat_map. apply lsum_ext. intros [x|] _; rewrite lsum_map.
  - apply lsum_ext. intros [y|] _; reflexivity.
  - rewrite lsum_zero. reflexivity.
Qed.

Lemma in_both : forall g a b z, In (Some z) (both g a b) <-> exists x y, In (Some x) a /\ In (Some y) b /\ g x y = Some z.
Proof.
  intros. unfold both. rewrite in_flat_map. split.
  - intros [[x|] [Hx H]]; apply in_map_iff in H; destruct H as [[y|] [E Hy]]; try discriminate. eauto 6.
  - intros [x [y [Hx [Hy E]]]]. exists (Some x). split; auto. apply in_map_iff. exists (Some y). auto.
Qed.

Lemma in_option_map : forall (g : Z -> Z) l z, In (Some z) (map (option_map g) l) <-> exists x, In (Some x) l /\ z = g x.
Proof.
  intros. rewrite in_map_iff. split.
  - intros [[x|] [E H]]; [|discriminate]. injection E as <-. eauto.
  - intros [x [H ->]]. exists (Some x). auto.
Qed.

Lemma lsum_option_map : forall (g : Z -> Z) (f : Z -> Z) l, lsum (fo f) (map (option_map g) l) = lsum (fo (fun x => f (g x))) l.
Proof. intros. rewrite lsum_map. apply lsum_ext. intros [x|] _; reflexivity. Qed.

Lemma lsum_map_Some : forall f l, lsum (fo f) (map Some l) = lsum f l.
Proof. intros. now rewrite lsum_map. Qed.

Lemma lsum_fo_scale : forall k f l, lsum (fo (fun x => k * f x)) l = k * lsum (fo f) l.
Proof. intros. rewrite <- lsum_scale. apply lsum_ext. intros [x|] _; simpl; lia. Qed.

(** The operators of the code mean what the README says *)
Lemma dist_operator_meaning : forall op v, dist_operator op = Some v ->
  exists f, operator_meaning op = Some f /\ forall x y, vop_apply v x y = Ok (f x y).
Proof.
  intros op v H. unfold dist_operator in H.
  repeat (match type of H with (if text_eqb op ?t then _ else _) = _ => let E := fresh in destruct (text_eqb op t) eqn:E end;
    [apply text_eqb_eq in H0; subst op; injection H as <-; eexists; (split; [reflexivity|]); intros x y; reflexivity | clear H0]).
  discriminate.
Qed.

Lemma meaning_dist_operator : forall op, operator_meaning op <> None -> exists v, dist_operator op = Some v.
Proof.
  intros op H. unfold dist_operator. unfold operator_meaning in H.
  repeat match goal with |- context [text_eqb op ?t] => destruct (text_eqb op t); eauto end. congruence.
Qed.

Section Facts.
  Context (R : Runtime).
  Notation dist := (dist R).
  Notation outcome := (outcome R).
  Notation state := (state R).

  (** ** Names in constraints are instance names that were handed out *)
  Definition issued (s : state) (m : text) : Prop :=
    exists n k, m = instance_name n k /\ name_ok n /\ 1 <= k <= times_of R s n.
  Definition dwf (s : state) (d : dist) : Prop := dinv R d /\ forall m, dnames R d m -> issued s m.
  Definition later (s s' : state) : Prop := forall n, times_of R s n <= times_of R s' n.

  Lemma later_refl : forall s, later s s.
  Proof. intros s n. lia. Qed.
  Lemma later_trans : forall a b c, later a b -> later b c -> later a c.
  Proof. intros a b c H1 H2 n. specialize (H1 n). specialize (H2 n). lia. Qed.
  Lemma issued_later : forall s s' m, later s s' -> issued s m -> issued s' m.
  Proof. intros s s' m L [n [k [H1 [H2 H3]]]]. exists n, k. specialize (L n). repeat split; auto; lia. Qed.
  Lemma dwf_later : forall s s' d, later s s' -> dwf s d -> dwf s' d.
  Proof. intros s s' d L [H1 H2]. split; auto. intros m Hm. eapply issued_later; eauto. Qed.

  Record sinv (s : state) : Prop := {
    si_var : forall n d, In (n, d) (st_var s) -> dwf s d;
    si_times : forall n, 0 <= times_of R s n
  }.

  (** ** What a distribution holds under an assignment of values to the instance names *)
  Definition lst (h : text -> Z) (d : dist) (x : Z) : Prop :=
    exists o, In o (map fst (d_map d)) /\ osat R h o /\ o_value o = x.

  (** Each outcome fixes exactly the names of [P], to values in their ranges *)
  Definition pinned (P : text -> list Z -> Prop) (d : dist) : Prop :=
    forall o h0, In o (map fst (d_map d)) -> osat R h0 o ->
      (forall m V, P m V -> In (h0 m) V) /\
      (forall h, osat R h o <-> forall m V, P m V -> h m = h0 m).

  Lemma binop_key_iff : forall op a b d, dinv R a -> dinv R b -> d_binop R op a b = Ok d -> forall o,
    In o (map fst (d_map d)) <-> exists o1 o2, In o1 (map fst (d_map a)) /\ In o2 (map fst (d_map b)) /\
      o_combine R op o1 o2 = Ok o /\ o_is_possible R o = true.
  Proof.
    intros op a b d Da Db E o. apply d_binop_inv in E. destruct E as [Hok ->].
    rewrite mk_dist_keys by (try apply combos_coherent; try apply combos_ok; try apply di_coherent; try apply di_keys; auto).
    rewrite in_map_iff. split.
    - intros [[o' c] [<- H]]. apply in_combos in H. destruct H as [o1 [c1 [o2 [c2 [H1 [H2 [H3 H4]]]]]]].
      apply in_pairs in H1. exists o1, o2. destruct H1 as [H1 H1']. apply (in_map fst) in H1. apply (in_map fst) in H1'. auto.
    - intros [o1 [o2 [H1 [H2 [H3 H4]]]]]. apply in_map_iff in H1. apply in_map_iff in H2.
      destruct H1 as [[o1' c1] [<- H1]]. destruct H2 as [[o2' c2] [<- H2]].
      exists (o, c1 * c2). split; auto. apply in_combos. exists o1', c1, o2', c2. rewrite in_pairs. auto.
  Qed.

  Lemma binop_dnames : forall op a b d n, dinv R a -> dinv R b -> d_binop R op a b = Ok d -> dnames R d n -> dnames R a n \/ dnames R b n.
  Proof.
    intros op a b d n Da Db E [o [Ho Hn]]. apply (binop_key_iff op a b d Da Db E) in Ho.
    destruct Ho as [o1 [o2 [H1 [H2 [H3 _]]]]]. apply o_combine_inv in H3. destruct H3 as [_ H3].
    apply (names_combine R _ _ _ n H3) in Hn. destruct Hn; [left; exists o1 | right; exists o2]; auto.
  Qed.

  Lemma binop_dwf : forall op s a b d, dwf s a -> dwf s b -> d_binop R op a b = Ok d -> dwf s d.
  Proof.
    intros op s a b d [Da Na] [Db Nb] E. split; [now apply (d_binop_inv_preserved R op a b)|].
    intros m Hm. destruct (binop_dnames op a b d m Da Db E Hm); auto.
  Qed.

  Lemma lst_binop : forall op a b d h z, dinv R a -> dinv R b -> d_binop R op a b = Ok d ->
    (lst h d z <-> exists x y, lst h a x /\ lst h b y /\ vop_apply op x y = Ok z).
  Proof.
    intros op a b d h z Da Db E. split.
    - intros [o [Ho [Hs <-]]]. apply (binop_key_iff op a b d Da Db E) in Ho.
      destruct Ho as [o1 [o2 [H1 [H2 [H3 H4]]]]]. apply (o_combine_sat R op o1 o2 o h H3) in Hs.
      exists (o_value o1), (o_value o2). apply o_combine_inv in H3. destruct H3 as [H3 _].
      repeat split; auto; [exists o1 | exists o2]; tauto.
    - intros [x [y [[o1 [H1 [S1 <-]]] [[o2 [H2 [S2 <-]]] V]]]].
      assert (E' := E). apply d_binop_inv in E'. destruct E' as [Hok _]. destruct (Hok o1 o2 H1 H2) as [o Ho].
      assert (So : osat R h o) by (apply (o_combine_sat R op o1 o2 o h Ho); auto).
      exists o. split; [|split; auto].
      + apply (binop_key_iff op a b d Da Db E). exists o1, o2. repeat split; auto. now apply (sat_possible R h).
      + apply o_combine_inv in Ho. destruct Ho as [Ho _]. congruence.
  Qed.

  Lemma pinned_ext : forall (P Q : text -> list Z -> Prop) d, (forall m V, P m V <-> Q m V) -> pinned P d -> pinned Q d.
  Proof.
    intros P Q d E H o h0 Ho Hs. destruct (H o h0 Ho Hs) as [H1 H2]. split.
    - intros m V HQ. apply H1. now apply E.
    - intros h. rewrite H2. split; intros K m V HP; apply (K m V); now apply E.
  Qed.

  Lemma pinned_binop : forall P Q op a b d, dinv R a -> dinv R b -> d_binop R op a b = Ok d ->
    pinned P a -> pinned Q b -> pinned (fun m V => P m V \/ Q m V) d.
  Proof.
    intros P Q op a b d Da Db E HP HQ o h0 Ho Hs. apply (binop_key_iff op a b d Da Db E) in Ho.
    destruct Ho as [o1 [o2 [H1 [H2 [H3 _]]]]].
    assert (S : forall h, osat R h o <-> osat R h o1 /\ osat R h o2) by (intros h; apply (o_combine_sat R op o1 o2 o h H3)).
    apply S in Hs. destruct Hs as [S1 S2].
    destruct (HP o1 h0 H1 S1) as [A1 B1]. destruct (HQ o2 h0 H2 S2) as [A2 B2]. split.
    - intros m V [K|K]; eauto.
    - intros h. rewrite S, B1, B2. split.
      + intros [K1 K2] m V [K|K]; eauto.
      + intros K. split; intros m V HV; apply (K m V); auto.
  Qed.

  Lemma unop_key_iff : forall f a, dinv R a -> forall o,
    In o (map fst (d_map (d_unop R (o_map R f) a))) <-> exists o', In o' (map fst (d_map a)) /\ o = o_map R f o'.
  Proof.
    intros f a D o. rewrite d_unop_list, mk_dist_keys.
    - apply unop_keys.
    - apply unop_coherent, di_coherent; auto.
    - apply unop_ok, di_keys; auto.
  Qed.

  Lemma unop_dwf : forall f s a, dwf s a -> dwf s (d_unop R (o_map R f) a).
  Proof.
    intros f s a [D N]. split; [now apply d_unop_inv|]. intros m [o [Ho Hm]].
    apply unop_key_iff in Ho; auto. destruct Ho as [o' [Ho ->]]. apply N. exists o'. auto.
  Qed.

  Lemma lst_unop : forall f a h z, dinv R a -> (lst h (d_unop R (o_map R f) a) z <-> exists x, lst h a x /\ z = f x).
  Proof.
    intros f a h z D. split.
    - intros [o [Ho [Hs <-]]]. apply unop_key_iff in Ho; auto. destruct Ho as [o' [Ho ->]].
      exists (o_value o'). split; auto. exists o'. auto.
    - intros [x [[o [Ho [Hs <-]]] ->]]. exists (o_map R f o). rewrite unop_key_iff by auto. eauto.
  Qed.

  Lemma pinned_unop : forall P f a, dinv R a -> pinned P a -> pinned P (d_unop R (o_map R f) a).
  Proof.
    intros P f a D H o h0 Ho Hs. apply unop_key_iff in Ho; auto. destruct Ho as [o' [Ho ->]]. exact (H o' h0 Ho Hs).
  Qed.

  (** *** Storing *)
  Lemma lst_tag : forall inst d d' h x, d_map d' = tag_all R inst (d_map d) -> (lst h d' x <-> x = h inst /\ lst h d x).
  Proof.
    intros inst d d' h x E. unfold lst. split.
    - intros [o [Ho [Hs <-]]]. rewrite E in Ho. apply tag_all_keys in Ho. destruct Ho as [o0 [Ho E0]].
      apply (tag_sat R inst o0) in Hs; auto. destruct (tag_outcome_inv R inst o0 o E0) as [V _].
      rewrite V. destruct Hs as [Hs1 Hs2]. split; [congruence | exists o0; auto].
    - intros [-> [o0 [Ho [Hs V]]]]. destruct (tag_outcome_ok R inst o0) as [o E0]. exists o.
      rewrite E. split; [apply tag_all_keys; eauto|]. split.
      + apply (tag_sat R inst o0); auto.
      + apply tag_outcome_inv in E0. destruct E0 as [-> _]. auto.
  Qed.

  Lemma pinned_tag : forall P inst d d' Vd, d_map d' = tag_all R inst (d_map d) -> pinned P d ->
    (forall o, In o (map fst (d_map d)) -> In (o_value o) Vd) ->
    pinned (fun m V => (m = inst /\ V = Vd) \/ P m V) d'.
  Proof.
    intros P inst d d' Vd E H HV o h0 Ho Hs. rewrite E in Ho. apply tag_all_keys in Ho. destruct Ho as [o0 [Ho E0]].
    assert (S : forall h, osat R h o <-> h inst = o_value o0 /\ osat R h o0) by (intros; now apply tag_sat).
    apply S in Hs. destruct Hs as [S1 S2]. destruct (H o0 h0 Ho S2) as [A B]. split.
    - intros m V [[-> ->]|K]; [rewrite S1; auto | eauto].
    - intros h. rewrite S, B. split.
      + intros [K1 K2] m V [[-> _]|K]; [congruence | eauto].
      + intros K. split; [rewrite <- S1; apply (K inst Vd); auto | intros m V HP; apply (K m V); auto].
  Qed.

  (** *** Distributions of constants and dice *)
  Lemma plain_no_names : forall d m, plain R d -> ~ dnames R d m.
  Proof.
    intros d m P [o [Ho Hm]]. apply in_names in Hm. destruct Hm as [c [Hc Hm]].
    destruct c as [| |n vs]; simpl in Hm; try tauto. destruct Hm as [->|[]].
    assert (B : exists x, ~ In x (z_iter (rt_z R) vs)).
    { exists (zsum (map Z.abs (z_iter (rt_z R) vs)) + 1). intros H.
      assert (G : forall l x, In x l -> x <= zsum (map Z.abs l)).
      { induction l as [|y l IH]; intros x []; cbn [map]; rewrite zsum_cons.
        - subst y. assert (0 <= zsum (map Z.abs l)) by (apply zsum_map_nonneg; intros; lia). lia.
        - apply IH in H0. lia. }
      apply G in H. lia. }
    destruct B as [x B]. apply B. exact (P o (fun _ => x) Ho _ Hc).
  Qed.

  Lemma plain_dwf : forall s d, dinv R d -> plain R d -> dwf s d.
  Proof. intros s d D P. split; auto. intros m Hm. now apply plain_no_names in Hm. Qed.

  Lemma plain_pinned : forall d, plain R d -> pinned (fun _ _ => False) d.
  Proof. intros d H o h0 Ho Hs. split; [tauto|]. intros h. split; [tauto|]. intros _. now apply H. Qed.

  Lemma plain_lst : forall d h x, plain R d -> (lst h d x <-> listed R d x).
  Proof.
    intros d h x P. rewrite listed_values. split.
    - intros [o [Ho [_ H]]]. eauto.
    - intros [o [Ho H]]. exists o. auto.
  Qed.

  Lemma plain_ok : forall s d, plain R d -> dinv R d -> dwf s d /\ pinned (fun _ _ => False) d.
  Proof. intros. split; [now apply plain_dwf | now apply plain_pinned]. Qed.

  (** ** Known variables: their instance name, the weight of a value and whether it is possible, and what
      their outcomes fix *)
  Record context := {
    c_inst : text -> option text;
    c_wt : text -> (text -> Z) -> Z;
    c_lt : text -> (text -> Z) -> Prop;
    c_sup : text -> text -> list Z -> Prop
  }.

  Definition env_of (c : context) (h : text -> Z) : text -> option Z := fun n => option_map h (c_inst c n).
  Definition wprod (c : context) (h : text -> Z) (l : list text) : Z := fold_right (fun n acc => c_wt c n h * acc) 1 l.

  Lemma wprod_app : forall c h a b, wprod c h (a ++ b) = wprod c h a * wprod c h b.
  Proof. intros. unfold wprod. induction a as [|n a IH]; cbn [app fold_right]; [lia | rewrite IH; lia]. Qed.

  Definition known (s : state) (c : context) : Prop := forall n inst, c_inst c n = Some inst ->
    exists d, get_var R n s = Ok d /\ dwf s d /\
      (forall h f, cntf R h d f = f (h inst) * c_wt c n h) /\
      (forall h x, lst h d x <-> x = h inst /\ c_lt c n h) /\
      pinned (c_sup c n) d.

  Record describes (s : state) (c : context) (e : expr) (d : dist) : Prop := {
    ds_wf : dwf s d;
    ds_cntf : forall h f, cntf R h d f = wprod c h (reads e) * lsum (fo f) (joint faces (env_of c h) e);
    ds_lst : forall h x, lst h d x <-> (forall n, In n (reads e) -> c_lt c n h) /\ In (Some x) (joint (map fst) (env_of c h) e);
    ds_pinned : pinned (fun m V => exists n, In n (reads e) /\ c_sup c n m V) d
  }.

  (** A leaf: no variables *)
  Lemma describes_leaf : forall s c e d (l : list Z) (l' : list Z), reads e = [] -> dinv R d -> plain R d ->
    (forall h f, cntf R h d f = lsum f l) -> (forall x, listed R d x <-> In x l') ->
    (forall env, joint faces env e = map Some l) -> (forall env, joint (map fst) env e = map Some l') -> describes s c e d.
  Proof.
    intros s c e d l l' Hr D P C L J1 J2. constructor.
    - now apply plain_dwf.
    - intros h f. rewrite Hr, J1, lsum_map_Some, C. unfold wprod. cbn [fold_right]. lia.
    - intros h x. rewrite plain_lst, L, Hr, J2 by auto. rewrite in_map_iff. split.
      + intros H. split; [intros n [] | eauto].
      + intros [_ [y [E H]]]. injection E as ->. auto.
    - apply (pinned_ext (fun _ _ => False)); [|now apply plain_pinned]. intros m V. rewrite Hr. split; [tauto | intros [n [[] _]]].
  Qed.

  Lemma describes_unop : forall s c e e' d f, reads e' = reads e ->
    (forall sides env, joint sides env e' = map (option_map f) (joint sides env e)) ->
    describes s c e d -> describes s c e' (d_unop R (o_map R f) d).
  Proof.
    intros s c e e' d f Hr Hj [W C L P]. destruct W as [D N]. constructor.
    - apply unop_dwf. split; auto.
    - intros h g. rewrite cntf_unop, C, Hr, Hj, lsum_option_map by auto. auto.
    - intros h x. rewrite lst_unop, Hr, Hj, in_option_map by auto. split.
      + intros [y [H ->]]. apply L in H. destruct H. eauto.
      + intros [H1 [y [H2 ->]]]. exists y. rewrite L. auto.
    - rewrite Hr. apply pinned_unop; auto.
  Qed.

  Definition opt_of_res {A} (r : res A) : option A := match r with Ok x => Some x | Raise _ => None end.

  Lemma describes_binop : forall s c op a b e da db d g, reads e = reads a ++ reads b ->
    (forall sides env, joint sides env e = both g (joint sides env a) (joint sides env b)) ->
    (forall x y, g x y = opt_of_res (vop_apply op x y)) ->
    describes s c a da -> describes s c b db -> d_binop R op da db = Ok d -> describes s c e d.
  Proof.
    intros s c op a b e da db d g Hr Hj Hg [Wa Ca La Pa] [Wb Cb Lb Pb] E.
    assert (Da := proj1 Wa). assert (Db := proj1 Wb). constructor.
    - now apply (binop_dwf op s da db).
    - intros h f. rewrite (cntf_binop R op da db d h f Da Db E), Ca, Hr, wprod_app, Hj, lsum_both, <- Z.mul_assoc. f_equal.
      rewrite <- lsum_fo_scale. apply lsum_ext. intros [x|] _; simpl; auto.
      rewrite Cb. f_equal. apply lsum_ext. intros [y|] _; simpl; auto. rewrite Hg. destruct (vop_apply op x y); auto.
    - intros h z. rewrite (lst_binop op da db d h z Da Db E), Hr, Hj, in_both. split.
      + intros [x [y [Hx [Hy V]]]]. apply La in Hx. apply Lb in Hy. destruct Hx as [Hx1 Hx2]. destruct Hy as [Hy1 Hy2]. split.
        * intros n Hn. apply in_app_or in Hn. destruct Hn; auto.
        * exists x, y. rewrite Hg, V. auto.
      + intros [H [x [y [Hx [Hy V]]]]]. exists x, y. rewrite La, Lb. repeat split; auto.
        * intros n Hn. apply H, in_or_app. auto.
        * intros n Hn. apply H, in_or_app. auto.
        * rewrite Hg in V. destruct (vop_apply op x y); simpl in V; [injection V as ->; auto | discriminate].
    - apply (pinned_ext (fun m V => (exists n, In n (reads a) /\ c_sup c n m V) \/ (exists n, In n (reads b) /\ c_sup c n m V))).
      + intros m V. rewrite Hr. split.
        * intros [[n [H1 H2]]|[n [H1 H2]]]; exists n; split; auto; apply in_or_app; auto.
        * intros [n [H1 H2]]. apply in_app_or in H1. destruct H1; [left | right]; eauto.
      + apply (pinned_binop _ _ op da db d); auto.
  Qed.

  Lemma d_binop_cases : forall op a b, dinv R a ->
    (exists d, d_binop R op a b = Ok d) \/
    (d_binop R op a b = Raise ZeroDivisionError /\ op = VDiv /\ d_map a <> [] /\ listed R b 0).
  Proof.
    intros op a b D. unfold d_binop, combine_distributions.
    destruct (combine_loop R op (pairs (d_map a) (d_map b)) []) as [m|x] eqn:E; [simpl; eauto|]. right.
    apply combine_loop_raise in E. destruct E as [[[o1 c1] [o2 c2]] [Hp E]]. apply in_pairs in Hp. destruct Hp as [H1 H2].
    cbn [fst snd] in E. destruct (o_combine_total R op o1 o2) as [T [cs Tc]].
    { apply (di_keys R a D). apply (in_map fst) in H1. auto. }
    rewrite T, Tc in E. destruct (vop_apply op (o_value o1) (o_value o2)) as [v|y] eqn:V; [discriminate|]. injection E as ->.
    destruct op; simpl in V; try discriminate. destruct (o_value o2 =? 0) eqn:Z0; [|discriminate]. injection V as <-.
    apply Z.eqb_eq in Z0. split; [reflexivity|]. split; [reflexivity|]. split; [intros N; rewrite N in H1; destruct H1|].
    apply listed_values. exists o2. split; auto. apply (in_map fst) in H2. auto.
  Qed.

  Lemma d_div_raises : forall a b, dinv R a -> d_map a <> [] -> listed R b 0 -> d_binop R VDiv a b = Raise ZeroDivisionError.
  Proof.
    intros a b D N L. destruct (d_binop_cases VDiv a b D) as [[d E]|[E _]]; auto. exfalso.
    apply d_binop_inv in E. destruct E as [H _]. apply listed_values in L. destruct L as [o2 [H2 V]].
    destruct (d_map a) as [|[o1 c1] m] eqn:Em; [congruence|].
    destruct (H o1 o2) as [o Ho]; [left; auto | auto|]. apply o_combine_inv in Ho. destruct Ho as [Ho _].
    simpl in Ho. rewrite V in Ho. discriminate.
  Qed.

  Lemma pool_cases : forall form dk s, mk_dropkeep form = Ok dk -> 1 <= dk_num dk -> 0 <= dk_k dk ->
    exists d, dist_of R (EDropKeep dk) s = (s, Ok d) /\ dinv R d /\ plain R d /\
      (forall h f, cntf R h d f = lsum f (pool_results faces dk)) /\ (forall x, listed R d x <-> In x (pool_results (map fst) dk)).
  Proof.
    intros form dk s Hm Hn Hk. destruct (mk_dropkeep_inv form dk Hm) as [N I].
    assert (Z0 : forall n, natural_counts [(n, 1)]) by (intros n v c [E|[]]; injection E; lia).
    assert (Hzero : dk_simple dk = Some (SInt $"0") -> (forall sides, pool_results sides dk = [0]) ->
      exists d, dist_of R (EDropKeep dk) s = (s, Ok d) /\ dinv R d /\ plain R d /\
      (forall h f, cntf R h d f = lsum f (pool_results faces dk)) /\ (forall x, listed R d x <-> In x (pool_results (map fst) dk))).
    { intros Hs Hp. destruct (mk_dist_ints_plain R [(0, 1)] (Z0 0)) as [d [E [D [P [C L]]]]]. exists d.
      cbn [dist_of]. rewrite Hs. unfold lift. change (int_of_text $"0") with (Ok 0 : res Z). cbn [rbind]. rewrite E.
      repeat (split; auto); intros; rewrite ?Hp.
      - rewrite C. unfold lsum. cbn [map fst snd]. rewrite !zsum_cons. lia.
      - apply L in H. exact H.
      - apply L. rewrite Hp in H. exact H. }
    assert (Hdice : forall d0, dk_simple dk = Some (SDice d0) -> dice_map d0 = dk_map dk -> dice_num d0 = dk_num dk ->
      (forall sides, pool_results sides dk = map total (tuples (Z.to_nat (dk_num dk)) (sides (dk_map dk)))) ->
      exists d, dist_of R (EDropKeep dk) s = (s, Ok d) /\ dinv R d /\ plain R d /\
      (forall h f, cntf R h d f = lsum f (pool_results faces dk)) /\ (forall x, listed R d x <-> In x (pool_results (map fst) dk))).
    { intros d0 Hs Em En Hp. destruct (dice_dist_spec R d0) as [d [E [D [P [C L]]]]]; [now rewrite Em|]. exists d.
      rewrite En, Em in *. replace (Z.max 1 (dk_num dk)) with (dk_num dk) in * by lia.
      cbn [dist_of]. rewrite Hs. unfold lift. rewrite E. repeat (split; auto); intros; rewrite ?Hp in *.
      - now rewrite C, lsum_map.
      - apply L in H. destruct H as [t [H1 [H2 H3]]]. apply in_map_iff. exists t. split; auto. apply in_tuples. auto.
      - apply L. apply in_map_iff in H. destruct H as [t [H1 H2]]. apply in_tuples in H2. exists t. tauto. }
    assert (Hfull : dk_simple dk = None -> dk_full dk ->
      exists d, dist_of R (EDropKeep dk) s = (s, Ok d) /\ dinv R d /\ plain R d /\
      (forall h f, cntf R h d f = lsum f (pool_results faces dk)) /\ (forall x, listed R d x <-> In x (pool_results (map fst) dk))).
    { intros Hs F. destruct (dk_dist_spec R dk N F) as [d [E [D [P [C L]]]]]. exists d.
      assert (Hp : forall sides, pool_results sides dk = map (dk_score dk) (tuples (Z.to_nat (dk_num dk)) (sides (dk_map dk)))).
      { intros sides. unfold pool_results, dk_score. destruct F. destruct (dk_keep dk).
        - destruct (dk_k dk =? 0) eqn:K; [apply Z.eqb_eq in K; lia | auto].
        - destruct (dk_num dk <=? dk_k dk) eqn:K; [apply Z.leb_le in K; lia | auto]. }
      cbn [dist_of]. rewrite Hs. unfold lift. rewrite E. repeat (split; auto); intros; rewrite ?Hp in *.
      - now rewrite C, lsum_map.
      - apply L in H. destruct H as [t [H1 [H2 H3]]]. apply in_map_iff. exists t. split; auto. apply in_tuples. auto.
      - apply L. apply in_map_iff in H. destruct H as [t [H1 H2]]. apply in_tuples in H2. exists t. tauto. }
    assert (SL : forall sides t, In t (tuples (Z.to_nat (dk_num dk)) (sides (dk_map dk))) -> length (sort_desc t) = Z.to_nat (dk_num dk)).
    { intros sides t Ht. apply in_tuples in Ht. destruct Ht as [Ht _]. rewrite (Permutation.Permutation_length (sort_desc_perm t)). auto. }
    assert (ST : forall t, total (sort_desc t) = total t).
    { intros t. rewrite !total_zsum. apply zsum_perm, sort_desc_perm. }
    destruct (dk_keep dk) eqn:EK.
    - destruct I as [I1 [I2 I3]]. destruct (Z.le_gt_cases (dk_num dk) (dk_k dk)) as [G|G].
      + destruct (I1 G) as [d0 [A [B C]]]. apply (Hdice d0); auto. intros sides. unfold pool_results. rewrite EK.
        destruct (dk_k dk =? 0) eqn:K; [apply Z.eqb_eq in K; lia|]. apply map_ext_in. intros t Ht. unfold keep_highest.
        rewrite firstn_all2; [apply ST | rewrite (SL sides t Ht); lia].
      + destruct (Z.eq_dec (dk_k dk) 0) as [K|K].
        * apply Hzero; [auto|]. intros sides. unfold pool_results. rewrite EK, K. reflexivity.
        * apply Hfull; [auto | split; lia].
    - destruct I as [I1 [I2 I3]]. destruct (Z.le_gt_cases (dk_num dk) (dk_k dk)) as [G|G].
      + apply Hzero; [auto|]. intros sides. unfold pool_results. rewrite EK. apply Z.leb_le in G. now rewrite G.
      + destruct (Z.eq_dec (dk_k dk) 0) as [K|K].
        * destruct (I2 G K) as [d0 [A [B C]]]. apply (Hdice d0); auto. intros sides. unfold pool_results. rewrite EK.
          destruct (dk_num dk <=? dk_k dk) eqn:L; [apply Z.leb_le in L; lia|]. apply map_ext_in. intros t Ht. unfold drop_highest.
          rewrite K. cbn [Z.to_nat skipn]. apply ST.
        * apply Hfull; [auto | split; lia].
  Qed.

  Lemma bool_truth : forall s, bool_value s = truth (text_eqb s $"True").
  Proof. reflexivity. Qed.

  Lemma const_describes : forall s c e z, reads e = [] -> (forall sides env, joint sides env e = [Some z]) ->
    exists d, mk_dist_ints R [(z, 1)] = Ok d /\ describes s c e d.
  Proof.
    intros s c e z Hr Hj. destruct (mk_dist_ints_plain R [(z, 1)]) as [d [E [D [P [C L]]]]].
    { intros v k [H|[]]. injection H; lia. }
    exists d. split; auto. apply (describes_leaf s c e d [z] [z]); auto.
    intros h f. rewrite C. unfold lsum. cbn [map fst snd]. rewrite !zsum_cons. lia.
  Qed.

  Lemma binop_m_cases : forall s c op a b e g (ma mb : M R dist), reads e = reads a ++ reads b ->
    (forall sides env, joint sides env e = both g (joint sides env a) (joint sides env b)) ->
    (forall x y, g x y = opt_of_res (vop_apply op x y)) ->
    (exists r, ma s = (s, r) /\ match r with Ok d => describes s c a d | Raise x => x = ZeroDivisionError end) ->
    (exists r, mb s = (s, r) /\ match r with Ok d => describes s c b d | Raise x => x = ZeroDivisionError end) ->
    exists r, binop_m R op ma mb s = (s, r) /\ match r with Ok d => describes s c e d | Raise x => x = ZeroDivisionError end.
  Proof.
    intros s c op a b e g ma mb Hr Hj Hg [ra [Ea Ha]] [rb [Eb Hb]]. unfold binop_m, bind. rewrite Ea.
    destruct ra as [da|x]; [|eauto]. rewrite Eb. destruct rb as [db|x]; [|eauto]. unfold lift.
    destruct (d_binop_cases op da db) as [[d E]|[E _]]; [exact (proj1 (ds_wf _ _ _ _ Ha)) | | ]; rewrite E; eexists; split; try reflexivity.
    now apply (describes_binop s c op a b e da db d g).
  Qed.

  Lemma simple_dist : forall s c, known s c -> forall e, simple e -> (forall n, In n (reads e) -> c_inst c n <> None) ->
    exists r, dist_of R e s = (s, r) /\ match r with Ok d => describes s c e d | Raise x => x = ZeroDivisionError end.
  Proof.
    intros s c K. induction e; intros S Hr; cbn [simple] in S; cbn [dist_of].
    - destruct (IHe S Hr) as [r [E H]]. exists r. split; auto. destruct r; auto. destruct H. constructor; auto.
    - destruct (IHe S Hr) as [r [E H]]. unfold bind. rewrite E. destruct r as [d|x]; [|eauto]. eexists. split; [reflexivity|].
      apply (describes_unop s c e (ENot e) d vnot); auto. intros sides env. cbn [joint]. apply map_ext. intros [x|]; [|reflexivity].
      simpl. f_equal. unfold vnot, truth, is_true, value_to_binary_value. destruct (0 <? x); reflexivity.
    - destruct S as [[form Hf] [Hn Hk]]. destruct (pool_cases form d s Hf Hn Hk) as [dd [E [D [P [C L]]]]].
      cbn [dist_of] in E. rewrite E. exists (Ok dd). split; auto.
      apply (describes_leaf s c _ dd (pool_results faces d) (pool_results (map fst) d)); auto.
    - destruct S as [[form Hf] Hn]. assert (N : natural_counts (dice_map d)).
      { unfold mk_dice in Hf. destruct (rbind (index (split_on (is_ch "d") form) 1) get_single_dice_outcome_map) as [m|] eqn:Em; [|discriminate].
        cbn [rbind] in Hf. destruct (number_of_dice _); [|discriminate]. cbn [rbind] in Hf. apply Ok_inj in Hf. subst d. cbn [dice_map].
        destruct (index (split_on (is_ch "d") form) 1); [|discriminate]. cbn [rbind] in Em. now apply single_map_natural in Em. }
      destruct (dice_dist_spec R d N) as [dd [E [D [P [C L]]]]]. replace (Z.max 1 (dice_num d)) with (dice_num d) in * by lia.
      unfold lift. rewrite E. eexists. split; [reflexivity|].
      apply (describes_leaf s c _ dd (map total (tuples (Z.to_nat (dice_num d)) (faces (dice_map d))))
               (map total (tuples (Z.to_nat (dice_num d)) (map fst (dice_map d))))); auto.
      + intros h f. now rewrite C, lsum_map.
      + intros x. rewrite L, in_map_iff. split; intros [t H]; exists t; rewrite in_tuples in *; tauto.
      + intros env. cbn [joint]. now rewrite map_map.
      + intros env. cbn [joint]. now rewrite map_map.
    - destruct S as [z Ez]. unfold lift. rewrite Ez. cbn [rbind].
      destruct (const_describes s c (EInt number) z) as [d [E D]]; auto.
      { intros sides env. cbn [joint]. now rewrite Ez. }
      rewrite E. eauto.
    - unfold lift. rewrite bool_truth. destruct (const_describes s c (EBool binary_string) (truth (text_eqb binary_string $"True"))) as [d [E D]]; auto.
      rewrite E. eauto.
    - destruct S as [S1 S2]. apply (binop_m_cases s c VAdd e1 e2 (EAdd e1 e2) (fun x y => Some (x + y))); auto.
      + apply IHe1; auto. intros n Hn. apply Hr. simpl. apply in_or_app. auto.
      + apply IHe2; auto. intros n Hn. apply Hr. simpl. apply in_or_app. auto.
    - destruct S as [S1 S2]. apply (binop_m_cases s c VSub e1 e2 (ESub e1 e2) (fun x y => Some (x - y))); auto.
      + apply IHe1; auto. intros n Hn. apply Hr. simpl. apply in_or_app. auto.
      + apply IHe2; auto. intros n Hn. apply Hr. simpl. apply in_or_app. auto.
    - destruct S as [S1 S2]. apply (binop_m_cases s c VMul e1 e2 (EMul e1 e2) (fun x y => Some (x * y))); auto.
      + apply IHe1; auto. intros n Hn. apply Hr. simpl. apply in_or_app. auto.
      + apply IHe2; auto. intros n Hn. apply Hr. simpl. apply in_or_app. auto.
    - destruct S as [S1 S2]. apply (binop_m_cases s c VDiv e1 e2 (EDiv e1 e2) (fun x y => if y =? 0 then None else Some (x / y))); auto.
      + intros x y. simpl. destruct (y =? 0); auto.
      + apply IHe1; auto. intros n Hn. apply Hr. simpl. apply in_or_app. auto.
      + apply IHe2; auto. intros n Hn. apply Hr. simpl. apply in_or_app. auto.
    - destruct S as [So [S1 S2]]. destruct (meaning_dist_operator operator So) as [v Ev]. rewrite Ev.
      destruct (dist_operator_meaning operator v Ev) as [f [Ef Hf]].
      apply (binop_m_cases s c v e1 e2 (EBin operator e1 e2) (meaning (operator_meaning operator))); auto.
      + intros x y. rewrite Ef, Hf. reflexivity.
      + apply IHe1; auto. intros n Hn. apply Hr. simpl. apply in_or_app. auto.
      + apply IHe2; auto. intros n Hn. apply Hr. simpl. apply in_or_app. auto.
    - destruct S as [So [S1 S2]].
      apply (binop_m_cases s c _ e1 e2 (EMinMax min_max e1 e2) (meaning (minmax_meaning min_max))); auto.
      + intros x y. unfold minmax_meaning in *. destruct (text_eqb min_max $"MAX"); [reflexivity|].
        destruct (text_eqb min_max $"MIN"); [reflexivity | congruence].
      + apply IHe1; auto. intros n Hn. apply Hr. simpl. apply in_or_app. auto.
      + apply IHe2; auto. intros n Hn. apply Hr. simpl. apply in_or_app. auto.
    - destruct (IHe S Hr) as [r [E H]]. unfold bind. rewrite E. destruct r as [d|x]; [|eauto]. eexists. split; [reflexivity|].
      apply (describes_unop s c e (EAbs e) d Z.abs); auto.
    - destruct S.
    - specialize (Hr name (or_introl eq_refl)). destruct (c_inst c name) as [inst|] eqn:Ei; [|congruence].
      destruct (K name inst Ei) as [d [Eg [W [C [L P]]]]]. rewrite Eg. eexists. split; [reflexivity|]. constructor; auto.
      + intros h f. rewrite C. cbn [reads joint]. unfold wprod. cbn [fold_right]. unfold env_of. rewrite Ei.
        rewrite lsum_cons, lsum_nil. simpl fo. lia.
      + intros h x. rewrite L. cbn [reads joint]. unfold env_of. rewrite Ei. split.
        * intros [-> H]. split; [intros n [<-|[]]; auto | left; reflexivity].
        * intros [H1 [H2|[]]]. injection H2 as <-. split; auto. apply H1. left; auto.
      + apply (pinned_ext (c_sup c name)); auto. intros m V. cbn [reads]. split.
        * intros H. exists name. split; [left|]; auto.
        * intros [n [[<-|[]] H]]. auto.
  Qed.
End Facts.
