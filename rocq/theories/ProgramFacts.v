(** * ProgramFacts: distributions of programs *)
From Verif Require Import Py PyFacts PyFloat Constraint ConstraintFacts Distribution DistFacts SpecDice DiceFacts DiceModel
  DropKeepFacts NotationFacts DiceProofs Expr Lexer Parser Interp TagFacts SpecProgram ExprFacts StateFacts.

(** ** The variables used by a program, once for each use *)
Fixpoint ulist (p : program) : list text :=
  match p with
  | [] => []
  | [(_, e)] => reads e
  | (None, _) :: p' => ulist p'
  | (Some m, e) :: p' => flat_map (fun x => if text_eqb x m then reads e else [x]) (ulist p')
  end.

Definition count (n : text) (l : list text) : Z := Z.of_nat (length (filter (text_eqb n) l)).

Lemma count_cons : forall n x l, count n (x :: l) = (if text_eqb n x then 1 else 0) + count n l.
Proof. intros. unfold count. simpl. destruct (text_eqb n x); simpl length; lia. Qed.
Lemma count_app : forall n a b, count n (a ++ b) = count n a + count n b.
Proof. intros. unfold count. rewrite filter_app, app_length. lia. Qed.
Lemma count_nonneg : forall n l, 0 <= count n l.
Proof. intros. unfold count. lia. Qed.
Lemma count_zero : forall n l, count n l = 0 <-> ~ In n l.
Proof.
  induction l as [|x l IH]; [simpl; split; auto|]. rewrite count_cons. assert (H := count_nonneg n l).
  destruct (text_eqb n x) eqn:E.
  - apply text_eqb_eq in E. subst. cbn [In]. split; [lia | tauto].
  - apply text_eqb_neq in E. cbn [In]. rewrite Z.add_0_l, IH. intuition congruence.
Qed.

Lemma uses_ulist : forall p n, uses n p = count n (ulist p).
Proof.
  induction p as [|[[m|] e] p IH]; intros n; [reflexivity| |].
  - destruct p as [|l p]; [reflexivity|]. set (q := l :: p) in *.
    change (uses n ((Some m, e) :: q)) with (times_read n e * uses m q + (if text_eqb n m then 0 else uses n q)).
    change (ulist ((Some m, e) :: q)) with (flat_map (fun x => if text_eqb x m then reads e else [x]) (ulist q)).
    rewrite !IH. clear IH. change (times_read n e) with (count n (reads e)).
    induction (ulist q) as [|x l' IHl].
    + unfold count. simpl. destruct (text_eqb n m); lia.
    + simpl flat_map. rewrite count_app, <- IHl, !count_cons.
      destruct (text_eqb x m) eqn:E.
      * apply text_eqb_eq in E. subst x. rewrite text_eqb_refl. destruct (text_eqb n m) eqn:E2; [lia|].
        lia.
      * rewrite (text_eqb_sym m x), E. rewrite count_cons. change (count n []) with 0.
        destruct (text_eqb n x) eqn:E3; destruct (text_eqb n m) eqn:E2; try lia.
        apply text_eqb_eq in E3, E2. subst. rewrite text_eqb_refl in E. discriminate.
  - destruct p as [|l p]; [reflexivity|]. exact (IH n).
Qed.

(** ** Environments that agree on what is read *)
Lemma joint_agree : forall sides e env env', (forall n, In n (reads e) -> env n = env' n) -> joint sides env e = joint sides env' e.
Proof.
  intros sides. induction e; intros env env' H; cbn [joint reads] in *; auto;
    try (now rewrite (IHe env env'));
    try (now rewrite (IHe1 env env'), (IHe2 env env') by (intros; apply H; apply in_or_app; auto)).
  now rewrite H by (left; auto).
Qed.

Lemma bind_agree : forall env env' n x (l : list text), (forall m, In m l -> m <> n -> env m = env' m) ->
  forall m, In m l -> bind_value env (Some n) x m = bind_value env' (Some n) x m.
Proof.
  intros env env' n x l H m Hm. simpl. destruct (text_eqb m n) eqn:E; auto. apply H; auto. now apply text_eqb_neq.
Qed.

Lemma ulist_cons : forall n e l p m, In m (ulist ((Some n, e) :: l :: p)) <->
  (In n (ulist (l :: p)) /\ In m (reads e)) \/ (In m (ulist (l :: p)) /\ m <> n).
Proof.
  intros n e l p m. set (q := l :: p). change (ulist ((Some n, e) :: q)) with (flat_map (fun x => if text_eqb x n then reads e else [x]) (ulist q)).
  rewrite in_flat_map. split.
  - intros [x [H1 H2]]. destruct (text_eqb x n) eqn:E.
    + apply text_eqb_eq in E. subst x. auto.
    + destruct H2 as [->|[]]. apply text_eqb_neq in E. auto.
  - intros [[H1 H2]|[H1 H2]].
    + exists n. rewrite text_eqb_refl. auto.
    + exists m. apply text_eqb_neq in H2. rewrite H2. simpl. auto.
Qed.

Definition oz_dec : forall a b : option Z, {a = b} + {a <> b} := fun a b => ltac:(decide equality; apply Z.eq_dec).

Lemma nodup_irrelevant : forall A (d1 d2 : forall a b : A, {a = b} + {a <> b}) l, nodup d1 l = nodup d2 l.
Proof.
  induction l as [|x l IH]; simpl; auto. rewrite IH.
  destruct (in_dec d1 x l), (in_dec d2 x l); congruence.
Qed.

Lemma weighted_some : forall sides env n e l p v, weighted sides env ((Some n, e) :: l :: p) v =
  if uses n (l :: p) =? 0 then weighted sides env (l :: p) v
  else lsum (fo (fun x => occurrences x (joint sides env e) ^ uses n (l :: p) * weighted sides (bind_value env (Some n) x) (l :: p) v))
            (nodup oz_dec (joint sides env e)).
Proof.
  intros. set (q := l :: p).
  change (weighted sides env ((Some n, e) :: q) v) with
    (if uses n q =? 0 then weighted sides env q v
     else fold_right (fun x acc => match x with
             | Some x => occurrences x (joint sides env e) ^ uses n q * weighted sides (bind_value env (Some n) x) q v + acc
             | None => acc end) 0
             (nodup (fun a b : option Z => ltac:(decide equality; apply Z.eq_dec) : {a = b} + {a <> b}) (joint sides env e))).
  destruct (uses n q =? 0); auto. rewrite (nodup_irrelevant _ _ oz_dec).
  induction (nodup oz_dec (joint sides env e)) as [|[x|] xs IH]; auto.
  cbn [fold_right]. rewrite IH, lsum_cons. reflexivity.
Qed.

Lemma used_results_some : forall sides env n e l p, used_results sides env ((Some n, e) :: l :: p) =
  if uses n (l :: p) =? 0 then used_results sides env (l :: p)
  else flat_map (fun x => match x with Some x => used_results sides (bind_value env (Some n) x) (l :: p) | None => [None] end)
                (joint sides env e).
Proof. reflexivity. Qed.

Lemma results_cons : forall sides env n e l p, results sides env ((n, e) :: l :: p) =
  flat_map (fun x => match x with Some x => results sides (bind_value env n x) (l :: p) | None => [None] end) (joint sides env e).
Proof. intros. destruct n; reflexivity. Qed.

Lemma weighted_agree : forall sides p env env' v, (forall n, In n (ulist p) -> env n = env' n) ->
  weighted sides env p v = weighted sides env' p v.
Proof.
  intros sides. induction p as [|[[n|] e] p IH]; intros env env' v H; [reflexivity| |].
  - destruct p as [|l p]; [cbn [weighted ulist] in *; now rewrite (joint_agree sides e env env')|].
    rewrite !weighted_some, uses_ulist. set (q := l :: p) in *.
    destruct (count n (ulist q) =? 0) eqn:E.
    + apply Z.eqb_eq in E. apply count_zero in E. apply IH. intros m Hm. apply H. apply ulist_cons. right. split; auto. congruence.
    + apply Z.eqb_neq in E. assert (Hn : In n (ulist q)) by (destruct (in_dec text_eq_dec n (ulist q)); auto; apply count_zero in n0; lia).
      rewrite (joint_agree sides e env env') by (intros m Hm; apply H; apply ulist_cons; auto).
      apply lsum_ext. intros [x|] _; auto. cbn [fo]. f_equal. apply IH. apply bind_agree. intros m Hm Hne. apply H. apply ulist_cons. auto.
  - destruct p as [|l p]; [cbn [weighted ulist] in *; now rewrite (joint_agree sides e env env')|]. apply IH. exact H.
Qed.

Lemma flat_map_ext_in : forall A B (f g : A -> list B) l, (forall x, In x l -> f x = g x) -> flat_map f l = flat_map g l.
Proof. induction l as [|x l IH]; intros H; simpl; auto. rewrite H by (left; auto). rewrite IH; auto. intros; apply H; right; auto. Qed.

Lemma used_results_agree : forall sides p env env', (forall n, In n (ulist p) -> env n = env' n) ->
  used_results sides env p = used_results sides env' p.
Proof.
  intros sides. induction p as [|[[n|] e] p IH]; intros env env' H; [reflexivity| |].
  - destruct p as [|l p]; [cbn [used_results ulist] in *; now rewrite (joint_agree sides e env env')|].
    rewrite !used_results_some, uses_ulist. set (q := l :: p) in *.
    destruct (count n (ulist q) =? 0) eqn:E.
    + apply Z.eqb_eq in E. apply count_zero in E. apply IH. intros m Hm. apply H. apply ulist_cons. right. split; auto. congruence.
    + apply Z.eqb_neq in E. assert (Hn : In n (ulist q)) by (destruct (in_dec text_eq_dec n (ulist q)); auto; apply count_zero in n0; lia).
      rewrite (joint_agree sides e env env') by (intros m Hm; apply H; apply ulist_cons; auto).
      apply flat_map_ext_in. intros [x|] _; auto. apply IH. apply bind_agree. intros m Hm Hne. apply H. apply ulist_cons. auto.
  - destruct p as [|l p]; [cbn [used_results ulist] in *; now rewrite (joint_agree sides e env env')|]. apply IH. exact H.
Qed.

(** all environments equal *)
Lemma results_ext : forall sides p env env', (forall n, env n = env' n) -> results sides env p = results sides env' p.
Proof.
  intros sides. induction p as [|[n e] p IH]; intros env env' H; [reflexivity|].
  destruct p as [|l p]; [destruct n; cbn [results]; now rewrite (joint_agree sides e env env')|].
  rewrite !results_cons. set (q := l :: p) in *. rewrite (joint_agree sides e env env') by auto.
  apply flat_map_ext_in. intros [x|] _; auto. apply IH. intros m. destruct n as [k|]; simpl; auto. destruct (text_eqb m k); auto.
Qed.

(** ** Sums over values of some names *)
Fixpoint sumover (A : list (text * list Z)) (F : (text -> Z) -> Z) (h : text -> Z) : Z :=
  match A with
  | [] => F h
  | (m, V) :: A' => lsum (fun x => sumover A' F (upd h m x)) V
  end.

Lemma sumover_ext : forall A F G h, (forall h, F h = G h) -> sumover A F h = sumover A G h.
Proof. induction A as [|[m V] A IH]; intros F G h H; simpl; auto. apply lsum_ext. intros. now apply IH. Qed.

Lemma sumover_sum : forall A X (F : X -> (text -> Z) -> Z) (l : list X) h,
  sumover A (fun h => lsum (fun x => F x h) l) h = lsum (fun x => sumover A (F x) h) l.
Proof.
  induction A as [|[m V] A IH]; intros X F l h; simpl; auto.
  rewrite (lsum_ext _ (fun x => sumover A (fun h0 => lsum (fun x0 => F x0 h0) l) (upd h m x)) (fun x => lsum (fun x0 => sumover A (F x0) (upd h m x)) l)).
  - unfold lsum. apply zsum_map_swap.
  - intros x _. apply IH.
Qed.

Lemma sumover_scale : forall A F k h, sumover A (fun h => k * F h) h = k * sumover A F h.
Proof.
  induction A as [|[m V] A IH]; intros F k h; simpl; auto. rewrite <- lsum_scale. apply lsum_ext. intros. apply IH.
Qed.

Definition agree_on (P : text -> Prop) (h h' : text -> Z) : Prop := forall m, P m -> h m = h' m.

Lemma lsum_indicator : forall (V : list Z) y g, NoDup V -> In y V -> lsum (fun x => if x =? y then g x else 0) V = g y.
Proof.
  induction V as [|x V IH]; intros y g ND Hy; [destruct Hy|]. inversion ND; subst. rewrite lsum_cons.
  destruct (x =? y) eqn:E.
  - apply Z.eqb_eq in E. subst x. rewrite (lsum_ext _ _ (fun _ => 0)); [rewrite lsum_zero; lia|].
    intros x Hx. destruct (x =? y) eqn:E; auto. apply Z.eqb_eq in E. subst. contradiction.
  - apply Z.eqb_neq in E. destruct Hy as [->|Hy]; [congruence|]. rewrite IH; auto.
Qed.

(** exactly one assignment of the names in [A] matches [h0] *)
Lemma sumover_one : forall A h0 (q F : (text -> Z) -> Z) h, NoDup (map fst A) -> (forall m V, In (m, V) A -> NoDup V /\ In (h0 m) V) ->
  (forall h h', agree_on (fun m => ~ In m (map fst A)) h h' -> q h = q h') ->
  (forall h, (forall m V, In (m, V) A -> h m = h0 m) -> F h = q h) ->
  (forall h, ~ (forall m V, In (m, V) A -> h m = h0 m) -> F h = 0) -> sumover A F h = q h.
Proof.
  induction A as [|[m V] A IH]; intros h0 q F h ND HV Hq HF HZ; simpl.
  - apply HF. intros m V [].
  - inversion ND as [|? ? Hm ND']; subst. destruct (HV m V (or_introl eq_refl)) as [NV HmV].
    rewrite (lsum_ext _ _ (fun x => if x =? h0 m then q h else 0)).
    + now rewrite (lsum_indicator V (h0 m) (fun _ => q h)).
    + intros x _. rewrite (IH h0 (fun h => if h m =? h0 m then q h else 0)).
      * rewrite upd_same. destruct (x =? h0 m); auto. apply Hq. intros k Hk. apply upd_other. intros ->. apply Hk. left; auto.
      * auto.
      * intros k W H. apply HV. right; auto.
      * intros h1 h2 Ha. rewrite (Ha m Hm). destruct (h2 m =? h0 m); auto. apply Hq. intros k Hk. apply Ha. intros C. apply Hk. right; auto.
      * intros h1 H1. destruct (h1 m =? h0 m) eqn:E.
        -- apply Z.eqb_eq in E. apply HF. intros k W [H|H]; [injection H as <- <-; auto | eauto].
        -- apply Z.eqb_neq in E. apply HZ. intros C. apply E. apply (C m V). left; auto.
      * intros h1 H1. apply HZ. intros C. apply H1. intros k W H. apply (C k W). right; auto.
Qed.

(** sums over lists without repetitions that hold the same relevant elements *)
Lemma lsum_same_support : forall A (dec : forall a b : A, {a = b} + {a <> b}) (g : A -> Z) a b, NoDup a -> NoDup b ->
  (forall x, In x a -> g x <> 0 -> In x b) -> (forall x, In x b -> g x <> 0 -> In x a) -> lsum g a = lsum g b.
Proof.
  intros A dec g. induction a as [|x a IH]; intros b Na Nb H1 H2.
  - rewrite lsum_nil. symmetry. rewrite (lsum_ext _ g (fun _ => 0)); [apply lsum_zero|]. intros x Hx.
    destruct (Z.eq_dec (g x) 0); auto. destruct (H2 x Hx n).
  - inversion Na; subst. rewrite lsum_cons. destruct (Z.eq_dec (g x) 0) as [E|E].
    + rewrite E, Z.add_0_l. apply IH; auto; intros y Hy Hg; [apply H1; simpl; auto|]. destruct (H2 y Hy Hg) as [->|]; [congruence | auto].
    + assert (Hx : In x b) by (apply H1; simpl; auto). apply in_split in Hx. destruct Hx as [b1 [b2 ->]].
      rewrite lsum_app, lsum_cons. rewrite (IH (b1 ++ b2)).
      * rewrite lsum_app. lia.
      * auto.
      * now apply NoDup_remove_1 in Nb.
      * intros y Hy Hg. specialize (H1 y (or_intror Hy) Hg). apply in_app_or in H1. apply in_or_app. simpl in H1.
        destruct H1 as [|[->|]]; auto. contradiction.
      * intros y Hy Hg. destruct (H2 y) as [->|]; auto.
        -- apply in_app_or in Hy. apply in_or_app. simpl. tauto.
        -- apply NoDup_remove_2 in Nb. contradiction.
Qed.

(** ** Occurrences *)
Lemma occurrences_nonneg : forall x l, 0 <= occurrences x l.
Proof. intros. unfold occurrences. lia. Qed.

Lemma occurrences_some : forall x l, In (Some x) l -> 0 < occurrences x l.
Proof.
  intros x l H. unfold occurrences. apply in_split in H. destruct H as [a [b ->]].
  rewrite filter_app, app_length. cbn [filter]. rewrite Z.eqb_refl. cbn [length]. lia.
Qed.

Lemma occurrences_none : forall x l, ~ In (Some x) l -> occurrences x l = 0.
Proof.
  intros x l H. unfold occurrences. induction l as [|[y|] l IH]; auto; cbn [filter].
  - destruct (y =? x) eqn:E; [|apply IH; intros C; apply H; right; auto].
    apply Z.eqb_eq in E. subst. exfalso. apply H. left; auto.
  - apply IH. intros C. apply H. right; auto.
Qed.

Section Facts.
  Context (R : Runtime).
  Notation dist := (dist R).
  Notation state := (state R).

  Lemma osat_agree : forall d o h h', In o (map fst (d_map d)) -> agree_on (dnames R d) h h' -> osat R h o -> osat R h' o.
  Proof. intros d o h h' Ho A S. apply (sat_ext R (o_cs o) h); auto. intros n Hn. apply A. exists o. auto. Qed.

  Lemma cntf_agree : forall d h h' f, agree_on (dnames R d) h h' -> cntf R h d f = cntf R h' d f.
  Proof.
    intros d h h' f A. unfold cntf. apply esum_ext. intros o Ho.
    assert (E : osatb R h o = osatb R h' o); [|now rewrite E].
    apply eq_true_iff_eq. rewrite !osatb_iff. split; apply (osat_agree d); auto. intros m Hm. symmetry. auto.
  Qed.

  Lemma lst_agree : forall d h h' x, agree_on (dnames R d) h h' -> lst R h d x -> lst R h' d x.
  Proof. intros d h h' x A [o [Ho [S V]]]. exists o. repeat split; auto. apply (osat_agree d o h h'); auto. Qed.

  (** the total over all assignments of the pinned names *)
  Lemma pinned_sum : forall A d f h, dinv R d -> pinned R (fun m V => In (m, V) A) d -> NoDup (map fst A) ->
    (forall m V, In (m, V) A -> NoDup V) ->
    esum R (fun o => f (o_value o)) (d_map d) = sumover A (fun h => cntf R h d f) h.
  Proof.
    intros A d f h D P ND NV.
    transitivity (lsum (fun oc => sumover A (fun h => snd oc * (if osatb R h (fst oc) then f (o_value (fst oc)) else 0)) h) (d_map d)).
    - unfold esum. apply lsum_ext. intros [o c] Hoc. cbn [fst snd]. rewrite sumover_scale. f_equal.
      apply (in_map fst) in Hoc. cbn [fst] in Hoc. destruct (di_keys R d D o Hoc) as [_ [_ [_ [h0 Hh0]]]].
      destruct (P o h0 Hoc Hh0) as [P1 P2]. symmetry. apply (sumover_one A h0 (fun _ => f (o_value o))); auto.
      + intros m V Hm. split; eauto.
      + intros h1 H1. apply P2 in H1. apply osatb_iff in H1. now rewrite H1.
      + intros h1 H1. destruct (osatb R h1 o) eqn:E; auto. exfalso. apply H1. apply osatb_iff in E. exact (proj1 (P2 h1) E).
    - rewrite <- sumover_sum. apply sumover_ext. intros h'. reflexivity.
  Qed.

  Lemma cntf_support : forall h d x, cntf R h d (fun y => if y =? x then 1 else 0) <> 0 ->
    exists o, In o (map fst (d_map d)) /\ o_value o = x.
  Proof.
    intros h d x. unfold cntf, esum. induction (d_map d) as [|[o k] l IH]; [intros H; exfalso; apply H; reflexivity|].
    cbn [fst snd map]; rewrite zsum_cons. intros H. destruct (o_value o =? x) eqn:E.
    - apply Z.eqb_eq in E. exists o. split; auto. left; auto.
    - destruct IH as [o' [Ho Hv]]; [|exists o'; split; auto; right; auto]. intros C. apply H. rewrite C. destruct (osatb R h o); lia.
  Qed.

  (** ** Contexts that only speak about issued names *)
  Record cwf (s : state) (c : context) : Prop := {
    cw_inst : forall n inst, c_inst c n = Some inst -> issued R s inst;
    cw_wt : forall n h h', agree_on (issued R s) h h' -> c_wt c n h = c_wt c n h';
    cw_lt : forall n h h', agree_on (issued R s) h h' -> c_lt c n h -> c_lt c n h';
    cw_sup : forall n m V, c_sup c n m V -> issued R s m;
    cw_stdout : c_inst c stdout = None
  }.

  Lemma env_agree : forall s c h h', cwf s c -> agree_on (issued R s) h h' -> forall n, env_of c h n = env_of c h' n.
  Proof.
    intros s c h h' W A n. unfold env_of. destruct (c_inst c n) as [inst|] eqn:E; auto. simpl. f_equal. apply A.
    now apply (cw_inst s c W n).
  Qed.

  Lemma wprod_agree : forall s c h h' l, cwf s c -> agree_on (issued R s) h h' -> wprod c h l = wprod c h' l.
  Proof.
    intros s c h h' l W A. unfold wprod. induction l as [|n l IH]; cbn [fold_right]; auto. rewrite IH. f_equal.
    now apply (cw_wt s c W).
  Qed.

  (** The context after [VAR n = e], [d] being the distribution of [e] *)
  Definition extend (s : state) (c : context) (n : text) (e : expr) (d : dist) : context :=
    let inst := next_instance R s n in
    {| c_inst := fun k => if text_eqb k n then Some inst else c_inst c k;
       c_wt := fun k h => if text_eqb k n then cntf R h d (fun x => if x =? h inst then 1 else 0) else c_wt c k h;
       c_lt := fun k h => if text_eqb k n then lst R h d (h inst) else c_lt c k h;
       c_sup := fun k m V => if text_eqb k n then (m = inst /\ V = nodup Z.eq_dec (map (fun o => o_value (fst o)) (d_map d))) \/
                                                  (exists k', In k' (reads e) /\ c_sup c k' m V) else c_sup c k m V |}.

  Definition stored (s : state) (n : text) (d' : dist) : state :=
    {| st_var := dset text_eqb (st_var s) n d'; st_const := st_const s; st_times := bump (st_times s) n |}.

  Lemma later_stored : forall s n d', later R s (stored s n d').
  Proof.
    intros s n d' m. rewrite (times_ext R (stored s n d') (bumped R s n)) by reflexivity. apply later_bumped.
  Qed.

  Lemma extend_known : forall s c n e d d', sinv R s -> known R s c -> cwf s c -> describes R s c e d -> var_name n ->
    d_map d' = tag_all R (next_instance R s n) (d_map d) -> dwf R (bumped R s n) d' ->
    sinv R (stored s n d') /\ known R (stored s n d') (extend s c n e d) /\ cwf (stored s n d') (extend s c n e d).
  Proof.
    intros s c n e d d' I K W D [N1 N2] M Wd. assert (L := later_stored s n d'). split; [now apply sinv_store|]. split.
    - intros k inst Hk. cbn [c_inst extend] in Hk. unfold extend. cbn [c_wt c_lt c_sup].
      destruct (text_eqb k n) eqn:E.
      + apply text_eqb_eq in E. subst k. injection Hk as <-. exists d'. split; [|split; [|split; [|split]]].
        * unfold get_var, stored. simpl. rewrite (dget_dset_same text_eqb text_eqb_iff). auto.
        * apply (dwf_later R (bumped R s n)); auto. intros m. rewrite (times_ext R (stored s n d') (bumped R s n)) by reflexivity. lia.
        * intros h f. now apply tag_cntf.
        * intros h x. rewrite (lst_tag R _ d d' h x M). split; intros [-> H]; auto.
        * apply (pinned_tag R (fun m V => exists k', In k' (reads e) /\ c_sup c k' m V) _ d d'); auto; [apply D|].
          intros o Ho. apply nodup_In. apply in_map_iff in Ho. destruct Ho as [oc [<- Ho]]. apply in_map_iff. exists oc. auto.
      + destruct (K k inst Hk) as [dk [Eg [Wk Rest]]]. exists dk. split; [|split; auto].
        * unfold get_var, stored in *. simpl. rewrite (dget_dset_other text_eqb text_eqb_iff); auto. now apply text_eqb_neq.
        * now apply (dwf_later R s).
    - assert (A1 : forall h h', agree_on (issued R (stored s n d')) h h' -> agree_on (issued R s) h h').
      { intros h h' A m Hm. apply A. now apply (issued_later R s). }
      assert (Ni : issued R (stored s n d') (next_instance R s n)).
      { apply (issued_later R (bumped R s n)); [intros m; rewrite (times_ext R (stored s n d') (bumped R s n)) by reflexivity; lia|].
        apply next_issued; auto. apply (si_times R s I). }
      assert (A2 : forall h h', agree_on (issued R s) h h' -> agree_on (dnames R d) h h').
      { intros h h' A m Hm. apply A. now apply (proj2 (ds_wf R s c e d D)). }
      constructor; unfold extend; cbn [c_inst c_wt c_lt c_sup].
      + intros k inst Hk. destruct (text_eqb k n) eqn:E.
        * injection Hk as <-. auto.
        * apply (issued_later R s); auto. now apply (cw_inst s c W k).
      + intros k h h' A. destruct (text_eqb k n); [|apply (cw_wt s c W); auto].
        rewrite (A _ Ni). apply cntf_agree. auto.
      + intros k h h' A. destruct (text_eqb k n); [|apply (cw_lt s c W); auto].
        rewrite (A _ Ni). apply lst_agree. auto.
      + intros k m V H. destruct (text_eqb k n).
        * destruct H as [[-> _]|[k' [_ H]]]; auto. apply (issued_later R s); auto. now apply (cw_sup s c W k' m V).
        * apply (issued_later R s); auto. now apply (cw_sup s c W k m V).
      + destruct (text_eqb stdout n) eqn:E; [apply text_eqb_eq in E; subst n; exfalso; apply N2; reflexivity|].
        apply (cw_stdout s c W).
  Qed.

  (** writing stdout changes none of this *)
  Lemma times_stdout : forall s d n, times_of R (set_stdout_var R d s) n = times_of R s n.
  Proof. reflexivity. Qed.

  Lemma stdout_known : forall s c d, sinv R s -> known R s c -> cwf s c -> dwf R s d ->
    sinv R (set_stdout_var R d s) /\ known R (set_stdout_var R d s) c /\ cwf (set_stdout_var R d s) c.
  Proof.
    intros s c d I K W D. split; [|split].
    - constructor.
      + intros n x H. simpl in H. apply (dset_vals text_eqb text_eqb_iff) in H. destruct H as [H|[-> _]]; auto. now apply (si_var R s I n).
      + intros n. apply (si_times R s I).
    - intros n inst Hn. destruct (K n inst Hn) as [x [Eg Rest]]. exists x. split; auto. unfold get_var in *. simpl.
      rewrite (dget_dset_other text_eqb text_eqb_iff); auto. intros ->. rewrite (cw_stdout s c W) in Hn. discriminate.
    - destruct W. constructor; auto.
  Qed.

  (** ** Running a program; [so]: the interpreter stores the result of each line under "stdout" *)
  Definition after_line (so : bool) (d : dist) (s : state) : state := if so then set_stdout_var R d s else s.

  Fixpoint run (so : bool) (p : program) : M R dist :=
    match p with
    | [] => lift R (Raise KeyError)
    | [l] => bind R (dist_of R (line_expr l)) (fun d s => (after_line so d s, Ok d))
    | l :: p' => bind R (dist_of R (line_expr l)) (fun d s => run so p' (after_line so d s))
    end.

  (** ** An expression whose distribution exists has a value on every possible result *)
  Lemma none_both : forall g a b, In None (both g a b) ->
    In None a \/ In None b \/ exists x y, In (Some x) a /\ In (Some y) b /\ g x y = None.
  Proof.
    intros g a b H. unfold both in H. apply in_flat_map in H. destruct H as [[x|] [Hx H]]; [|auto].
    apply in_map_iff in H. destruct H as [[y|] [E Hy]]; [|auto]. right. right. eauto.
  Qed.

  Lemma no_none : forall s c, known R s c -> forall e d h, simple e -> (forall n, In n (reads e) -> c_inst c n <> None) ->
    (forall n, In n (reads e) -> c_lt c n h) -> dist_of R e s = (s, Ok d) -> ~ In None (joint (map fst) (env_of c h) e).
  Proof.
    intros s c K. induction e; intros dd h S Hr Hl E; cbn [simple] in S; cbn [joint].
    all: try (rename e1 into a; rename e2 into b).
    all: try (assert (Hra : forall n, In n (reads a) -> c_inst c n <> None) by (intros n Hn; apply Hr; cbn [reads]; apply in_or_app; auto);
      assert (Hrb : forall n, In n (reads b) -> c_inst c n <> None) by (intros n Hn; apply Hr; cbn [reads]; apply in_or_app; auto);
      assert (Hla : forall n, In n (reads a) -> c_lt c n h) by (intros n Hn; apply Hl; cbn [reads]; apply in_or_app; auto);
      assert (Hlb : forall n, In n (reads b) -> c_lt c n h) by (intros n Hn; apply Hl; cbn [reads]; apply in_or_app; auto)).
    - apply (IHe dd); auto.
    - cbn [dist_of] in E. unfold bind in E. destruct (dist_of R e s) as [s' [d|]] eqn:Ed; [|discriminate]. injection E as -> _.
      intros H. apply in_map_iff in H. destruct H as [[x|] [H1 H2]]; [discriminate|]. revert H2. eapply IHe; eauto.
    - intros H. apply in_map_iff in H. destruct H as [x [H _]]. discriminate.
    - intros H. apply in_map_iff in H. destruct H as [x [H _]]. discriminate.
    - destruct S as [z ->]. intros [H|[]]. discriminate.
    - intros [H|[]]. discriminate.
    - destruct S as [Sa Sb]. destruct (simple_dist R s c K a Sa Hra) as [ra [Ea Ha]]. destruct (simple_dist R s c K b Sb Hrb) as [rb [Eb Hb]].
      cbn [dist_of] in E. unfold binop_m, bind in E. rewrite Ea in E. destruct ra as [da|]; [|discriminate]. rewrite Eb in E. destruct rb as [db|]; [|discriminate].
      intros H. apply none_both in H. destruct H as [H|[H|[x [y [_ [_ H]]]]]]; [|  | discriminate]; revert H; [eapply IHe1 | eapply IHe2]; eauto.
    - destruct S as [Sa Sb]. destruct (simple_dist R s c K a Sa Hra) as [ra [Ea Ha]]. destruct (simple_dist R s c K b Sb Hrb) as [rb [Eb Hb]].
      cbn [dist_of] in E. unfold binop_m, bind in E. rewrite Ea in E. destruct ra as [da|]; [|discriminate]. rewrite Eb in E. destruct rb as [db|]; [|discriminate].
      intros H. apply none_both in H. destruct H as [H|[H|[x [y [_ [_ H]]]]]]; [|  | discriminate]; revert H; [eapply IHe1 | eapply IHe2]; eauto.
    - destruct S as [Sa Sb]. destruct (simple_dist R s c K a Sa Hra) as [ra [Ea Ha]]. destruct (simple_dist R s c K b Sb Hrb) as [rb [Eb Hb]].
      cbn [dist_of] in E. unfold binop_m, bind in E. rewrite Ea in E. destruct ra as [da|]; [|discriminate]. rewrite Eb in E. destruct rb as [db|]; [|discriminate].
      intros H. apply none_both in H. destruct H as [H|[H|[x [y [_ [_ H]]]]]]; [|  | discriminate]; revert H; [eapply IHe1 | eapply IHe2]; eauto.
    - destruct S as [Sa Sb]. destruct (simple_dist R s c K a Sa Hra) as [ra [Ea Ha]]. destruct (simple_dist R s c K b Sb Hrb) as [rb [Eb Hb]].
      cbn [dist_of] in E. unfold binop_m, bind in E. rewrite Ea in E. destruct ra as [da|]; [|discriminate]. rewrite Eb in E. destruct rb as [db|]; [|discriminate].
      intros H. apply none_both in H. destruct H as [H|[H|[x [y [Hx [Hy H]]]]]]; [revert H; eapply IHe1; eauto | revert H; eapply IHe2; eauto |].
      destruct (y =? 0) eqn:Y; [|discriminate]. apply Z.eqb_eq in Y. subst y.
      unfold lift in E. rewrite d_div_raises in E; [discriminate| | |].
      + apply (ds_wf _ _ _ _ _ Ha).
      + intros N. assert (L : lst R h da x) by (apply (ds_lst _ _ _ _ _ Ha); auto). destruct L as [o [Ho _]]. rewrite N in Ho. destruct Ho.
      + assert (L : lst R h db 0) by (apply (ds_lst _ _ _ _ _ Hb); auto). destruct L as [o [Ho [_ V]]]. apply listed_values. eauto.
    - destruct S as [So [Sa Sb]]. destruct (simple_dist R s c K a Sa Hra) as [ra [Ea Ha]]. destruct (simple_dist R s c K b Sb Hrb) as [rb [Eb Hb]].
      cbn [dist_of] in E. destruct (dist_operator operator); [|discriminate].
      unfold binop_m, bind in E. rewrite Ea in E. destruct ra as [da|]; [|discriminate]. rewrite Eb in E. destruct rb as [db|]; [|discriminate].
      intros H. apply none_both in H. destruct H as [H|[H|[x [y [_ [_ H]]]]]]; [revert H; eapply IHe1; eauto | revert H; eapply IHe2; eauto |].
      destruct (operator_meaning operator); [discriminate | congruence].
    - destruct S as [So [Sa Sb]]. destruct (simple_dist R s c K a Sa Hra) as [ra [Ea Ha]]. destruct (simple_dist R s c K b Sb Hrb) as [rb [Eb Hb]].
      cbn [dist_of] in E. unfold binop_m, bind in E. rewrite Ea in E. destruct ra as [da|]; [|discriminate]. rewrite Eb in E. destruct rb as [db|]; [|discriminate].
      intros H. apply none_both in H. destruct H as [H|[H|[x [y [_ [_ H]]]]]]; [revert H; eapply IHe1; eauto | revert H; eapply IHe2; eauto |].
      destruct (minmax_meaning min_max); [discriminate | congruence].
    - cbn [dist_of] in E. unfold bind in E. destruct (dist_of R e s) as [s' [d|]] eqn:Ed; [|discriminate]. injection E as -> _.
      intros H. apply in_map_iff in H. destruct H as [[x|] [H1 H2]]; [discriminate|]. revert H2. eapply IHe; eauto.
    - destruct S.
    - intros [H|[]]. unfold env_of in H. specialize (Hr name (or_introl eq_refl)). destruct (c_inst c name); [discriminate | congruence].
  Qed.

  (** ** One line *)
  Definition next_context (s : state) (c : context) (n : option text) (e : expr) (d : dist) : context :=
    match n with Some n => extend s c n e d | None => c end.

  Lemma line_step : forall so s c n e, sinv R s -> known R s c -> cwf s c -> simple e ->
    match n with Some n => var_name n | None => True end -> (forall m, In m (reads e) -> c_inst c m <> None) ->
    exists s1 r, dist_of R (line_expr (n, e)) s = (s1, r) /\
      match r with
      | Raise x => x = ZeroDivisionError /\ s1 = s
      | Ok d => dist_of R e s = (s, Ok d) /\ describes R s c e d /\
          let s2 := after_line so d s1 in let c2 := next_context s c n e d in
          sinv R s2 /\ known R s2 c2 /\ cwf s2 c2 /\ later R s s2 /\
          (forall m, issued R s2 m -> issued R s m \/ exists n', n = Some n' /\ m = next_instance R s n') /\
          (forall n', n = Some n' -> issued R s2 (next_instance R s n'))
      end.
  Proof.
    intros so s c n e I K W S N Hr. destruct (simple_dist R s c K e S Hr) as [r [E H]].
    destruct n as [n|]; cbn [line_expr dist_of].
    - unfold bind. rewrite E. destruct r as [d|x]; [|exists s, (Raise x); auto].
      destruct (set_var_spec R s n d I (ds_wf _ _ _ _ _ H) (proj1 N)) as [d' [Es [M [C Wd]]]]. rewrite Es.
      fold (stored s n d'). eexists. eexists. split; [reflexivity|]. split; auto. split; auto. cbn [next_context].
      destruct (extend_known s c n e d d' I K W H N M Wd) as [I1 [K1 W1]].
      assert (Hd : dwf R (stored s n d') d) by (apply (dwf_later R s); [apply later_stored | apply H]).
      assert (IS : forall m, issued R (stored s n d') m -> issued R s m \/ exists n', Some n = Some n' /\ m = next_instance R s n').
      { intros m [k [j [-> [Nk Hj]]]]. rewrite (times_ext R (stored s n d') (bumped R s n)) in Hj by reflexivity.
        destruct (text_eq_dec k n) as [->|Hk].
        - rewrite times_bumped_same in Hj. destruct (Z.eq_dec j (times_of R s n + 1)) as [->|Hne].
          + right. exists n. auto.
          + left. exists n, j. repeat split; auto; lia.
        - rewrite times_bumped_other in Hj by auto. left. exists k, j. auto. }
      assert (IN : issued R (stored s n d') (next_instance R s n)).
      { apply (cw_inst _ _ W1 n). cbn [extend c_inst]. now rewrite text_eqb_refl. }
      destruct so; cbn [after_line].
      + destruct (stdout_known (stored s n d') (extend s c n e d) d I1 K1 W1 Hd) as [I2 [K2 W2]].
        repeat (split; auto); [intros m; rewrite times_stdout; apply later_stored |]. intros n' Hn. injection Hn as <-. exact IN.
      + repeat (split; auto); [apply later_stored |]. intros n' Hn. injection Hn as <-. auto.
    - rewrite E. exists s, r. split; auto. destruct r as [d|x]; [|auto]. split; auto. split; auto. cbn [next_context].
      destruct so; cbn [after_line].
      + destruct (stdout_known s c d I K W (ds_wf _ _ _ _ _ H)) as [I2 [K2 W2]].
        repeat (split; auto); [intros m; rewrite times_stdout; lia | discriminate].
      + repeat (split; auto); [apply later_refl | discriminate].
  Qed.

  Definition good_lines (p : program) : Prop :=
    forall n e, In (n, e) p -> simple e /\ match n with Some n => var_name n | None => True end.
  Definition known_names (c : context) (l : list text) : Prop := forall n, In n l -> c_inst c n <> None.

  Definition delta (v x : Z) : Z := if x =? v then 1 else 0.

  Record run_facts (s : state) (c : context) (p : program) (s' : state) (d : dist) : Prop := {
    rf_sinv : sinv R s';
    rf_dwf : dwf R s' d;
    rf_sum : exists A, NoDup (map fst A) /\ (forall m V, In (m, V) A -> ~ issued R s m /\ NoDup V) /\
      pinned R (fun m V => In (m, V) A \/ exists n, In n (ulist p) /\ c_sup c n m V) d /\
      forall h v, sumover A (fun h => cntf R h d (delta v)) h = wprod c h (ulist p) * weighted faces (env_of c h) p v;
    rf_lst : forall h v, (exists h', agree_on (issued R s) h h' /\ lst R h' d v) <->
      (forall n, In n (ulist p) -> c_lt c n h) /\ In (Some v) (used_results (map fst) (env_of c h) p);
    rf_none : forall h, (forall n, c_inst c n <> None -> c_lt c n h) -> ~ In None (results (map fst) (env_of c h) p)
  }.

  Lemma wprod_zero : forall c h l, wprod c h l <> 0 -> forall l', (forall n, In n l' -> In n l) -> wprod c h l' <> 0.
  Proof.
    intros c h l H. assert (G : forall n, In n l -> c_wt c n h <> 0).
    { revert H. unfold wprod. induction l as [|k l IH]; intros H n []; cbn [fold_right] in H.
      - subst. intros C. apply H. rewrite C. lia.
      - apply IH; auto. intros C. apply H. fold (wprod c h l) in *. rewrite C. lia. }
    induction l' as [|k l' IH]; intros Hl.
    - unfold wprod. simpl. lia.
    - unfold wprod. cbn [fold_right]. fold (wprod c h l'). apply Z.neq_mul_0. split; [apply G, Hl; left; auto | apply IH; intros; apply Hl; right; auto].
  Qed.

  (** splitting off the weight of the new variable *)
  Lemma wprod_extend : forall c c' h n e w l,
    (forall k, k <> n -> c_wt c' k h = c_wt c k h) -> c_wt c' n h = wprod c h (reads e) * w ->
    wprod c' h l = w ^ count n l * wprod c h (flat_map (fun x => if text_eqb x n then reads e else [x]) l).
  Proof.
    intros c c' h n e w l H1 H2. induction l as [|k l IH].
    - change (count n []) with 0. unfold wprod. simpl flat_map. cbn [fold_right]. rewrite Z.pow_0_r. lia.
    - rewrite count_cons. unfold wprod at 1. cbn [fold_right flat_map]. fold (wprod c' h l). rewrite IH, wprod_app.
      rewrite (text_eqb_sym n k). destruct (text_eqb k n) eqn:E.
      + apply text_eqb_eq in E. subst k. rewrite H2, Z.pow_add_r by (try lia; apply count_nonneg). rewrite Z.pow_1_r. ring.
      + apply text_eqb_neq in E. rewrite (H1 k E). rewrite Z.add_0_l. unfold wprod at 2. cbn [fold_right]. ring.
  Qed.

  Lemma wprod_other : forall c c' h n l, (forall k, k <> n -> c_wt c' k h = c_wt c k h) -> ~ In n l -> wprod c' h l = wprod c h l.
  Proof.
    intros c c' h n l H1 H2. unfold wprod. induction l as [|k l IH]; cbn [fold_right]; auto.
    rewrite IH by (intros C; apply H2; right; auto). rewrite H1; auto. intros ->. apply H2. left; auto.
  Qed.

  (** the context after the line, on assignments that give [x] to the new instance *)
  Section Extended.
    Context (s : state) (c : context) (n : text) (e : expr) (d : dist).
    Context (D : describes R s c e d) (W : cwf s c).
    Notation inst := (next_instance R s n).
    Notation c2 := (extend s c n e d).

    Lemma upd_agree : forall h x, agree_on (issued R s) h (upd h inst x).
    Proof. intros h x m Hm. symmetry. apply upd_other. intros ->. now apply (next_not_issued R s n). Qed.

    Lemma ext_env : forall h h' k, agree_on (issued R s) h h' -> env_of c2 h' k = bind_value (env_of c h) (Some n) (h' inst) k.
    Proof.
      intros h h' k A. unfold env_of, bind_value. cbn [extend c_inst]. destruct (text_eqb k n); auto.
      symmetry. exact (env_agree s c h h' W A k).
    Qed.

    Lemma ext_env_other : forall h k, k <> n -> env_of c2 h k = env_of c h k.
    Proof. intros h k H. unfold env_of. cbn [extend c_inst]. apply text_eqb_neq in H. now rewrite H. Qed.

    Lemma ext_wt_other : forall h k, k <> n -> c_wt c2 k h = c_wt c k h.
    Proof. intros h k H. cbn [extend c_wt]. apply text_eqb_neq in H. now rewrite H. Qed.
    Lemma ext_lt_other : forall h k, k <> n -> c_lt c2 k h = c_lt c k h.
    Proof. intros h k H. cbn [extend c_lt]. apply text_eqb_neq in H. now rewrite H. Qed.
    Lemma ext_sup_other : forall k m V, k <> n -> c_sup c2 k m V = c_sup c k m V.
    Proof. intros k m V H. cbn [extend c_sup]. apply text_eqb_neq in H. now rewrite H. Qed.

    Lemma ext_wt : forall h, c_wt c2 n h = wprod c h (reads e) * occurrences (h inst) (joint faces (env_of c h) e).
    Proof. intros h. cbn [extend c_wt]. rewrite text_eqb_refl, (ds_cntf _ _ _ _ _ D), occurrences_lsum. reflexivity. Qed.

    Lemma ext_lt : forall h, c_lt c2 n h <->
      (forall k, In k (reads e) -> c_lt c k h) /\ In (Some (h inst)) (joint (map fst) (env_of c h) e).
    Proof. intros h. cbn [extend c_lt]. rewrite text_eqb_refl. apply (ds_lst _ _ _ _ _ D). Qed.

    Lemma lt_agree : forall h h' k, agree_on (issued R s) h h' -> c_lt c k h <-> c_lt c k h'.
    Proof.
      intros h h' k A. split; apply (cw_lt s c W); auto. intros m Hm. symmetry. auto.
    Qed.

    Lemma joint_agree_h : forall sides h h' f, agree_on (issued R s) h h' -> joint sides (env_of c h) f = joint sides (env_of c h') f.
    Proof. intros sides h h' f A. apply joint_agree. intros k _. now apply (env_agree s). Qed.
  End Extended.

  Lemma not_used : forall n e l p, ~ In n (ulist (l :: p)) -> ulist ((Some n, e) :: l :: p) = ulist (l :: p).
  Proof.
    intros n e l p H. set (q := l :: p) in *. change (ulist ((Some n, e) :: q)) with (flat_map (fun x => if text_eqb x n then reads e else [x]) (ulist q)).
    induction (ulist q) as [|x xs IH]; auto. simpl. rewrite IH by (intros C; apply H; right; auto).
    destruct (text_eqb x n) eqn:E; auto. apply text_eqb_eq in E. subst. exfalso. apply H. left; auto.
  Qed.

  Lemma line_sum : forall s c n e d l p s2 dd, describes R s c e d -> cwf s c -> later R s s2 ->
    (forall m, issued R s2 m -> issued R s m \/ exists n', n = Some n' /\ m = next_instance R s n') ->
    (forall n', n = Some n' -> issued R s2 (next_instance R s n')) ->
    forall A, NoDup (map fst A) -> (forall m V, In (m, V) A -> ~ issued R s2 m /\ NoDup V) ->
      pinned R (fun m V => In (m, V) A \/ exists k, In k (ulist (l :: p)) /\ c_sup (next_context s c n e d) k m V) dd ->
      (forall h v, sumover A (fun h => cntf R h dd (delta v)) h =
         wprod (next_context s c n e d) h (ulist (l :: p)) * weighted faces (env_of (next_context s c n e d) h) (l :: p) v) ->
    exists A, NoDup (map fst A) /\ (forall m V, In (m, V) A -> ~ issued R s m /\ NoDup V) /\
      pinned R (fun m V => In (m, V) A \/ exists k, In k (ulist ((n, e) :: l :: p)) /\ c_sup c k m V) dd /\
      forall h v, sumover A (fun h => cntf R h dd (delta v)) h =
        wprod c h (ulist ((n, e) :: l :: p)) * weighted faces (env_of c h) ((n, e) :: l :: p) v.
  Proof.
    intros s c n e d l p s2 dd D W L IS IN A A1 A2 A3 A4.
    assert (A2' : forall m V, In (m, V) A -> ~ issued R s m /\ NoDup V).
    { intros m V H. destruct (A2 m V H) as [H1 H2]. split; auto. intros C. apply H1. now apply (issued_later R s). }
    destruct n as [n|]; [|exists A; auto]. cbn [next_context] in *. specialize (IN n eq_refl).
    destruct (in_dec text_eq_dec n (ulist (l :: p))) as [Hn|Hn].
    - set (inst := next_instance R s n) in *. set (Vd := nodup Z.eq_dec (map (fun o => o_value (fst o)) (d_map d))).
      exists ((inst, Vd) :: A). split; [|split; [|split]].
      + cbn [map fst]. constructor; auto. intros C. apply in_map_iff in C. destruct C as [[m V] [E C]]. simpl in E. subst m.
        now destruct (A2 inst V C).
      + intros m V [H|H]; auto. injection H as <- <-. split; [apply next_not_issued | apply NoDup_nodup].
      + revert A3. apply pinned_ext. intros m V. split.
        * intros [H|[k [Hk H]]]; [left; right; auto|]. destruct (text_eq_dec k n) as [->|Hne].
          -- cbn [extend c_sup] in H. rewrite text_eqb_refl in H. destruct H as [[-> ->]|[k' [Hk' H]]]; [left; left; auto|].
             right. exists k'. split; auto. apply ulist_cons. auto.
          -- rewrite ext_sup_other in H by auto. right. exists k. split; auto. apply ulist_cons. auto.
        * intros [[H|H]|[k [Hk H]]]; auto.
          -- injection H as <- <-. right. exists n. split; auto. cbn [extend c_sup]. rewrite text_eqb_refl. auto.
          -- right. apply ulist_cons in Hk. destruct Hk as [[_ Hk]|[Hk Hne]].
             ++ exists n. split; auto. cbn [extend c_sup]. rewrite text_eqb_refl. right. eauto.
             ++ exists k. split; auto. rewrite ext_sup_other; auto.
      + intros h v. cbn [sumover]. set (q := l :: p) in *. set (J := joint faces (env_of c h) e).
        set (G := fun x => occurrences x J ^ uses n q * weighted faces (bind_value (env_of c h) (Some n) x) q v).
        set (U := ulist ((Some n, e) :: q)).
        assert (Hu : 0 < uses n q).
        { rewrite uses_ulist. assert (H0 := count_nonneg n (ulist q)).
          destruct (Z.eq_dec (count n (ulist q)) 0) as [E0|]; [|lia]. apply count_zero in E0. contradiction. }
        transitivity (wprod c h U * lsum G Vd).
        * rewrite <- lsum_scale. apply lsum_ext. intros x _. rewrite A4. set (h' := upd h inst x).
          assert (Ag : agree_on (issued R s) h h') by apply upd_agree.
          rewrite (wprod_extend c (extend s c n e d) h' n e (occurrences x J) (ulist q)).
          -- rewrite <- uses_ulist. unfold G. fold (ulist ((Some n, e) :: l :: p)).
             change (flat_map (fun x0 => if text_eqb x0 n then reads e else [x0]) (ulist q)) with U.
             rewrite <- (wprod_agree s c h h' U W Ag).
             rewrite (weighted_agree faces q (env_of (extend s c n e d) h') (bind_value (env_of c h) (Some n) x)).
             ++ ring.
             ++ intros k _. rewrite (ext_env s c n e d W h h' k Ag). unfold h'. fold inst. now rewrite upd_same.
          -- intros k Hk. now apply ext_wt_other.
          -- rewrite (ext_wt s c n e d D). f_equal. fold inst. unfold h'. rewrite upd_same. f_equal. unfold J. symmetry.
             now apply (joint_agree_h s c W).
        * unfold q. rewrite weighted_some. fold q. assert (E0 : uses n q =? 0 = false) by (apply Z.eqb_neq; lia). rewrite E0. clear E0.
          destruct (Z.eq_dec (wprod c h U) 0) as [E0|E0]; [rewrite E0; lia|]. f_equal. fold J. fold G.
          assert (E1 : wprod c h (reads e) <> 0).
          { apply (wprod_zero c h U E0). intros k Hk. apply ulist_cons. auto. }
          transitivity (lsum (fo G) (map Some Vd)).
          { unfold lsum. rewrite map_map. reflexivity. }
          apply (lsum_same_support _ oz_dec).
          -- apply FinFun.Injective_map_NoDup; [intros a b Hab; congruence | apply NoDup_nodup].
          -- apply NoDup_nodup.
          -- intros [x|] Hx Hg; [|exfalso; apply Hg; reflexivity]. apply nodup_In. cbn [fo] in Hg. unfold G in Hg.
             destruct (in_dec oz_dec (Some x) J) as [|Hni]; auto. exfalso. apply Hg. rewrite (occurrences_none x J Hni), Z.pow_0_l by lia. lia.
          -- intros [x|] Hx Hg; [|exfalso; apply Hg; reflexivity]. apply nodup_In in Hx. apply in_map. apply nodup_In.
             assert (Hc : cntf R h d (delta x) <> 0).
             { rewrite (ds_cntf _ _ _ _ _ D). fold J. apply Z.neq_mul_0. split; auto. assert (Ho := occurrences_some x J Hx). rewrite occurrences_lsum in Ho. unfold delta. lia. }
             apply (cntf_support h d x) in Hc. destruct Hc as [o [Ho Hv]]. apply in_map_iff in Ho. destruct Ho as [[o' k] [<- Ho]].
             apply in_map_iff. exists (o', k). auto.
    - exists A. split; auto. split; auto. rewrite (not_used n e l p Hn). set (q := l :: p) in *. split.
      + revert A3. apply pinned_ext. intros m V. split; (intros [H|[k [Hk H]]]; [auto|right; exists k; split; auto]).
        * rewrite ext_sup_other in H; auto. congruence.
        * rewrite ext_sup_other; auto. congruence.
      + intros h v. rewrite A4. unfold q. rewrite weighted_some. fold q. rewrite uses_ulist.
        assert (E0 : count n (ulist q) =? 0 = true) by (apply Z.eqb_eq; now apply count_zero). rewrite E0. f_equal.
        * apply (wprod_other c _ h n); auto. intros k Hk. now apply ext_wt_other.
        * apply weighted_agree. intros k Hk. apply ext_env_other. congruence.
  Qed.

  Lemma line_lst : forall s c n e d l p s2 dd, describes R s c e d -> cwf s c -> later R s s2 ->
    (forall m, issued R s2 m -> issued R s m \/ exists n', n = Some n' /\ m = next_instance R s n') ->
    (forall h v, (exists h', agree_on (issued R s2) h h' /\ lst R h' dd v) <->
      (forall k, In k (ulist (l :: p)) -> c_lt (next_context s c n e d) k h) /\
      In (Some v) (used_results (map fst) (env_of (next_context s c n e d) h) (l :: p))) ->
    forall h v, (exists h', agree_on (issued R s) h h' /\ lst R h' dd v) <->
      (forall k, In k (ulist ((n, e) :: l :: p)) -> c_lt c k h) /\
      In (Some v) (used_results (map fst) (env_of c h) ((n, e) :: l :: p)).
  Proof.
    intros s c n e d l p s2 dd D W L IS H h v.
    assert (Ag : forall h h', agree_on (issued R s2) h h' -> agree_on (issued R s) h h').
    { intros h1 h2 A m Hm. apply A. now apply (issued_later R s). }
    destruct n as [n|]; cbn [next_context] in H.
    - set (inst := next_instance R s n) in *. set (q := l :: p) in *.
      transitivity (exists h', agree_on (issued R s) h h' /\ (forall k, In k (ulist q) -> c_lt (extend s c n e d) k h') /\
        In (Some v) (used_results (map fst) (env_of (extend s c n e d) h') q)).
      { split.
        - intros [h' [A Hl]]. exists h'. split; auto. apply H. exists h'. split; auto. intros m _. auto.
        - intros [h' [A Hl]]. apply H in Hl. destruct Hl as [h2 [A2 Hl]]. exists h2. split; auto. intros m Hm. rewrite (A m Hm). now apply (Ag h' h2 A2). }
      clear H. unfold q. rewrite used_results_some. fold q. rewrite uses_ulist.
      destruct (in_dec text_eq_dec n (ulist q)) as [Hn|Hn].
      + assert (E0 : count n (ulist q) =? 0 = false) by (apply Z.eqb_neq; intros C; apply count_zero in C; contradiction). rewrite E0. clear E0. split.
        * intros [h' [A [H1 H2]]]. assert (Hln := H1 n Hn). apply (ext_lt s c n e d D) in Hln. destruct Hln as [Hr Hj]. fold inst in Hj. split.
          -- intros k Hk. apply (lt_agree s c W h h' k A). apply ulist_cons in Hk. destruct Hk as [[_ Hk]|[Hk Hne]]; auto.
             specialize (H1 k Hk). now rewrite ext_lt_other in H1.
          -- apply in_flat_map. exists (Some (h' inst)). split; [now rewrite (joint_agree_h s c W (map fst) h h' e A)|].
             rewrite <- (used_results_agree (map fst) q (env_of (extend s c n e d) h')); auto.
             intros k _. now apply ext_env.
        * intros [H1 H2]. apply in_flat_map in H2. destruct H2 as [[x|] [Hx H2]]; [|destruct H2 as [H2|[]]; discriminate].
          exists (upd h inst x). assert (A : agree_on (issued R s) h (upd h inst x)) by apply upd_agree. split; auto. split.
          -- intros k Hk. destruct (text_eq_dec k n) as [->|Hne].
             ++ apply (ext_lt s c n e d D). fold inst. rewrite upd_same. split.
                ** intros k Hk'. apply (lt_agree s c W h _ k A). apply H1. apply ulist_cons. auto.
                ** now rewrite <- (joint_agree_h s c W (map fst) h _ e A).
             ++ rewrite ext_lt_other by auto. apply (lt_agree s c W h _ k A). apply H1. apply ulist_cons. auto.
          -- rewrite (used_results_agree (map fst) q _ (bind_value (env_of c h) (Some n) x)); auto.
             intros k _. rewrite (ext_env s c n e d W h _ k A). fold inst. now rewrite upd_same.
      + assert (E0 : count n (ulist q) =? 0 = true) by (apply Z.eqb_eq; now apply count_zero). rewrite E0. clear E0.
        unfold q. rewrite (not_used n e l p Hn). fold q.
        assert (EU : forall h', used_results (map fst) (env_of (extend s c n e d) h') q = used_results (map fst) (env_of c h') q).
        { intros h'. apply used_results_agree. intros k Hk. apply ext_env_other. congruence. }
        split.
        * intros [h' [A [H1 H2]]]. rewrite EU in H2. split.
          -- intros k Hk. apply (lt_agree s c W h h' k A). specialize (H1 k Hk). rewrite ext_lt_other in H1; auto. congruence.
          -- rewrite (used_results_agree (map fst) q _ (env_of c h')); auto. intros k _. now apply (env_agree s).
        * intros [H1 H2]. exists h. split; [intros m _; auto|]. rewrite EU. split; auto. intros k Hk. rewrite ext_lt_other by congruence. auto.
    - set (q := l :: p) in *. change (ulist ((None, e) :: q)) with (ulist q). change (used_results (map fst) (env_of c h) ((None, e) :: q)) with (used_results (map fst) (env_of c h) q).
      rewrite <- H. split; intros [h' [A Hl]]; exists h'; split; auto.
      intros m Hm. apply A. destruct (IS m Hm) as [|[n' [C _]]]; [auto | discriminate].
  Qed.

  Lemma line_none : forall s c n e d l p, known R s c -> cwf s c -> simple e -> (forall m, In m (reads e) -> c_inst c m <> None) ->
    dist_of R e s = (s, Ok d) -> describes R s c e d ->
    (forall h, (forall k, c_inst (next_context s c n e d) k <> None -> c_lt (next_context s c n e d) k h) ->
       ~ In None (results (map fst) (env_of (next_context s c n e d) h) (l :: p))) ->
    forall h, (forall k, c_inst c k <> None -> c_lt c k h) -> ~ In None (results (map fst) (env_of c h) ((n, e) :: l :: p)).
  Proof.
    intros s c n e d l p K W S Hr Ed D H h Hl C. rewrite results_cons in C. apply in_flat_map in C. destruct C as [[x|] [Hx C]].
    - destruct n as [n|]; [|now apply (H h)]. cbn [next_context] in H. set (inst := next_instance R s n) in *.
      assert (A : agree_on (issued R s) h (upd h inst x)) by apply upd_agree.
      apply (H (upd h inst x)).
      + intros k Hk. destruct (text_eq_dec k n) as [->|Hne].
        * apply (ext_lt s c n e d D). fold inst. rewrite upd_same. split.
          -- intros k Hk'. apply (lt_agree s c W h _ k A). auto.
          -- now rewrite <- (joint_agree_h s c W (map fst) h _ e A).
        * rewrite ext_lt_other by auto. apply (lt_agree s c W h _ k A). apply Hl. cbn [extend c_inst] in Hk. apply text_eqb_neq in Hne. now rewrite Hne in Hk.
      + rewrite (results_ext (map fst) _ _ (bind_value (env_of c h) (Some n) x)); auto.
        intros k. rewrite (ext_env s c n e d W h _ k A). fold inst. now rewrite upd_same.
    - revert Hx. eapply no_none; eauto.
  Qed.

  Lemma run_spec : forall so p s c, p <> [] -> sinv R s -> known R s c -> cwf s c -> good_lines p ->
    (exists kn, known_names c kn /\ closed kn p) ->
    exists s' r, run so p s = (s', r) /\
      match r with Raise x => x = ZeroDivisionError | Ok d => run_facts s c p s' d end.
  Proof.
    intros so. induction p as [|[n e] p IH]; intros s c Hp I K W G [kn [Hkn HC]]; [congruence|]. clear Hp.
    destruct (G n e (or_introl eq_refl)) as [S N]. destruct HC as [HC1 HC2].
    assert (Hr : forall m, In m (reads e) -> c_inst c m <> None) by (intros m Hm; apply Hkn; auto).
    destruct (line_step so s c n e I K W S N Hr) as [s1 [r [E H]]].
    destruct p as [|l p].
    - cbn [run]. unfold bind. rewrite E. destruct r as [d|x]; [|exists s1, (Raise x); split; [auto | tauto]].
      destruct H as [Ed [D [I2 [K2 [W2 [L [IS IN]]]]]]]. eexists. eexists. split; [reflexivity|]. constructor; auto.
      + apply (dwf_later R s); auto. apply D.
      + exists []. split; [constructor|]. split; [intros m V []|]. split.
        * apply (pinned_ext R (fun m V => exists n0, In n0 (reads e) /\ c_sup c n0 m V)); [|apply D].
          intros m V. destruct n; cbn [ulist]; simpl; tauto.
        * intros h v. cbn [sumover]. rewrite (ds_cntf _ _ _ _ _ D). destruct n; cbn [ulist weighted]; now rewrite occurrences_lsum.
      + intros h v. assert (U : ulist [(n, e)] = reads e) by (destruct n; reflexivity). rewrite U.
        assert (UR : used_results (map fst) (env_of c h) [(n, e)] = joint (map fst) (env_of c h) e) by (destruct n; reflexivity). rewrite UR. split.
        * intros [h' [A Hh]]. apply (ds_lst _ _ _ _ _ D). apply (lst_agree d h'); auto. intros m Hm. symmetry. apply A.
          now apply (proj2 (ds_wf _ _ _ _ _ D)).
        * intros HL. exists h. split; [intros m Hm; auto|]. now apply (ds_lst _ _ _ _ _ D).
      + intros h Hl. assert (RE : results (map fst) (env_of c h) [(n, e)] = joint (map fst) (env_of c h) e) by (destruct n; reflexivity). rewrite RE.
        eapply no_none; eauto.
    - set (q := l :: p) in *. change (run so ((n, e) :: q)) with (bind R (dist_of R (line_expr (n, e))) (fun d s => run so q (after_line so d s))).
      unfold bind. rewrite E. destruct r as [d|x]; [|exists s1, (Raise x); split; [auto | tauto]].
      destruct H as [Ed [D [I2 [K2 [W2 [L [IS IN]]]]]]]. set (s2 := after_line so d s1) in *. set (c2 := next_context s c n e d) in *.
      assert (G2 : good_lines q) by (intros k f Hk; apply G; right; auto).
      destruct (IH s2 c2) as [s' [r [E' H']]]; auto; [discriminate | |].
      { exists (match n with Some n => n :: kn | None => kn end). split; auto. intros k Hk. unfold c2, next_context.
        destruct n as [n|]; [|auto]. cbn [extend c_inst]. destruct (text_eqb k n) eqn:Ek; [discriminate|].
        destruct Hk as [->|Hk]; [rewrite text_eqb_refl in Ek; discriminate | auto]. }
      exists s', r. split; auto. destruct r as [dd|x]; auto. destruct H' as [R1 R2 [A [A1 [A2 [A3 A4]]]] R4 R5]. constructor; auto.
      + exact (line_sum s c n e d l p s2 dd D W L IS IN A A1 A2 A3 A4).
      + exact (line_lst s c n e d l p s2 dd D W L IS R4).
      + exact (line_none s c n e d l p K W S Hr Ed D R5).
  Qed.
End Facts.
