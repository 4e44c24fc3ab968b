(** * LalrProofs: the tables of Lalr.v are those of Parser.v *)
From Verif Require Import Py Regex Lexer DiceModel Expr Parser Lalr SpecGrammar ParserFacts.

Definition the_parser : built :=
  Eval vm_compute in
    match build with
    | Some b => b
    | None => {| b_productions := []; b_table := {| lt_action := []; lt_default := []; lt_goto := []; lt_conflicts := [] |};
                 b_unused := []; b_unreachable := [] |}
    end.
Lemma build_is : build = Some the_parser.
Proof. vm_compute. reflexivity. Qed.

Lemma no_warnings : exists b, build = Some b /\ b_unused b = [] /\ b_unreachable b = [] /\ lt_conflicts (b_table b) = [].
Proof. exists the_parser. split; [exact build_is|]. now vm_compute. Qed.

Lemma no_empty_production : forall b p, build = Some b -> In p (b_productions b) -> p_prod p <> [].
Proof.
  intros b p B H. rewrite build_is in B. injection B as <-. cbn in H.
  repeat (destruct H as [<-|H]; [discriminate|]). destruct H.
Qed.

(** ** The states *)
Definition ctx_kernel (k : ctx) : nat * nat :=
  match k with
  | KStart => (0, 0) | KParen => (1, 1) | KNot => (2, 1)
  | KInfix IAdd => (7, 2) | KInfix ISub => (8, 2) | KInfix IMul => (9, 2) | KInfix IDiv => (10, 2) | KInfix IBin => (11, 2)
  | KMinMax1 => (12, 2) | KMinMax2 => (12, 4) | KAbs => (13, 2) | KAssign => (14, 3)
  end%nat.
Definition kernel_of (s : lrstate) : list (nat * nat) :=
  match s with
  | SCtx k => [ctx_kernel k]
  | SAfter k => (fst (ctx_kernel k), S (snd (ctx_kernel k))) :: [(7, 1); (8, 1); (9, 1); (10, 1); (11, 1)]%nat
  | SLeaf T_DROP_KEEP_DICE => [(3, 1)]%nat
  | SLeaf T_DICE => [(4, 1)]%nat
  | SLeaf T_CONSTANT_INTEGER => [(5, 1)]%nat
  | SLeaf T_CONSTANT_BINARY => [(6, 1)]%nat
  | SLeaf T_NAME => [(15, 1)]%nat
  | SMinMax => [(12, 1)]%nat
  | SAbs => [(13, 1)]%nat
  | SVar => [(14, 1)]%nat
  | SVarName => [(14, 2)]%nat
  | SClose KParen => [(1, 3)]%nat
  | SClose KMinMax2 => [(12, 6)]%nat
  | SClose KAbs => [(13, 4)]%nat
  | _ => []
  end.

Definition all_infix : list infix := [IAdd; ISub; IMul; IDiv; IBin].
Definition all_ctx : list ctx :=
  [KStart; KParen; KNot] ++ map KInfix all_infix ++ [KMinMax1; KMinMax2; KAbs; KAssign].
Definition all_states : list lrstate :=
  map SCtx all_ctx ++ map SAfter all_ctx ++
  map SLeaf [T_DROP_KEEP_DICE; T_DICE; T_CONSTANT_INTEGER; T_CONSTANT_BINARY; T_NAME] ++
  [SMinMax; SAbs; SVar; SVarName] ++ map SClose [KParen; KMinMax2; KAbs].

(** The number of the production that a state reduces *)
Definition prod_of (s : lrstate) : nat := fst (hd (0, 0)%nat (kernel_of s)).

Definition translate (s : lrstate) (a : action) : option act :=
  match a with
  | AShift s' => Some (Shift (kernel_of s'))
  | AReduce => Some (Reduce (prod_of s))
  | AAccept => Some Accept
  | AError => None
  end.

Lemma same_actions : forall s la, In s all_states -> next_action (b_table the_parser) (kernel_of s) la = translate s (lr_action s la).
Proof.
  intros s la H. cbn in H. repeat (destruct H as [<-|H]; [destruct la as [[]|]; vm_compute; reflexivity|]). destruct H.
Qed.

Lemma shift_closed : forall s la s', In s all_states -> lr_action s la = AShift s' -> In s' all_states.
Proof.
  intros s la s' H. cbn in H.
  repeat (destruct H as [<-|H];
          [destruct la as [[]|]; vm_compute; intros E; first [discriminate E | injection E as <-; tauto]|]). destruct H.
Qed.

Lemma same_goto : forall s, In s all_states ->
  goto_at (b_table the_parser) (kernel_of s) $"expression" = match s with SCtx k => Some (kernel_of (SAfter k)) | _ => None end.
Proof. intros s H. cbn in H. repeat (destruct H as [<-|H]; [vm_compute; reflexivity|]). destruct H. Qed.

Lemma after_closed : forall k, In (SAfter k) all_states.
Proof. intros k. destruct k as [| | |[]| | | |]; cbn; tauto. Qed.

(** ** The stacks *)
Definition related (st : stack) : lstack := map (fun e => (kernel_of (fst e), snd e)) st.
Definition known (st : stack) : Prop := Forall (fun e => In (fst e) all_states) st.

Lemma related_top : forall st, ltop (related st) = kernel_of (top_state st).
Proof. intros [|[s x] st]; reflexivity. Qed.
Lemma known_top : forall st, known st -> In (top_state st) all_states.
Proof. intros [|[s x] st] H; [cbn; tauto|]. now inversion H. Qed.

Definition reduces (s : lrstate) : Prop := exists la, lr_action s la = AReduce.

Definition reduced (o : option (res expr * stack)) : option (res (list (nat * nat) * expr) * lstack) :=
  match o with
  | Some (Ok e, st') => match top_state st' with
                        | SCtx k => Some (Ok (kernel_of (SAfter k), e), related st')
                        | _ => None
                        end
  | Some (Raise x, st') => Some (Raise x, related st')
  | None => None
  end.

Lemma goto_related : forall st e, known st ->
  match goto_at (b_table the_parser) (ltop (related st)) $"expression" with
  | Some k => Some (Ok (k, e), related st)
  | None => None
  end = reduced (Some (Ok e, st)).
Proof.
  intros st e K. rewrite related_top, same_goto by now apply known_top. unfold reduced. now destruct (top_state st).
Qed.

Lemma known_skip : forall s x st, known ((s, x) :: st) -> known st.
Proof. intros s x st H. now inversion H. Qed.

Definition lengths : list nat := [1; 3; 2; 1; 1; 1; 1; 3; 3; 3; 3; 3; 6; 4; 4; 1]%nat.
Lemma reduce_production_eq : forall n st, (1 <= n <= 15)%nat -> reduce_production the_parser n st =
  if (length st <? nth n lengths 0)%nat then None
  else let st' := skipn (nth n lengths 0%nat) st in
       match production_function n (rev (map snd (firstn (nth n lengths 0%nat) st))) with
       | Some (Ok e) => match goto_at (b_table the_parser) (ltop st') $"expression" with
                        | Some k => Some (Ok (k, e), st')
                        | None => None
                        end
       | Some (Raise x) => Some (Raise x, st')
       | None => None
       end.
Proof. intros n st H. do 16 (destruct n as [|n]; [first [lia | reflexivity]|]). lia. Qed.

Lemma finish_related : forall st r, known st ->
  match Some r with
  | Some (Ok e) => match goto_at (b_table the_parser) (ltop (related st)) $"expression" with
                   | Some k => Some (Ok (k, e), related st)
                   | None => None
                   end
  | Some (Raise x) => Some (Raise x, related st)
  | None => None
  end = reduced (Some (r, st)).
Proof. intros st [e|x] K; [now apply goto_related | reflexivity]. Qed.

Ltac reduced_goal K :=
  match goal with
  | |- _ = reduced (reduce ?s) =>
      let v := eval cbn [reduce] in (reduce s) in
      lazymatch v with
      | Some (?r, ?st') => exact (finish_related st' r K)
      | None => reflexivity
      end
  end.
Ltac pop st K := destruct st as [|[? []] st]; [try reflexivity|..]; try apply known_skip in K; try reduced_goal K.

Lemma same_reduce : forall st, known st -> reduces (top_state st) ->
  reduce_production the_parser (prod_of (top_state st)) (related st) = reduced (reduce st).
Proof.
  intros st K [la R]. pose proof (known_top st K) as T. destruct st as [|[s x] st]; [destruct la as [[]|]; discriminate R|].
  cbn [top_state] in *. cbn in T. apply known_skip in K.
  repeat (destruct T as [<-|T];
    [first [ exfalso; destruct la as [[]|]; vm_compute in R; discriminate R | clear R ]|]); [..|destruct T].
  all: match goal with |- context [prod_of ?s] => let n := eval vm_compute in (prod_of s) in change (prod_of s) with n end;
       rewrite reduce_production_eq by lia; destruct x.
  all: try reduced_goal K.
  all: pop st K. all: pop st K. all: pop st K. all: pop st K. all: pop st K.
Qed.

(** ** The parsers agree *)
Lemma reduce_known : forall st r st', known st -> reduce st = Some (r, st') -> known st'.
Proof.
  intros st r st' K E. assert (L : exists n, st' = skipn n st).
  { unfold reduce in E.
    repeat match type of E with
           | Some _ = Some _ => injection E as _ <-
           | None = Some _ => discriminate E
           | match ?x with _ => _ end = Some _ => destruct x; try discriminate E
           end.
    all: first [now exists 1%nat | now exists 2%nat | now exists 3%nat | now exists 4%nat | now exists 6%nat]. }
  destruct L as [n ->]. clear E. revert st K. induction n as [|n IH]; intros [|e st] K; cbn; auto. apply IH. now inversion K.
Qed.

Lemma same_loop : forall f st input, known st -> parse_loop the_parser f (related st) input = lr_loop f st input.
Proof.
  induction f as [|f IH]; intros st input K; [reflexivity|]. cbn [parse_loop lr_loop].
  rewrite related_top, same_actions by now apply known_top.
  set (la := match input with [] => None | t :: _ => Some (tk_name t) end).
  destruct (lr_action (top_state st) la) as [s| | |] eqn:A; cbn [translate].
  - destruct input as [|t input]; [reflexivity|]. apply (IH ((s, STok t) :: st)). constructor; [|exact K]. cbn [fst].
    exact (shift_closed _ _ _ (known_top _ K) A).
  - rewrite same_reduce by (try exact K; now exists la). destruct (reduce st) as [[[e|x] st']|] eqn:R; cbn [reduced]; try reflexivity.
    destruct (top_state st') as [k| | | | | | |]; try reflexivity. apply (IH ((SAfter k, SExp e) :: st')).
    constructor; [apply after_closed | exact (reduce_known _ _ _ K R)].
  - destruct st as [|[s [t|e]] st]; reflexivity.
  - reflexivity.
Qed.

Lemma same_parser : forall b ts, build = Some b -> rply_parse b ts = parse_tokens ts.
Proof. intros b ts B. rewrite build_is in B. injection B as <-. apply (same_loop _ [] ts). constructor. Qed.

Lemma built_parses : forall b ts e, build = Some b -> (rply_parse b ts = Parsed e <-> derives e ts /\ well_grouped e).
Proof. intros b ts e B. rewrite (same_parser b ts B). apply parsed_iff. Qed.

Lemma built_text : forall b input, build = Some b -> parse_built b input = parse input.
Proof. intros b input B. unfold parse_built, parse. destruct (lex input) as [ts| |]; try reflexivity. now rewrite (same_parser b ts B). Qed.

Lemma built_example : exists b, build = Some b /\ length (lt_action (b_table b)) = 36%nat /\
  parse_built b $"VAR x = !(a + 2) * MAX(True, ABS(b)) < 7 - 1" =
    Ok (EAssign $"x" (ENot (ESub (EMul (EParen (EAdd (EVar $"a") (EInt $"2")))
                                       (EBin $"<" (EMinMax $"MAX" (EBool $"True") (EAbs (EVar $"b"))) (EInt $"7"))) (EInt $"1")))) /\
  parse_built b $"1 + )" = Raise ValueError.
Proof. exists the_parser. split; [exact build_is|]. vm_compute. auto. Qed.
