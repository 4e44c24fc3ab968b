(** * Lalr: the parser generator of rply (ParserGenerator.build, Grammar, LRTable.from_grammar, LRParser.parse) on the
    rules of expression/*.py and the PRECEDENCE of python_dice_syntax_objects.py.

    rply is not part of /repo; its algorithm is written here as it is in rply/parsergenerator.py, grammar.py and
    parser.py.  rply numbers the states in an order that depends on the hashes of the symbol names; here a state is
    its kernel (the list of its items with the dot moved), which is what rply's goto_cache identifies states by.
    No production is empty ([no_empty_production]), so rply's set of nullable symbols and its reads relation are
    empty and left out. *)
From Verif Require Import Py Regex Lexer DiceModel Expr Parser.

(** ** The rules *)

(** The rule texts, in the order of PARSER_EXPRESSIONS (python_dice_syntax_objects.py:60-76) *)
Definition rules : list text :=
  [ $"expression : OPEN_PARENTHESIS expression CLOSE_PARENTHESIS";        (* parentheses_enclosed_expression.py:13 *)
    $"expression : NOT expression";                                       (* not_expression.py:14 *)
    $"expression : DROP_KEEP_DICE";                                       (* drop_keep_expression.py:18 *)
    $"expression : DICE";                                                 (* dice_expression.py:15 *)
    $"expression : CONSTANT_INTEGER";                                     (* constant_integer_expression.py:13 *)
    $"expression : CONSTANT_BINARY";                                      (* constant_binary_expression.py:13 *)
    $"expression : expression ADD expression";                            (* add_expression.py:13 *)
    $"expression : expression SUBTRACT expression";                       (* subtract_expression.py:13 *)
    $"expression : expression MULTIPLY expression";                       (* multiply_expression.py:13 *)
    $"expression : expression INTEGER_DIVISION expression";               (* integer_division_expression.py:13 *)
    $"expression : expression BINARY_OPERATOR expression";                (* binary_operator_expression.py:26 *)
    $"expression : MINMAX OPEN_PARENTHESIS expression COMMA expression CLOSE_PARENTHESIS";
                                                                          (* minmax_expression.py:13 *)
    $"expression : ABS OPEN_PARENTHESIS expression CLOSE_PARENTHESIS";    (* abs_expression.py:13 *)
    $"expression : VAR NAME ASSIGNMENT expression";                       (* var_assignment_expression.py:14 *)
    $"expression : NAME"                                                  (* get_var_expression.py:16 *)
  ].

(** The tokens, in the order of LEXER_SYNTAX (python_dice_syntax_objects.py:39-58) *)
Definition terminals : list tokname := map fst lexer_rules.

(** python_dice_syntax_objects.py:78-98 *)
Definition precedence_list : list (assoc * list tokname) :=
  [ (NonAssoc, [T_VAR]);
    (Left, [T_ASSIGNMENT]);
    (Left, [T_OPEN_PARENTHESIS]);
    (Left, [T_NOT]);
    (Left, [T_ADD; T_SUBTRACT]);
    (Left, [T_INTEGER_DIVISION; T_MULTIPLY]);
    (Left, [T_BINARY_OPERATOR]) ].

Definition tok_index (t : tokname) : nat :=
  match t with
  | T_OPEN_PARENTHESIS => 0 | T_CLOSE_PARENTHESIS => 1 | T_COMMA => 2 | T_NOT => 3 | T_DROP_KEEP_DICE => 4 | T_DICE => 5
  | T_BINARY_OPERATOR => 6 | T_CONSTANT_INTEGER => 7 | T_CONSTANT_BINARY => 8 | T_ADD => 9 | T_SUBTRACT => 10
  | T_MULTIPLY => 11 | T_INTEGER_DIVISION => 12 | T_MINMAX => 13 | T_ABS => 14 | T_ASSIGNMENT => 15 | T_VAR => 16
  | T_NAME => 17
  end.
Definition tok_eqb (a b : tokname) : bool := Nat.eqb (tok_index a) (tok_index b).

(** A symbol of the grammar: the name of a token, or any other name *)
Inductive gsym := GTok (t : tokname) | GName (n : text).
Definition gsym_eqb (a b : gsym) : bool :=
  match a, b with
  | GTok t, GTok u => tok_eqb t u
  | GName n, GName m => text_eqb n m
  | _, _ => false
  end.
Definition gsym_of (n : text) : gsym :=
  match find (fun t => text_eqb (token_type t) n) terminals with Some t => GTok t | None => GName n end.

(** str.split(): the words between white space *)
Definition words (s : text) : list text := filter (fun w => negb (text_eqb w [])) (split_on is_space s).

(** ParserGenerator.production: the name before ":" and the alternatives after it, divided by "|".  [None]:
    the ParserGeneratorError "Expecting :" or an IndexError. *)
Definition production_of (rule : text) : option (list (text * list gsym)) :=
  match words rule with
  | name :: colon :: body =>
      if text_eqb colon $":" then
        Some (map (fun alt => (name, map gsym_of (words alt))) (split_on (Ascii.eqb "|") (join $" " body)))
      else None
  | _ => None
  end.

(** grammar.py: Production *)
Record production := { p_number : nat; p_name : text; p_prod : list gsym; p_prec : assoc * nat }.

(** Grammar.set_precedence for each entry of PRECEDENCE, levels counted from 1; [None]: a ParserGeneratorError
    "Precedence already specified" *)
Fixpoint precedence_table (l : list (tokname * (assoc * nat))) (level : nat) (ps : list (assoc * list tokname))
  : option (list (tokname * (assoc * nat))) :=
  match ps with
  | [] => Some l
  | (a, ts) :: ps' =>
      match fold_left (fun acc t => match acc with
                                    | Some d => if dmem tok_eqb d t then None else Some (d ++ [(t, (a, level))])
                                    | None => None
                                    end) ts (Some l) with
      | Some l' => precedence_table l' (S level) ps'
      | None => None
      end
  end.
Definition prec_of (d : list (tokname * (assoc * nat))) (t : tokname) : assoc * nat :=
  match dget tok_eqb d t with Some p => p | None => (Right, 0%nat) end.

(** grammar.py: rightmost_terminal *)
Definition rightmost_terminal (syms : list gsym) : option tokname :=
  fold_left (fun acc s => match s with GTok t => Some t | GName _ => acc end) syms None.

(** Grammar.add_production for all rules; production 0 is S' : start, added by set_start.  [None]: a
    ParserGeneratorError. *)
Definition number_productions (d : list (tokname * (assoc * nat))) (l : list (text * list gsym)) : list production :=
  map (fun np => {| p_number := fst np; p_name := fst (snd np); p_prod := snd (snd np);
                    p_prec := match rightmost_terminal (snd (snd np)) with
                              | Some t => prec_of d t
                              | None => (Right, 0%nat)
                              end |})
      (combine (seq 1 (length l)) l).

Definition grammar_of (rs : list text) (d : list (tokname * (assoc * nat))) : option (list production) :=
  match fold_right (fun r acc => match production_of r, acc with Some p, Some l => Some (p ++ l) | _, _ => None end)
          (Some []) rs with
  | Some (((start, _) :: _) as l) =>
      if existsb (fun p => match gsym_of (fst p) with GTok _ => true | GName _ => false end) l
      then None                                                             (* Illegal rule name *)
      else Some ({| p_number := 0; p_name := $"S'"; p_prod := [GName start]; p_prec := (Right, 0%nat) |}
                 :: number_productions d l)
  | _ => None
  end.

(** ** LR(0) items and states (LRTable.lr0_closure, lr0_goto, lr0_items) *)
Section Tables.
  Variable productions : list production.
  Variable prec : tokname -> assoc * nat.

  (** LRItem: the production with its number, and the place of the dot *)
  Notation item := (nat * nat)%type.
  Notation kernel := (list item).
  Definition item_eqb (a b : item) : bool := Nat.eqb (fst a) (fst b) && Nat.eqb (snd a) (snd b).
  Definition kernel_eqb (a b : kernel) : bool :=
    Nat.eqb (length a) (length b) && forallb (fun ab => item_eqb (fst ab) (snd ab)) (combine a b).

  Definition prod_at (n : nat) : production :=
    nth n productions {| p_number := 0; p_name := []; p_prod := []; p_prec := (Right, 0%nat) |}.
  Definition item_prod (i : item) : list gsym := p_prod (prod_at (fst i)).
  Definition item_name (i : item) : text := p_name (prod_at (fst i)).
  (** The symbol after the dot *)
  Definition next_sym (i : item) : option gsym := nth_error (item_prod i) (snd i).
  Definition complete (i : item) : bool := Nat.eqb (length (item_prod i)) (snd i).
  Definition advance (i : item) : item := (fst i, S (snd i)).

  (** LRItem.lr_after: the productions of the symbol after the dot.  prod_names has no entry for production 0. *)
  Definition lr_after (i : item) : list nat :=
    match next_sym i with
    | Some (GName n) => map p_number (filter (fun p => text_eqb (p_name p) n) (tl productions))
    | _ => []
    end.

  Definition nmem (n : nat) (l : list nat) : bool := existsb (Nat.eqb n) l.

  (** lr0_closure: the list J grows while it is traversed; [added] are the productions with the current lr0_added. *)
  Fixpoint closure_loop (fuel : nat) (todo : list item) (added : list nat) : list item :=
    match fuel, todo with
    | S fuel', j :: todo' =>
        let new := filter (fun p => negb (nmem p added)) (lr_after j) in
        j :: closure_loop fuel' (todo' ++ map (fun p => (p, 0%nat)) new) (added ++ new)
    | _, _ => []
    end.
  Definition closure (k : kernel) : list item := closure_loop (length k + length productions) k [].

  (** lr0_goto, as a kernel; empty when nothing moves *)
  Definition goto (k : kernel) (x : gsym) : kernel :=
    map advance (filter (fun i => match next_sym i with Some y => gsym_eqb y x | None => false end) (closure k)).

  (** The symbols of the items (unique_syms), each once *)
  Definition gmem (x : gsym) (l : list gsym) : bool := existsb (gsym_eqb x) l.
  Definition syms_of (k : kernel) : list gsym :=
    fold_left (fun acc x => if gmem x acc then acc else acc ++ [x]) (flat_map item_prod (closure k)) [].

  Definition kmem (k : kernel) (l : list kernel) : bool := existsb (kernel_eqb k) l.
  Definition add_states (C : list kernel) (k : kernel) : list kernel :=
    fold_left (fun C x => let g := goto k x in
                          match g with [] => C | _ => if kmem g C then C else C ++ [g] end) (syms_of k) C.
  (** lr0_items: the list C grows while it is traversed *)
  Fixpoint states_loop (fuel : nat) (C : list kernel) (i : nat) : list kernel :=
    match fuel with
    | O => C
    | S fuel' => match nth_error C i with
                 | Some k => states_loop fuel' (add_states C k) (S i)
                 | None => C
                 end
    end.
  Definition start_state : kernel := [(0, 0)]%nat.
  (** There are at most as many states as sets of items; the fuel is the bound for this grammar *)
  Definition states : list kernel := states_loop 1000 [start_state] 0.

  (** ** LALR lookaheads (LRTable.add_lalr_lookaheads: DeRemer and Pennello's relations) *)
  Notation la := (option tokname).               (* None is "$end" *)
  Notation trans := (kernel * text)%type.
  Definition trans_eqb (a b : trans) : bool := kernel_eqb (fst a) (fst b) && text_eqb (snd a) (snd b).
  Definition la_eqb (a b : la) : bool :=
    match a, b with Some t, Some u => tok_eqb t u | None, None => true | _, _ => false end.
  Definition lmem (x : la) (l : list la) : bool := existsb (la_eqb x) l.
  Definition ladd (l : list la) (x : la) : list la := if lmem x l then l else l ++ [x].
  Definition tmem (x : trans) (l : list trans) : bool := existsb (trans_eqb x) l.

  (** find_nonterminal_transitions *)
  Definition nonterminal_trans (C : list kernel) : list trans :=
    fold_left (fun acc x => if tmem x acc then acc else acc ++ [x])
      (flat_map (fun k => flat_map (fun i => match next_sym i with Some (GName n) => [(k, n)] | _ => [] end) (closure k))
         C) [].

  (** dr_relation *)
  Definition directly_reads (x : trans) : list la :=
    let terms := fold_left ladd (flat_map (fun i => match next_sym i with Some (GTok t) => [Some t] | _ => [] end)
                                   (closure (goto (fst x) (GName (snd x))))) [] in
    if kernel_eqb (fst x) start_state && gsym_eqb (GName (snd x)) (nth 0 (item_prod (0, 0)%nat) (GName []))
    then terms ++ [None] else terms.

  (** compute_lookback_includes: following item [i] of state [k] to its end; the transitions that include (k, N) and
      the state at the end *)
  Fixpoint walk (fuel : nat) (k : kernel) (i : item) : list trans * kernel :=
    match fuel with
    | O => ([], k)
    | S fuel' =>
        match next_sym i with
        | None => ([], k)
        | Some x =>
            let '(inc, last) := walk fuel' (goto k x) (advance i) in
            match x with
            | GName n => if complete (advance i) then ((k, n) :: inc, last) else (inc, last)
            | GTok _ => (inc, last)
            end
        end
    end.
  Definition walk_item (k : kernel) (i : item) : list trans * kernel := walk (S (length (item_prod i))) k i.

  Definition items_named (x : trans) : list item := filter (fun i => text_eqb (item_name i) (snd x)) (closure (fst x)).
  Definition includes (x : trans) : list trans := flat_map (fun i => fst (walk_item (fst x) i)) (items_named x).

  (** The productions with the dot as a symbol, as in LRItem.prod; [None] is the dot *)
  Definition dotted (i : item) : list (option gsym) :=
    map Some (firstn (snd i) (item_prod i)) ++ [None] ++ map Some (skipn (snd i) (item_prod i)).
  Definition osym_eqb (a b : option gsym) : bool :=
    match a, b with Some x, Some y => gsym_eqb x y | None, None => true | _, _ => false end.
  (** "This look is comparing a production . A B C with A B C ." *)
  Definition looks_back (p r : item) : bool :=
    text_eqb (item_name r) (item_name p) && Nat.eqb (length (item_prod r)) (length (item_prod p)) &&
    forallb (fun j => match nth_error (dotted r) j, nth_error (dotted p) (S j) with
                      | Some a, Some b => osym_eqb a b
                      | _, _ => false
                      end) (seq 0 (snd r)).
  Definition lookback (x : trans) : list (kernel * item) :=
    flat_map (fun p => let last := snd (walk_item (fst x) p) in
                       map (fun r => (last, r)) (filter (looks_back p) (closure last))) (items_named x).

  (** digraph: the least sets with Follow(x) = directly_reads x plus Follow(y) for the y that x is included in.
      rply finds them in one depth first search; here they are iterated. *)
  Definition lookup (F : list (trans * list la)) (x : trans) : list la :=
    match find (fun p => trans_eqb (fst p) x) F with Some (_, l) => l | None => [] end.
  Definition follow_step (inc : list (trans * trans)) (F : list (trans * list la)) : list (trans * list la) :=
    map (fun p => (fst p, fold_left (fun acc e => if trans_eqb (fst e) (fst p)
                                                  then fold_left ladd (lookup F (snd e)) acc else acc) inc (snd p))) F.
  (** (j, t) includes (k, N) *)
  Definition included (T : list trans) : list (trans * trans) := flat_map (fun x => map (fun y => (y, x)) (includes x)) T.
  Definition follow_sets (T : list trans) : list (trans * list la) :=
    let inc := included T in Nat.iter (length T) (follow_step inc) (map (fun x => (x, directly_reads x)) T).

  (** add_lookaheads: (state, item, lookaheads) *)
  Definition lookaheads_list (T : list trans) : list (kernel * item * list la) :=
    let F := follow_sets T in flat_map (fun x => map (fun ki => (ki, lookup F x)) (lookback x)) T.
  Definition lookaheads_of (L : list (kernel * item * list la)) (k : kernel) (i : item) : list la :=
    fold_left (fun acc e => if kernel_eqb (fst (fst e)) k && item_eqb (snd (fst e)) i
                            then fold_left ladd (snd e) acc else acc) L [].

  (** ** The action table (LRTable.from_grammar) *)
  Inductive act := Shift (k : kernel) | Reduce (n : nat) | Accept.
  Notation actions := (list (la * (act * nat)))%type.    (* st_action with st_actionp *)

  (** What from_grammar gathers for one state: the actions, and the conflicts that get a warning
      (true: shift/reduce, false: reduce/reduce) *)
  Definition row : Type := actions * list (bool * la).

  (** A complete item [n] with lookahead [a] *)
  Definition add_reduce (n : nat) (r : row) (a : la) : option row :=
    let '(acts, conf) := r in
    match dget la_eqb acts a with
    | None => Some (dset la_eqb acts a (Reduce n, n), conf)
    | Some (Shift _, q) =>
        let '(_, slevel) := p_prec (prod_at q) in
        let '(rassoc, rlevel) := match a with Some t => prec t | None => (Right, 0%nat) end in
        if ((slevel <? rlevel) || ((slevel =? rlevel) && match rassoc with Left => true | _ => false end))%nat then
          Some (dset la_eqb acts a (Reduce n, n), if ((slevel =? 0) && (rlevel =? 0))%nat then conf ++ [(true, a)] else conf)
        else if ((slevel =? rlevel)%nat && match rassoc with NonAssoc => true | _ => false end)%bool then Some r
        else Some (acts, if (rlevel =? 0)%nat then conf ++ [(true, a)] else conf)
    | Some (Reduce m, _) =>
        Some (if (n <? m)%nat then dset la_eqb acts a (Reduce n, n) else acts, conf ++ [(false, a)])
    | Some (Accept, _) => None                              (* ParserGeneratorError "Unknown conflict" *)
    end.

  (** An item of production [n] with terminal [t] after the dot, in state [k] *)
  Definition add_shift (k : kernel) (n : nat) (r : row) (t : tokname) : option row :=
    let '(acts, conf) := r in
    let g := goto k (GTok t) in
    match dget la_eqb acts (Some t) with
    | None => Some (dset la_eqb acts (Some t) (Shift g, n), conf)
    | Some (Shift g', _) => if kernel_eqb g g' then Some r else None      (* Shift/shift conflict *)
    | Some (Reduce _, q) =>
        let '(rassoc, rlevel) := p_prec (prod_at q) in
        let slevel := snd (prec t) in
        if ((rlevel <? slevel) || ((slevel =? rlevel) && match rassoc with Right => true | _ => false end))%nat then
          Some (dset la_eqb acts (Some t) (Shift g, n), if (rlevel =? 0)%nat then conf ++ [(true, Some t)] else conf)
        else if ((slevel =? rlevel)%nat && match rassoc with NonAssoc => true | _ => false end)%bool then Some r
        else Some (acts, if ((slevel =? 0) && (rlevel =? 0))%nat then conf ++ [(true, Some t)] else conf)
    | Some (Accept, _) => None
    end.

  Definition obind {A B} (o : option A) (f : A -> option B) : option B := match o with Some a => f a | None => None end.

  Definition add_item (L : list (kernel * item * list la)) (k : kernel) (r : option row) (i : item) : option row :=
    obind r (fun r =>
      if complete i then
        if text_eqb (item_name i) $"S'" then Some (dset la_eqb (fst r) None (Accept, fst i), snd r)
        else fold_left (fun r a => obind r (fun r => add_reduce (fst i) r a)) (lookaheads_of L k i) (Some r)
      else match next_sym i with
           | Some (GTok t) => add_shift k (fst i) r t
           | _ => Some r
           end).

  Definition state_row (L : list (kernel * item * list la)) (k : kernel) : option row :=
    fold_left (add_item L k) (closure k) (Some ([], [])).

  (** LRTable: per state the actions, the default reduction if there is one, the gotos; and the conflicts *)
  Record lr_table := {
    lt_action : list (kernel * list (la * act));
    lt_default : list (kernel * option nat);
    lt_goto : list (kernel * list (text * kernel));
    lt_conflicts : list (kernel * (bool * la))
  }.

  (** A state all of whose actions are the same reduction *)
  Definition default_of (acts : list (la * act)) : option nat :=
    match acts with
    | (_, Reduce n) :: rest =>
        if forallb (fun p => match snd p with Reduce m => Nat.eqb m n | _ => false end) rest then Some n else None
    | _ => None
    end.

  Definition gotos_of (k : kernel) : list (text * kernel) :=
    flat_map (fun x => match x with
                       | GName n => match goto k x with [] => [] | g => [(n, g)] end
                       | GTok _ => []
                       end) (syms_of k).

  Definition build_table : option lr_table :=
    let C := states in
    let L := lookaheads_list (nonterminal_trans C) in
    let rows := fold_right (fun k acc => match state_row L k, acc with
                                         | Some r, Some rows => Some ((k, r) :: rows)
                                         | _, _ => None
                                         end) (Some []) C in
    obind rows (fun rows =>
      let acts := map (fun kr => (fst kr, map (fun p => (fst p, fst (snd p))) (fst (snd kr)))) rows in
      Some {| lt_action := acts;
              lt_default := map (fun p => (fst p, default_of (snd p))) acts;
              lt_goto := map (fun k => (k, gotos_of k)) C;
              lt_conflicts := flat_map (fun kr => map (fun c => (fst kr, c)) (snd (snd kr))) rows |}).

  (** ** Warnings of ParserGenerator.build *)

  (** Grammar.unused_terminals, unused_productions *)
  Definition unused_terminals (ts : list tokname) : list tokname :=
    filter (fun t => negb (existsb (fun p => gmem (GTok t) (p_prod p)) productions)) ts.
  Definition unused_productions : list text :=
    flat_map (fun p => if existsb (fun q => gmem (GName (p_name p)) (p_prod q)) productions then [] else [p_name p])
      (tl productions).
End Tables.

Arguments Shift k : assert.

(** ** Grammar and tables of python_dice *)
Definition precedences : option (list (tokname * (assoc * nat))) := precedence_table [] 1 precedence_list.

(** What parser_generator.build() returns (python_dice_parser.py:41-55): the productions and the tables *)
Record built := { b_productions : list production; b_table : lr_table; b_unused : list tokname; b_unreachable : list text }.
Definition build : option built :=
  match precedences with
  | Some d =>
      match grammar_of rules d with
      | Some ps => match build_table ps (prec_of d) with
                   | Some tb => Some {| b_productions := ps; b_table := tb; b_unused := unused_terminals ps terminals;
                                        b_unreachable := unused_productions ps |}
                   | None => None
                   end
      | None => None
      end
  | None => None
  end.

(** ** LRParser.parse *)

(** The production functions: what the decorated function of the n-th production returns for its list of tokens;
    [None]: not the kind of tokens that production has *)
Definition production_function (n : nat) (tokens : list symbol) : option (res expr) :=
  match n, tokens with
  | 1%nat, [STok _; SExp e; STok _] => Some (Ok (EParen e))                     (* parentheses_enclosed_expression.py:19-21 *)
  | 2%nat, [STok _; SExp e] => Some (Ok (ENot e))                               (* not_expression.py:20-22 *)
  | 3%nat, [STok t] => Some (rmap EDropKeep (mk_dropkeep (tk_text t)))          (* drop_keep_expression.py:24-26 *)
  | 4%nat, [STok t] => Some (rmap EDice (mk_dice (tk_text t)))                  (* dice_expression.py:21-23 *)
  | 5%nat, [STok t] => Some (Ok (EInt (tk_text t)))                             (* constant_integer_expression.py:19-21 *)
  | 6%nat, [STok t] => Some (Ok (EBool (tk_text t)))                            (* constant_binary_expression.py:19-21 *)
  | 7%nat, [SExp a; STok _; SExp b] => Some (Ok (EAdd a b))                     (* add_expression.py:19-21 *)
  | 8%nat, [SExp a; STok _; SExp b] => Some (Ok (ESub a b))                     (* subtract_expression.py:19-21 *)
  | 9%nat, [SExp a; STok _; SExp b] => Some (Ok (EMul a b))                     (* multiply_expression.py:19-21 *)
  | 10%nat, [SExp a; STok _; SExp b] => Some (Ok (EDiv a b))                    (* integer_division_expression.py:19-21 *)
  | 11%nat, [SExp a; STok t; SExp b] => Some (Ok (EBin (tk_text t) a b))        (* binary_operator_expression.py:42-44 *)
  | 12%nat, [STok t; STok _; SExp a; STok _; SExp b; STok _] =>
      Some (Ok (EMinMax (tk_text t) a b))                                       (* minmax_expression.py:20-22 *)
  | 13%nat, [STok _; STok _; SExp e; STok _] => Some (Ok (EAbs e))              (* abs_expression.py:19-21 *)
  | 14%nat, [STok _; STok n; STok _; SExp e] => Some (Ok (EAssign (tk_text n) e))   (* var_assignment_expression.py:20-22 *)
  | 15%nat, [STok t] => Some (Ok (EVar (tk_text t)))                            (* get_var_expression.py:22-24 *)
  | _, _ => None
  end.

(** rply's statestack and symstack together, top first; below them state 0 *)
Definition lstack : Type := list (list (nat * nat) * symbol).
Definition ltop (st : lstack) : list (nat * nat) := match st with [] => start_state | (k, _) :: _ => k end.

Definition act_at (tb : lr_table) (k : list (nat * nat)) (a : option tokname) : option act :=
  obind (dget kernel_eqb (lt_action tb) k) (fun acts => dget la_eqb acts a).
Definition default_at (tb : lr_table) (k : list (nat * nat)) : option nat :=
  obind (dget kernel_eqb (lt_default tb) k) (fun d => d).
Definition goto_at (tb : lr_table) (k : list (nat * nat)) (n : text) : option (list (nat * nat)) :=
  obind (dget kernel_eqb (lt_goto tb) k) (fun g => dget text_eqb g n).

(** _reduce_production: what the production function returns, and the stack below its tokens with the next state.
    [None]: KeyError, or the assertion start >= 0 *)
Definition reduce_production (b : built) (n : nat) (st : lstack) : option (res (list (nat * nat) * expr) * lstack) :=
  let p := prod_at (b_productions b) n in
  let plen := length (p_prod p) in
  if (length st <? plen)%nat then None
  else
    let st' := skipn plen st in
    match production_function n (rev (map snd (firstn plen st))) with
    | Some (Ok e) => match goto_at (b_table b) (ltop st') (p_name p) with
                     | Some k => Some (Ok (k, e), st')
                     | None => None
                     end
    | Some (Raise x) => Some (Raise x, st')
    | None => None
    end.

(** What to do next: a default reduction without a look at the input, otherwise lr_action *)
Definition next_action (tb : lr_table) (k : list (nat * nat)) (a : option tokname) : option act :=
  match default_at tb k with Some n => Some (Reduce n) | None => act_at tb k a end.

Fixpoint parse_loop (b : built) (fuel : nat) (st : lstack) (input : list token) : parse_result :=
  match fuel with
  | O => ParseRaise OutOfFuel
  | S fuel' =>
      match next_action (b_table b) (ltop st) (match input with [] => None | t :: _ => Some (tk_name t) end) with
      | Some (Shift k) => match input with
                          | t :: input' => parse_loop b fuel' ((k, STok t) :: st) input'
                          | [] => ParseRaise KeyError
                          end
      | Some (Reduce n) => match reduce_production b n st with
                           | Some (Ok (k, e), st') => parse_loop b fuel' ((k, SExp e) :: st') input
                           | Some (Raise x, _) => ParseRaise x
                           | None => ParseRaise KeyError
                           end
      | Some Accept => match st with (_, SExp e) :: _ => Parsed e | _ => ParseRaise KeyError end
      | None => ParseError input
      end
  end.
Definition rply_parse (b : built) (ts : list token) : parse_result := parse_loop b (2 * length ts + 2) [] ts.

(** python_dice_parser.py:58-65: parse, with the parser that was built *)
Definition parse_built (b : built) (input : text) : res expr :=
  match lex input with
  | LexOk ts => match rply_parse b ts with
                | Parsed e => Ok e
                | ParseError _ => Raise ValueError
                | ParseRaise x => Raise x
                end
  | LexValueError _ => Raise ValueError
  | LexOther x => Raise x
  end.
