# A Rocq (Coq 8.16.1) model of python_dice, and what is proved about it

Source: /repo (python_dice 2.0.2), read as text. Properties: `properties.jsonl` (C01...). Status per property:
`MANIFEST.json`. Wrong programs tried against the theorems: `seeded/LOG.jsonl`.

## 1. Trusted base

* Coq 8.16.1's kernel (also its VM: concrete witnesses and examples use `vm_compute`; `coqchk` re-checks them without it).
* Axioms: none. `Print Assumptions` stands beneath every theorem of the `Props*.v` files and prints "Closed under the
  global context" for each of them. Libraries used: Coq's standard library only (`String Ascii ZArith Bool Lia List
  QArith Floats.SpecFloat Permutation Sorting ...`). `coqchk -o` lists, for the whole library, only axioms of standard
  library files that come along with `lia`/`ssr` (`Coq.ssr.ssrunder`); no theorem depends on them.
* That the definitions of the model files (section 2) say what the Python code does. Every definition cites file and
  lines. The simplifications and idealisations are listed in section 3.
* That the `Spec*.v` files and the statements in the `Props*.v` files say what the English properties say. They do not
  use the model's helper functions, only the calls of the API.

The model has no axioms, no `Admitted`, no section-less variables. What the code cannot choose (the layout of Python
sets, the string hash) is the record `Runtime`, over which every theorem quantifies; `Instances.v` builds two concrete
runtimes with different iteration orders, so the laws in the record are consistent and the examples can be computed.

## 2. What is modelled

All files are in `rocq/theories/`.

| model file | code |
|---|---|
| `Py.v` | Python built-ins: exceptions as values (`res`), strings as `list ascii`, `str(int)`, `int(str)`, insertion-ordered dicts, `range`, `list.sort`, `str.split`, `max`/`min` |
| `Regex.v` | backtracking `re.match` for the constructs used: all matches in priority order, with `\b`, look-ahead, look-behind |
| `PyFloat.v` | binary64 `/` on ints, `+ - * /`, `floor`, `float(int)`, on top of the standard library's `SpecFloat` |
| `Constraint.v` | `constraint/*.py`: constraints, merging, constraint sets, printing, `==`, hashes |
| `Distribution.v` | `probability_outcome*.py`, `probability_distribution.py`, `probability_distribution_factory.py`, up to the data handed to matplotlib (points, edges of bins, lines, labels of curves) |
| `Show.v` | `str()` of outcomes and distributions |
| `Objects.v` | the operators, methods and constructors of outcomes and distributions given any Python object: `isinstance` tests, `TypeError`s, Python's choice of the operand whose method is called, dictionaries with keys of any kind |
| `DiceModel.v` | `dice_expression_helper.py`, `dice_expression.py`, `drop_keep_expression.py`, `random.choices` |
| `Expr.v` | the other `expression/*.py` (roll, max, min, distribution, cost, str, contained variables), `probability_distribution_state.py` |
| `Lexer.v` | `syntax/*.py`, `python_dice_lexer.py` with its error message, rply's lexer and its source positions |
| `Parser.v` | `python_dice_parser.py` with its error message, `python_dice_syntax_objects.py`, the production functions, rply's LR driver and conflict resolution |
| `Lalr.v` | the rule texts of the expression classes, PRECEDENCE, and rply's generator: productions, LR(0) states, LALR(1) lookaheads, conflict resolution, default reductions, warnings, LR driver (C58: it builds the automaton of `Parser.v`) |
| `Interp.v` | `python_dice_interpreter.py`: all ten calls, with the state that is left behind, also by a call that raises |
| `Random.v` | `roll` of the classes and of the interpreter from the numbers of a random generator; CPython's `random.choices`, `itertools.accumulate`, `bisect.bisect_right` |

Not modelled:

* drawing: what matplotlib and PIL do with the data (only the data given to them is modelled);
* running time and memory; Python's recursion limit; the length limit of newer CPythons on int/str conversion;
* user-supplied replacements of the injected collaborators (other parsers, factories, state classes); an interpreter
  starts with the default ones, or with a `ProbabilityDistributionState` prepared by `set_constant` and `set_var`;
* methods on the interfaces that only raise `NotImplementedError`; `setup.py`; the tests, except for the values they
  assert.

`RepoTests.v` compares the model with the project's own tests. The tests are not run: `tools/gen_repo_tests.py` reads
them as text and writes 649 checks, from 451 test functions, of what the model computes against what the test expects.
They are computed while the file is compiled and the build fails if one is false, so they are evidence for the model and
not theorems. All of them hold. The file says which tests are left out.

## 3. Simplifications and idealisations

* Text: code points 0..255 (Latin-1), with Python's `\s`, `\w`, `\d` for them. Text beyond that is outside the model.
* `int(s)`: an optional sign and decimal digits. White space around them and underscores between them, which Python
  accepts too, do not occur in the texts that reach it.
* Integers are unbounded, as in Python. The limit of 4300 digits that later Pythons put on `int(str)` and `str(int)` is not
  modelled.
* `random.choices` is the complete list of its possible results with integer weights; a probability is a ratio of
  weights. An exception is one result: `IndexError` for an empty population, `OverflowError` when the total weight is too
  large for a float, `ValueError` for zero weights, as in CPython 3.9 and later. The real function draws a double:
  `Random.v` models that, and C56 and C57 bound the difference.
* rply (which is not available in the sandbox) is modelled from its documented behaviour: first rule that matches, ignore
  rules first; LALR(1) tables of the 15 productions, conflicts resolved by precedence of the last terminal, default
  reductions in states whose only action is to reduce; the source positions of tokens (offset, line, column). In `Parser.v` the LR(0)
  states are named by what has just been shifted and the table is written out by hand. `Lalr.v` writes down rply's
  generator and computes the table from the rule texts; C58 proves that it is the same. In `Lalr.v` a state is its kernel,
  not a number (rply's numbering depends on string hashes), and Follow sets are iterated instead of found by one depth
  first search.
* The int 0 that fills the gaps of a histogram is the float 0.0; it is used in float arithmetic only.
* An object that is not an int, a bool, an outcome or a distribution is one value (`PElse`): an object of a built-in class,
  none of which has operators for these classes. Classes that define their own reflected operators are outside the model.
* `copy.deepcopy` of a constraint set gives a set with the same members, in any order.
* Loops that Python writes with `while` have fuel; that it suffices is proved (C27, C39), `OutOfFuel` is not a result.
* Messages of exceptions are modelled for the lexer (C40) and the parser's error handler (C50); otherwise an exception
  is its class.

## 4. How the properties are stated and proved

| properties | spec files | proof files | statements |
|---|---|---|---|
| C01-C04, C25, C26 dice and their notation | `SpecDice SpecNotation SpecOps SpecText` | `DiceFacts DropKeepFacts NotationFacts DiceProofs TextProofs` | `PropsDice` (classes), `PropsText` (program texts) |
| C05-C08, C10-C12, C17, C20, C44-C46 distributions of programs | `SpecProgram SpecInterp SpecAlgebra` | `DistFacts TagFacts ExprFacts StateFacts ProgramFacts JointFacts RaiseFacts AlgebraFacts InterpRun ProgramProofs` | `PropsProgram` |
| C09, C13, C14, C17, C48 rolls | `SpecRoll` | `RollFacts RollProofs` | `PropsRoll` |
| C15-C17 max and min | `SpecProgram SpecExtreme` | `ExtFacts ExtProofs ExtremeFacts` | `PropsExt` |
| C18, C19, C21-C24, C51, C52 floats and plots | `SpecProb` | `FloatFacts FloatProofs ProbProofs FigureProofs PlotProofs` | `PropsProb` |
| C27-C31, C47 constraint sets | `SpecConstraint` | `ConstraintFacts ConstraintProofs` | `PropsConstraint` |
| C32-C37 one call after another | `SpecCalls` | `CallFacts CallProofs ReadProofs StateProofs` | `PropsState` |
| C54, C55 exchanging and leaving out lines | `SpecFrame` | `FrameProofs` | `PropsFrame` |
| C56, C57 random numbers | `SpecRandom SpecNear` | `RandomFacts RandomProofs NearFacts NearProofs` | `PropsRandom PropsNear` |
| C38 estimated costs | `SpecCost` | `CostProofs` | `PropsCost` |
| C39-C43, C49, C50, C53 lexer and parser | `SpecGrammar SpecLexer SpecErrors` | `RegexFacts LexFacts LexProofs MunchProofs SpaceProofs ParserFacts WfFacts SyntaxProofs ErrorProofs` | `PropsSyntax` |
| C58 the generated parser | `SpecGrammar` | `LalrProofs` | `PropsLalr` |
| C59, C61 hash seeds and names | `SpecSeed SpecRename` | `SeedFacts SeedProofs RenameProofs` | `PropsSeed PropsRename` |
| C62, C63 outcomes and distributions handled directly | `SpecObjects` | `ObjectProofs` | `PropsObjects` |
| C64 states prepared by hand | `SpecInterp` | `PreparedProofs` | `PropsPrepared` |
| C65, C66 the same dice written differently, symmetric dice | `SpecSame` | `SameProofs` | `PropsSame` |
| C67 parts with the same results can be exchanged | `SpecExchange` | `ExchangeProofs` | `PropsExchange` |
| C68 str() tells everything | `SpecSeed` | `ShowProofs` | `PropsShow` |
| C69 expressions made by hand | `SpecBuilt` | `BuiltProofs` | `PropsBuilt` |
| C70 better dice | `SpecBetter` | `BetterProofs` | `PropsBetter` |
| C71 equal formulas | `SpecFormula` | `FormulaProofs` | `PropsFormula` |
| C72 distinguishing cases | `SpecCases` | `CaseProofs` | `PropsCases` |
| C73 the probabilities shown add up to 1 | `SpecSum` | `SumProofs` | `PropsSum` |
| C74 calculating with the result of a part | `SpecFormula`, `SpecCases` | `PartProofs` | `PropsPart` |
| C75 calls of roll() one after the other | `SpecRepeat` | `RepeatProofs` | `PropsRepeat` |
| C76 whatever was done before | `SpecAfresh` | `AfreshProofs` | `PropsAfresh` |
| C77 separate groups of lines | `SpecSplit` | `SplitProofs` | `PropsSplit` |
| C78 pools of equal dice | `SpecPool` | `PoolProofs` | `PropsPool` |
| C79 relations carry over to averages | `SpecRelation` | `RelationProofs` | `PropsRelation` |
| C80 closed formulas for the number of ways | `SpecCount`, `SpecRollCount` | `CountProofs`, `RollCountProofs` | `PropsCount`, `PropsRollCount` |
| C81 averages and variances of dice | `SpecPool`, `SpecSplit` | `MomentProofs` | `PropsMoment` |
| C82 averages from at_least() and at_most() | `SpecProb`, `SpecSum` | `TailProofs` | `PropsTail` |
| C83 relations between numbers, for roll() | `SpecRollRelation` | `RollRelationProofs` | `PropsRollRelation` |
| C60 replacing variables | `SpecInline` | `InlineFacts InlineProofs` | `PropsInline` |

`Checks.v` and `CheckCalls.v` hold decision procedures used by the examples only.

* Distributions: every dictionary fold is characterised by "sum of the counts whose key is k"; a distribution is compared
  with the weighted list of all results of the README's reading of the program. Correlations: the outcomes are restricted
  to those that comply with a fixed history of all variable instances; restriction commutes with every operator.
* Floats: `FloatFacts` proves what `SpecFloat`'s rounding does in integer arithmetic (no real numbers, hence no axioms).
* Histories: invariants over every sequence of calls, also calls that raise.
* Parser: soundness and completeness of the LR driver against an inductive grammar with grouping.
* A property that the code violates has a theorem `Cnn_..._refuted` with a witness, next to the part that holds and,
  where it could be found, the exact condition. The violated ones are C04, C09, C13-C17, C19, C24, C26, C29, C33-C35, C37,
  C38, C44, C45, C47, C51, C56, C59, C60, C62, C63, C64, C69, C70, C71, C72, C76.
* Beside each theorem an `Example` shows a concrete case that meets its hypotheses.
