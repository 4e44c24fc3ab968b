{
 "claims": [
  {
   "property": "C01",
   "status": "proved",
   "theorems": [
    "C01_dice_counts",
    "C01_dice_text_counts",
    "C01_zero_dice_count_as_one",
    "C01_program"
   ],
   "note": "for every face map and every dice text; n = 0 is counted as one die (C01_zero_dice_count_as_one)"
  },
  {
   "property": "C02",
   "status": "proved",
   "theorems": [
    "C02_keep_counts",
    "C02_keep_text_counts",
    "C02_program"
   ],
   "note": "for every face map and every keep text with 0 < K < n"
  },
  {
   "property": "C03",
   "status": "proved",
   "theorems": [
    "C03_drop_counts",
    "C03_drop_text_counts",
    "C03_program"
   ],
   "note": "for every face map and every drop text with 0 < K < n"
  },
  {
   "property": "C04",
   "status": "partial",
   "theorems": [
    "C04_all_dice_kept",
    "C04_no_dice_kept_partial",
    "C04_constant",
    "C04_keep_zero_of_zero_refuted",
    "C04_program_all_kept",
    "C04_program_none_kept_partial"
   ],
   "note": "proved for n >= 1 (all five operations); keeping 0 of 0 dice is not the constant 0 (C04_keep_zero_of_zero_refuted)"
  },
  {
   "property": "C05",
   "status": "proved",
   "theorems": [
    "C05_counts_are_ways"
   ],
   "note": "for every runtime and every reachable interpreter state; expressions of any depth with at least one die per dice term"
  },
  {
   "property": "C06",
   "status": "proved",
   "theorems": [
    "C06_counted_once"
   ],
   "note": "for every distribution obtainable through the API, also from several interpreters"
  },
  {
   "property": "C07",
   "status": "proved",
   "theorems": [
    "C07_totals_multiply",
    "C07_combined_independently",
    "C07_unary_totals"
   ],
   "note": "totals, and the exact counts of the combination; an inequality when variables are shared"
  },
  {
   "property": "C08",
   "status": "proved",
   "theorems": [
    "C08_reported_are_possible",
    "C08_minus_itself"
   ],
   "note": "for every program with at least one die per dice term and dice that can be rolled"
  },
  {
   "property": "C09",
   "status": "partial",
   "theorems": [
    "C09_read_twice_refuted",
    "C09_heavy_dice_refuted",
    "C09_probabilities_partial"
   ],
   "note": "false of the code (C09_read_twice_refuted: a non-uniform variable read twice; C09_heavy_dice_refuted: roll() raises OverflowError for a die with more than about 1.8e308 sides); proved when every variable is used at most once or is uniform, and AND, OR, NOT are used where roll() and the README agree"
  },
  {
   "property": "C10",
   "status": "proved",
   "theorems": [
    "C10_weighted_counts",
    "C10_exact_when_used_once_or_uniform"
   ],
   "note": "closed form of the reported counts for all programs; exact when every variable is used at most once or uniform"
  },
  {
   "property": "C11",
   "status": "proved",
   "theorems": [
    "C11_fresh_variable",
    "C11_independent_of_earlier_ones",
    "C11_other_variables_unchanged"
   ],
   "note": "for every history of calls on one interpreter"
  },
  {
   "property": "C12",
   "status": "proved",
   "theorems": [
    "C12_stored_unchanged",
    "C12_stored_if_it_exists"
   ],
   "note": "for every reachable state, every expression (nested assignments included) and every runtime"
  },
  {
   "property": "C13",
   "status": "partial",
   "theorems": [
    "C13_logic_refuted",
    "C13_zero_dice_refuted",
    "C13_rolls_are_reported_partial"
   ],
   "note": "false of the code (C13_logic_refuted: 2 AND 1 rolls 0; C13_zero_dice_refuted: 0dN); proved, in both directions, for programs with at least one die per dice term and logic used where roll() and the README agree"
  },
  {
   "property": "C14",
   "status": "partial",
   "theorems": [
    "C14_distribution_and_or",
    "C14_distribution_not",
    "C14_roll_refuted",
    "C14_agreement",
    "C14_roll_partial"
   ],
   "note": "proved for distributions; false of roll() (C14_roll_refuted); proved for roll() when the operands are truth values; C14_agreement says for which integers OR, NOT and AND agree"
  },
  {
   "property": "C15",
   "status": "partial",
   "theorems": [
    "C15_related_operands_refuted",
    "C15_zero_dice_refuted",
    "C15_extremes_partial",
    "C15_bounds",
    "C15_what_is_returned"
   ],
   "note": "false of the code (C15_related_operands_refuted: max of MIN(a, 3 - a); C15_zero_dice_refuted: 0dN); proved for programs with at least one die per dice term whenever the operands of MIN in max() and of MAX in min() go back to no common roll; without that condition they are still bounds, and C15_what_is_returned says what the value is for every program"
  },
  {
   "property": "C16",
   "status": "partial",
   "theorems": [
    "C16_logic_refuted",
    "C16_zero_dice_refuted",
    "C16_bounds_rolls_partial",
    "C16_some_roll_reaches_it"
   ],
   "note": "false of the code (C16_logic_refuted: (d2 - 2) OR 0; C16_zero_dice_refuted: 0d2 + 0); proved for programs with at least one die per dice term and logic used where roll() and the README agree; the bounds are reached when max() and min() are exact"
  },
  {
   "property": "C17",
   "status": "partial",
   "theorems": [
    "C17_extremes_raise_exactly",
    "C17_distribution_raises_exactly",
    "C17_distribution_raises_when_possible_partial",
    "C17_operators",
    "C17_impossible_division_refuted",
    "C17_roll_raises_on_zero_divisors"
   ],
   "note": "distributions, max, min and roll: proved, with sides of multiplicity zero counting as possible for all but roll; without that reading false (C17_impossible_division_refuted)"
  },
  {
   "property": "C18",
   "status": "proved",
   "theorems": [
    "C18_nearest",
    "C18_raises",
    "C18_interpreter",
    "C18_interpreter_raises"
   ],
   "note": "for every distribution obtainable through the API with at least one way; get_probability_distributions_dict() as well"
  },
  {
   "property": "C19",
   "status": "partial",
   "theorems": [
    "C19_overflow_refuted",
    "C19_nearest_partial",
    "C19_raises",
    "C19_interpreter"
   ],
   "note": "false of the code for means beyond the largest float (C19_overflow_refuted: OverflowError); proved otherwise, for average() and get_average()"
  },
  {
   "property": "C20",
   "status": "proved",
   "theorems": [
    "C20_exact_means"
   ],
   "note": "exact rational means"
  },
  {
   "property": "C21",
   "status": "proved",
   "theorems": [
    "C21_survival",
    "C21_raises",
    "C21_plotted"
   ],
   "note": "each entry is within (v - min) * 2^-50 of the exact probability; plots of programs that do not read stdout show the same table"
  },
  {
   "property": "C22",
   "status": "proved",
   "theorems": [
    "C22_distribution",
    "C22_raises",
    "C22_plotted"
   ],
   "note": "each entry is within (v - min + 1) * 2^-50 of the exact probability; plots of programs that do not read stdout show the same table"
  },
  {
   "property": "C23",
   "status": "proved",
   "theorems": [
    "C23_bars",
    "C23_raises",
    "C23_plotted"
   ],
   "note": "the (x, weight) pairs and the line handed to matplotlib; gaps have probability 0"
  },
  {
   "property": "C24",
   "status": "partial",
   "theorems": [
    "C24_overlap_refuted",
    "C24_comparison_partial",
    "C24_apart",
    "C24_raises",
    "C24_heights"
   ],
   "note": "false of the code when the ranges overlap (C24_overlap_refuted, C24_apart: exactly then); proved: the weights, how often each integer is plotted, and that the bar piles up that many times the difference"
  },
  {
   "property": "C25",
   "status": "proved",
   "theorems": [
    "C25_notation",
    "C25_natural_counts",
    "C25_same_faces_same_die",
    "C25_program"
   ],
   "note": "every numbered, %, F and custom die, with ranges, multipliers, white space and leading zeros"
  },
  {
   "property": "C26",
   "status": "partial",
   "theorems": [
    "C26_trailing_comma_refuted",
    "C26_trailing_comma_always_raises",
    "C26_program_refuted",
    "C26_line_always_raises",
    "C26_anywhere_always_raises"
   ],
   "note": "false of the code: C26_trailing_comma_refuted, and every custom die with a trailing comma raises ValueError"
  },
  {
   "property": "C27",
   "status": "proved",
   "theorems": [
    "C27_constraint_merging_terminates"
   ],
   "note": "for every runtime (iteration order); ValueError exactly for ConstraintSet of an empty set"
  },
  {
   "property": "C28",
   "status": "proved",
   "theorems": [
    "C28_possible_iff_satisfiable"
   ],
   "note": "for every runtime"
  },
  {
   "property": "C29",
   "status": "partial",
   "theorems": [
    "C29_complies_refuted",
    "C29_complies_partial",
    "C29_impossible_always_complies"
   ],
   "note": "false of the code (C29_complies_refuted: contradictory constraints merge into one that complies with everything); proved when the constraints are jointly satisfiable, and what happens otherwise"
  },
  {
   "property": "C30",
   "status": "proved",
   "theorems": [
    "C30_members_determined",
    "C30_order_independent",
    "C30_empty_values_refuted"
   ],
   "note": "closed form of the members and order independence; C30_empty_values_refuted shows the non-emptiness condition is needed"
  },
  {
   "property": "C31",
   "status": "proved",
   "theorems": [
    "C31_equal_outcomes_equal_hashes",
    "C31_equality_is_equivalence",
    "C31_comma_names_refuted"
   ],
   "note": "for comma-free names; C31_comma_names_refuted shows the condition is needed"
  },
  {
   "property": "C32",
   "status": "proved",
   "theorems": [
    "C32_roll",
    "C32_max_min",
    "C32_distributions",
    "C32_cost",
    "C32_failing_line"
   ],
   "note": "roll, max, min, get_probability_distributions and get_estimated_cost, for every state and every random choice"
  },
  {
   "property": "C33",
   "status": "partial",
   "theorems": [
    "C33_live_refuted",
    "C33_returned_partial"
   ],
   "note": "false of the code: roll, max and min return the interpreter's own dictionary (C33_live_refuted); proved: entries not assigned by later calls stay, distribution calls change nothing"
  },
  {
   "property": "C34",
   "status": "partial",
   "theorems": [
    "C34_stdout_refuted",
    "C34_others_partial"
   ],
   "note": "false of the code for the name stdout (C34_stdout_refuted); proved for every other name and every call"
  },
  {
   "property": "C35",
   "status": "partial",
   "theorems": [
    "C35_cost_refuted",
    "C35_max_refuted",
    "C35_distributions_partial",
    "C35_others_partial",
    "C35_rolls_partial",
    "C35_cost_partial"
   ],
   "note": "false of the code: estimated cost and max()/min() overwrite the values read by rolls (C35_cost_refuted, C35_max_refuted); proved for distribution calls, and for all calls when the rolled program reads no variable they assign"
  },
  {
   "property": "C36",
   "status": "proved",
   "theorems": [
    "C36_roll_unset",
    "C36_roll_runs",
    "C36_distribution_unset",
    "C36_max_min_unset",
    "C36_cost_unset",
    "C36_roll_keyerror",
    "C36_distribution_keyerror",
    "C36_max_min_keyerror",
    "C36_cost_keyerror",
    "C36_set",
    "C36_stays_set",
    "C36_only_set"
   ],
   "note": "unset reads fail, with KeyError when nothing else is wrong with the program; a KeyError is always due to an unset variable; which variables are set is characterised by the history of calls"
  },
  {
   "property": "C37",
   "status": "partial",
   "theorems": [
    "C37_assignment_refuted",
    "C37_contained_partial",
    "C37_roll_reads",
    "C37_cost_reads"
   ],
   "note": "false of the code for assignments, which report no variables (C37_assignment_refuted); proved for all other expressions and all four operations"
  },
  {
   "property": "C38",
   "status": "partial",
   "theorems": [
    "C38_lines",
    "C38_operands",
    "C38_inside",
    "C38_assignment",
    "C38_variable",
    "C38_constant",
    "C38_dice",
    "C38_pool",
    "C38_not",
    "C38_not_at_least",
    "C38_nonneg",
    "C38_new",
    "C38_more_lines",
    "C38_defined_partial",
    "C38_overflow_refuted"
   ],
   "note": "definedness is false of the code for a NOT of a cost that no float can hold (C38_overflow_refuted); proved: OverflowError and a NOT are the only exception (C38_defined_partial), and all the other claims, also on any interpreter that has worked out costs only"
  },
  {
   "property": "C39",
   "status": "proved",
   "theorems": [
    "C39_lexing_is_total_and_lossless",
    "C39_finds_the_tokens"
   ],
   "note": "for every text (Latin-1 code points); where neighbouring tokens cannot be confused the lexer also finds exactly the intended ones (C39_finds_the_tokens)"
  },
  {
   "property": "C40",
   "status": "proved",
   "theorems": [
    "C40_error_points_at_offending_character"
   ],
   "note": "for every text that does not lex; the tokens before the character are the longest ones (C49)"
  },
  {
   "property": "C41",
   "status": "proved",
   "theorems": [
    "C41_parser_accepts_exactly_the_grammar",
    "C41_parse_of_a_text"
   ],
   "note": "for every token sequence and every text"
  },
  {
   "property": "C42",
   "status": "proved",
   "theorems": [
    "C42_precedence_and_associativity"
   ],
   "note": "for every token sequence"
  },
  {
   "property": "C43",
   "status": "proved",
   "theorems": [
    "C43_round_trip",
    "C43_same_tokens"
   ],
   "note": "equal means the same tree of the same classes with the same fields; the printed text even has the same tokens"
  },
  {
   "property": "C44",
   "status": "partial",
   "theorems": [
    "C44_roll_partial",
    "C44_roll_minus_itself",
    "C44_distribution_refuted"
   ],
   "note": "proved for roll; false of distributions (C44_distribution_refuted)"
  },
  {
   "property": "C45",
   "status": "partial",
   "theorems": [
    "C45_histories_partial",
    "C45_different_variables_partial",
    "C45_variable_free_partial",
    "C45_two_interpreters_refuted"
   ],
   "note": "false when both interpreters assigned the same name (C45_two_interpreters_refuted); proved for all distributions of two interpreters after any calls (C45_histories_partial) when no name was assigned on both, or one side has no variables"
  },
  {
   "property": "C46",
   "status": "proved",
   "theorems": [
    "C46_operands_swap",
    "C46_comparisons_mirror",
    "C46_brackets_move",
    "C46_neutral_numbers",
    "C46_not_and_abs"
   ],
   "note": "for all obtainable distributions, shared variables included"
  },
  {
   "property": "C47",
   "status": "partial",
   "theorems": [
    "C47_same_members_equal_refuted",
    "C47_same_members_same_hash_partial"
   ],
   "note": "equality is false of the code (C47_same_members_equal_refuted: the printed order decides); equal hashes proved"
  },
  {
   "property": "C48",
   "status": "proved",
   "theorems": [
    "C48_roll_is_a_joint_result"
   ],
   "note": "dice with fewer than about 1.8e308 sides, above which roll() raises OverflowError (C09_heavy_dice_refuted); random.choices is taken to draw with the exact weights; any number of dice, also 0; AND, OR and NOT as Python computes them on integers"
  },
  {
   "property": "C49",
   "status": "proved",
   "theorems": [
    "C49_longest_token"
   ],
   "note": "for every text (Latin-1 code points); the kinds of token never compete for the same text"
  },
  {
   "property": "C50",
   "status": "proved",
   "theorems": [
    "C50_error_names_the_first_unexpected_token",
    "C50_every_unexpected_token_is_reported",
    "C50_an_unfinished_program_is_reported"
   ],
   "note": "for every text (Latin-1 code points); rply's source positions and automaton are modelled, see DESIGN.md"
  },
  {
   "property": "C51",
   "status": "partial",
   "theorems": [
    "C51_large_refuted",
    "C51_gap_refuted",
    "C51_own_bins_partial",
    "C51_compare_partial",
    "C51_histogram_raises",
    "C51_at_least_raises",
    "C51_at_most_raises",
    "C51_compare_raises",
    "C51_interpreter_raises"
   ],
   "note": "false of the code for integers from 2^52 on (C51_large_refuted) and for comparisons of ranges that overlap or have a gap between them (C51_gap_refuted); proved: the exact conditions, and exactly when no figure is drawn"
  },
  {
   "property": "C52",
   "status": "proved",
   "theorems": [
    "C52_curves",
    "C52_raises"
   ],
   "note": "the two lists of points and labels handed to matplotlib"
  },
  {
   "property": "C53",
   "status": "proved",
   "theorems": [
    "C53_inserted",
    "C53_left_out",
    "C53_program",
    "C53_same_tokens"
   ],
   "note": "tokens and every interpreter call; the positions in error messages do move"
  },
  {
   "property": "C54",
   "status": "proved",
   "theorems": [
    "C54_roll",
    "C54_distributions",
    "C54_max_min",
    "C54_cost",
    "C54_figures"
   ],
   "note": "any interpreter state; for the tables and histograms: one order returns exactly when the other does"
  },
  {
   "property": "C55",
   "status": "proved",
   "theorems": [
    "C55_roll",
    "C55_distributions",
    "C55_max_min",
    "C55_cost",
    "C55_tables",
    "C55_plots"
   ],
   "note": "the omitted lines must not raise, except in the roll theorem; the tables need the omitted names to be new"
  },
  {
   "property": "C56",
   "status": "partial",
   "theorems": [
    "C56_share_of_draws",
    "C56_zero_never_drawn",
    "C56_one_each",
    "C56_exceptions",
    "C56_roll_is_possible",
    "C56_roll_can",
    "C56_never_drawn_refuted",
    "C56_all_drawn_partial"
   ],
   "note": "the last clause is false of the code for a side with a tiny share of its die (C56_never_drawn_refuted); proved when every side has at least 7/2^53 of its die; random.choices and bisect as in CPython 3.9 and later"
  },
  {
   "property": "C57",
   "status": "proved",
   "theorems": [
    "C57_share_of_sequences",
    "C57_reported_probability"
   ],
   "note": "the exact conditions of the second clause are those of C09 (good_program, drawable, program_logic_agrees, used_once_or_uniform); dice with fewer than about 1.8e308 sides"
  },
  {
   "property": "C58",
   "status": "proved",
   "theorems": [
    "C58_no_warnings",
    "C58_built_parser",
    "C58_same_parser",
    "C58_parse",
    "C58_no_empty_production"
   ],
   "note": "rply's table construction is modelled from its published source (Lalr.v, DESIGN.md); the tables are computed in Coq and compared with the automaton of Parser.v"
  },
  {
   "property": "C59",
   "status": "partial",
   "theorems": [
    "C59_same_results",
    "C59_str_refuted"
   ],
   "note": "false of the code for str() of a distribution, which prints sets (C59_str_refuted); proved for everything else that the session returns"
  },
  {
   "property": "C60",
   "status": "partial",
   "theorems": [
    "C60_distributions_partial",
    "C60_used_twice_refuted",
    "C60_errors",
    "C60_max_min",
    "C60_roll"
   ],
   "note": "false of the code for reported probabilities when the second line assigns a variable that is used more than once (C60_used_twice_refuted: its results are weighted by powers of their counts, see C44); proved for the distributions otherwise, and without that condition for exceptions, roll, max and min"
  },
  {
   "property": "C61",
   "status": "proved",
   "theorems": [
    "C61_names"
   ],
   "note": "for all sessions, with one renaming for all interpreters"
  },
  {
   "property": "C62",
   "status": "partial",
   "theorems": [
    "C62_distribution_operators",
    "C62_distribution_methods",
    "C62_outcome_operators",
    "C62_outcome_methods",
    "C62_outcome_equality",
    "C62_two_distributions",
    "C62_outcome_value_partial",
    "C62_bool_refuted"
   ],
   "note": "false of the code for bools: ProbabilityOutcome accepts True although its message says that it does not (C62_bool_refuted); all the rest is proved"
  },
  {
   "property": "C63",
   "status": "partial",
   "theorems": [
    "C63_counts",
    "C63_other_keys_refuted",
    "C63_total",
    "C63_copy",
    "C63_independent",
    "C63_nothing"
   ],
   "note": "false of the code for keys that are neither ints nor outcomes: they are not refused, their entries are lost (C63_other_keys_refuted); all the rest is proved"
  },
  {
   "property": "C64",
   "status": "partial",
   "theorems": [
    "C64_constant",
    "C64_variable_partial",
    "C64_others",
    "C64_kinds",
    "C64_foreign_refuted"
   ],
   "note": "false of the code for distributions of another interpreter: constraints of the same name are taken to be the same (C64_foreign_refuted); proved for all distributions of this interpreter, now or earlier, new ones, and what operators make of them (C64_variable_partial); the last sentence is the definition of `after` in SpecInterp, over which all theorems about reachable states are stated"
  },
  {
   "property": "C65",
   "status": "proved",
   "theorems": [
    "C65_report",
    "C65_rolls",
    "C65_extremes",
    "C65_cost"
   ],
   "note": "for dice with at least one face listed"
  },
  {
   "property": "C66",
   "status": "proved",
   "theorems": [
    "C66_symmetric",
    "C66_pools",
    "C66_consecutive",
    "C66_peak"
   ],
   "note": "for dice with at least one face listed"
  },
  {
   "property": "C67",
   "status": "proved",
   "theorems": [
    "C67_distributions",
    "C67_floats",
    "C67_average",
    "C67_errors",
    "C67_max_min",
    "C67_roll"
   ],
   "note": "for programs of lines and assignments whose dice have at least one side"
  },
  {
   "property": "C68",
   "status": "proved",
   "theorems": [
    "C68_text",
    "C68_outcomes",
    "C68_sessions"
   ],
   "note": "within one process: iteration orders of sets and string hashes are fixed"
  },
  {
   "property": "C69",
   "status": "partial",
   "theorems": [
    "C69_parses",
    "C69_regrouped_refuted",
    "C69_round_trip_partial",
    "C69_parsed",
    "C69_bracketed",
    "C69_parentheses_do_nothing"
   ],
   "note": "false of the code: Multiply(Add(1, 2), 3) prints 1 + 2 * 3 (C69_regrouped_refuted); proved: the text is always accepted, exactly for which objects it is read as the object itself (C69_round_trip_partial), and all the other claims"
  },
  {
   "property": "C70",
   "status": "partial",
   "theorems": [
    "C70_improved_partial",
    "C70_programs",
    "C70_roll",
    "C70_variable_refuted",
    "C70_average",
    "C70_faces",
    "C70_more_to_keep",
    "C70_more_to_drop",
    "C70_more_dice",
    "C70_max_min"
   ],
   "note": "false of the code for parts of earlier lines: a better die in a variable that is read twice can lower the chance of reaching a value (C70_variable_refuted; counts of variables enter as powers, see C44); proved for parts of the last line (C70_improved_partial), for parts of all lines when variables are used once or uniformly distributed (C70_programs), for roll() however often variables are used (C70_roll, where AND, OR and NOT agree with the README), and all claims about faces, numbers of dice, MAX and MIN"
  },
  {
   "property": "C71",
   "status": "partial",
   "theorems": [
    "C71_once",
    "C71_errors",
    "C71_values",
    "C71_several_refuted",
    "C71_several_partial",
    "C71_roll_refuted",
    "C71_roll_partial",
    "C71_laws_arithmetic",
    "C71_laws_minmax",
    "C71_laws_comparison",
    "C71_laws_logic",
    "C71_laws_distributive"
   ],
   "note": "false of the code when letters stand several times: d[1*2,2] in a, the counts of a + a and 2 * a differ (C71_several_refuted; see C44), and false of roll() for numbers under AND, OR and NOT (C71_roll_refuted; see C13); proved for letters that stand once (C71_once), possible results and exceptions in all cases (C71_values, C71_errors), several times when variables are used once or uniformly distributed (C71_several_partial), roll() when AND, OR and NOT agree with the README (C71_roll_partial); the laws themselves are C71_laws_*"
  },
  {
   "property": "C72",
   "status": "partial",
   "theorems": [
    "C72_ways",
    "C72_unused",
    "C72_values",
    "C72_errors",
    "C72_errors_alone",
    "C72_probability_refuted",
    "C72_probability_partial",
    "C72_roll"
   ],
   "note": "false of the code for reported probabilities: d[1*2,2] in a, a + a is 2 with probability 4/5 and not 2/3 (C72_probability_refuted; see C44); proved when variables are used once or uniformly distributed (C72_probability_partial); proved in all cases: the counts with powers (C72_ways, C72_unused), the possible results, the exceptions, and all that is claimed of roll()"
  },
  {
   "property": "C73",
   "status": "proved",
   "theorems": [
    "C73_total",
    "C73_interpreter",
    "C73_mean",
    "C73_at_least",
    "C73_at_most",
    "C73_complement"
   ],
   "note": "bounds on the rounding, for sums taken exactly; Python's sum() of the floats, which rounds after each addition, is not modelled"
  },
  {
   "property": "C74",
   "status": "proved",
   "theorems": [
    "C74_ways",
    "C74_probability",
    "C74_values",
    "C74_errors",
    "C74_roll"
   ],
   "note": "the calculation has one hole, with the part in it, and no other variables; dice with at least one side, for roll() with fewer than about 1.8e308"
  },
  {
   "property": "C75",
   "status": "proved",
   "theorems": [
    "C75_no_memory",
    "C75_independent",
    "C75_reported",
    "C75_weights"
   ],
   "note": "for programs that read only variables they have assigned themselves, also ones that raise ZeroDivisionError; the random numbers are counted over all lists of 53-bit numbers, as in C57"
  },
  {
   "property": "C76",
   "status": "partial",
   "theorems": [
    "C76_distributions",
    "C76_histograms",
    "C76_extremes",
    "C76_cost",
    "C76_roll",
    "C76_tables_refuted",
    "C76_tables_partial"
   ],
   "note": "false of the code for get_average() and get_probability_distributions_dict(): after VAR b = d[1*0] they raise ZeroDivisionError for every program (C76_tables_refuted); proved: their entries agree when they do not raise (C76_tables_partial), and all the other claims; for dice with at least one side"
  },
  {
   "property": "C77",
   "status": "proved",
   "theorems": [
    "C77_ways",
    "C77_probability",
    "C77_max",
    "C77_min",
    "C77_product",
    "C77_sum",
    "C77_difference",
    "C77_values",
    "C77_errors",
    "C77_roll",
    "C77_roll_errors"
   ],
   "note": "probabilities and means for dice with at least one side; variances and roll() for dice that can be rolled"
  },
  {
   "property": "C78",
   "status": "proved",
   "theorems": [
    "C78_parts",
    "C78_share",
    "C78_diminishing",
    "C78_highest",
    "C78_lowest"
   ],
   "note": "for pools and dice alone in a line; the average of dice without any face counts as 0"
  },
  {
   "property": "C79",
   "status": "proved",
   "theorems": [
    "C79_at_most",
    "C79_equal",
    "C79_compare",
    "C79_compare_both",
    "C79_minmax",
    "C79_distance",
    "C79_logic"
   ],
   "note": "for dice with at least one side and programs that do not raise; the exact averages, of which the floats shown are roundings (C19)"
  },
  {
   "property": "C80",
   "status": "proved",
   "theorems": [
    "C80_dice",
    "C80_text",
    "C80_successes",
    "C80_highest",
    "C80_lowest",
    "C80_roll_dice",
    "C80_roll_successes",
    "C80_roll_highest",
    "C80_roll_lowest"
   ],
   "note": "C80_text from the text of the line; the others for dice and pools alone in a line, for roll() with at least one side and fewer than about 1.8e308"
  },
  {
   "property": "C81",
   "status": "proved",
   "theorems": [
    "C81_dice",
    "C81_numbered",
    "C81_successes"
   ],
   "note": "for dice alone in a line; the exact average, of which the float shown is a rounding (C19)"
  },
  {
   "property": "C82",
   "status": "proved",
   "theorems": [
    "C82_at_least",
    "C82_at_most",
    "C82_at_least_table",
    "C82_at_most_table",
    "C82_at_least_plotted",
    "C82_at_most_plotted",
    "C82_order"
   ],
   "note": "for the exact mean and probabilities, and for the tables shown up to the rounding of their entries, summed exactly; Python's sum() of the floats is not modelled"
  },
  {
   "property": "C83",
   "status": "proved",
   "theorems": [
    "C83_at_least",
    "C83_equal",
    "C83_compare",
    "C83_compare_both",
    "C83_difference",
    "C83_and_or",
    "C83_logic"
   ],
   "note": "for last lines that are one operation on the two expressions, and dice that can be rolled; rolls that raise ZeroDivisionError count for no event"
  }
 ]
}