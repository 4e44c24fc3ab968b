#!/usr/bin/env python3
"""Regenerates /verif/properties.jsonl (one JSON object per line)."""
import json, os
P = []
def p(title, statement, quantifier, why, anchors):
    P.append(dict(id="C%02d" % (len(P) + 1), title=title, statement=statement,
                  quantifier=quantifier, why_tests_cant=why, anchors=anchors))
X = "python_dice/src/expression/"
D = "python_dice/src/probability_distribution/"
K = "python_dice/src/constraint/"
S = "python_dice/src/"

p("NdS counts are the number of ways to roll",
  "For n >= 1 dice, the count reported by get_probability_distribution().get_result_map() for a plain dice expression at value v is exactly the (weighted) number of ordered n-tuples of faces whose sum is v; exactly the values that some tuple of the listed faces (also those of multiplicity 0) produces appear.",
  "every number of dice n >= 1, every face map (any faces, any multiplicities), every value v",
  "Unbounded number of dice and arbitrary custom faces; tests check a handful of literal dice.",
  [X+"dice_expression.py:DiceExpression.get_probability_distribution", D+"probability_distribution.py:_combine_distributions"])
p("Keep-highest counts are exact",
  "For ndSkK with 0 < K < n, the reported count at v is exactly the weighted number of ordered n-tuples of faces for which the sum of the K highest dice is v.",
  "every n, K with 0 < K < n, every face map, every v",
  "The code never enumerates tuples: it folds dice into sorted string keys. Only an inductive argument shows the folding is exact for all n and faces.",
  [X+"drop_keep_expression.py:DropKeepExpression.get_probability_distribution", X+"drop_keep_expression.py:_build_dice_dict", X+"drop_keep_expression.py:_compute_iterations"])
p("Drop-highest counts are exact",
  "For ndSdK with 0 < K < n, the reported count at v is exactly the weighted number of ordered n-tuples for which the sum of all dice except the K highest is v.",
  "every n, K with 0 < K < n, every face map, every v",
  "As for keep: unbounded n, K and faces.",
  [X+"drop_keep_expression.py:DropKeepExpression.get_probability_distribution", X+"drop_keep_expression.py:_update_key_list"])
p("Keep/drop boundary rules of the README",
  "Keeping at least as many dice as are rolled behaves exactly like the plain dice expression; keeping zero, or dropping at least as many as are rolled, is the constant 0; dropping zero is the plain dice expression. This holds for roll, max, min, estimated cost and distribution alike.",
  "every n, K, every face map, every operation of the expression API",
  "Ranges over all pairs (n, K) and all dice types.",
  [X+"drop_keep_expression.py:DropKeepExpression.__init__", "README.md"])
p("Variable-free expressions: reported counts are the number of ways",
  "For an expression without variables whose dice counts are all >= 1, if the distribution is computed without error then its count at v is the weighted number of joint dice results on which the expression, read arithmetically as the README describes (booleans: values above 0 are true), evaluates to v.",
  "every variable-free expression tree of any depth over all operators, every v",
  "Induction over unbounded expression trees; the code merges equal outcomes at every step.",
  [D+"probability_distribution.py:_combine_distributions", D+"probability_outcome.py:_combine", X+"*"])
p("Each value in a distribution is counted once and nothing is lost",
  "get_result_map has one entry per value, its counts are non-negative, and they add up to the divisor used for probabilities, so the exact probabilities of every distribution sum to one.",
  "every distribution that any sequence of interpreter calls can produce",
  "Ranges over all reachable distributions.",
  [D+"probability_distribution.py:ProbabilityDistribution.__init__", D+"probability_distribution.py:get_result_map", D+"probability_distribution.py:get_dict_form"])
p("Combining distributions without shared variables multiplies totals",
  "For every binary operator that does not raise, the total number of ways of the result is the product of the totals of two operands that share no variable; NOT and ABS keep the total.",
  "every operator, every pair of reachable distributions with disjoint variables",
  "Ranges over all distributions and operators.",
  [D+"probability_distribution.py:_combine_distributions", D+"probability_distribution.py:not_operator", D+"probability_distribution.py:__abs__"])
p("A variable keeps its value: reported outcomes are exactly the possible ones",
  "In a program of VAR lines and expressions that reads no variable before its line, whose dice counts are all >= 1 and whose dice have a side of non-zero multiplicity, a value has a non-zero reported count exactly when some roll of the program, in which every variable is rolled once and re-read with the same value, produces it. In particular a - a is always 0 and no impossible combination is ever reported.",
  "every program of assignments and expressions (any length, any depth), every value",
  "Ranges over all programs and all joint dice histories.",
  [D+"probability_distribution_state.py:set_var", K+"constraint_merger.py", D+"probability_distribution.py:_combine_distributions"])
p("Probabilities are those of the program",
  "The reported probability of stdout = v is the probability that roll() on the same program gives stdout = v.",
  "every program, every value",
  "Ranges over all programs; the project's own tests pin reported counts for which this is false.",
  [D+"probability_distribution.py:_combine_distributions", D+"probability_distribution_state.py:set_var", S+"python_dice_interpreter.py:get_probability_distributions"])
p("What is reported when a variable is read several times",
  "When a variable instance is read m times (directly or through other variables), the reported count of an outcome is its true number of ways with the number of ways of that variable's value raised to the power m. So the reported distribution is exact when every instance is read at most once, and also when every reused variable is uniform.",
  "every program of assignments and expressions, every value",
  "Closed formula over all programs.",
  [D+"probability_distribution.py:_combine_distributions", D+"probability_distribution_state.py:set_var"])
p("Reassigning a variable makes a fresh, independent one",
  "Each assignment tags the variable with a name never used before in that interpreter, so a re-assigned variable is independent of every earlier variable, while values derived from the old one stay tied to the old one.",
  "every history of interpreter calls, every variable name",
  "Histories are unbounded; a clash would need a particular name and count.",
  [D+"probability_distribution_state.py:set_var", D+"probability_distribution_state.py:set_constant"])
p("Storing a variable does not change its distribution",
  "The distribution stored by VAR name = e has exactly the same result map (and so the same max, min, average and probabilities) as e; in particular no two outcomes are merged or dropped by the tagging.",
  "every reachable state, every expression, every hash-order of Python's sets",
  "set_var assigns (not adds) counts under keys compared by the printed form of a set whose order depends on string hashing, which is randomised per process.",
  [D+"probability_distribution_state.py:set_var", K+"constraint_set.py:__eq__", D+"probability_outcome.py:__eq__"])
p("Every roll is a reported outcome",
  "Whatever the random choices, the value roll() produces for a line has a non-zero probability in the distribution of the same program.",
  "every program, every sequence of random choices",
  "Random sampling cannot cover all choice sequences.",
  [X+"*:roll", X+"*:get_probability_distribution"])
p("AND, OR and NOT treat values above 0 as true",
  "As the README says, in roll() as in the distribution, a value counts as true exactly when it is above 0.",
  "every pair of integers",
  "Ranges over all integers; existing tests only roll 0/1 operands.",
  [X+"binary_operator_expression.py:OPERATOR_MAP", X+"not_expression.py:roll", D+"probability_outcome.py:__and__", D+"probability_outcome.py:not_operator"])
p("max() and min() of a line are the extremes of its distribution",
  "For every program, max (min) reports for stdout the largest (smallest) value with an entry in the distribution of that program.",
  "every program",
  "Ranges over all programs; correlated variables inside MIN/MAX are the hard case.",
  [X+"*:max", X+"*:min", X+"minmax_expression.py"])
p("max() and min() bound every roll",
  "No roll of a program is above its max() or below its min().",
  "every program, every sequence of random choices",
  "Extremes have vanishing probability under sampling.",
  [X+"*:max", X+"*:min", X+"*:roll"])
p("Division by zero is reported exactly when it can happen",
  "The distribution of a // b raises ZeroDivisionError exactly when some combination of dice makes b zero; max and min of a division raise it too; roll raises it exactly on the rolls where b is zero; and no other operation raises it.",
  "every expression, every dice result",
  "Ranges over all dice combinations of all expressions.",
  [X+"integer_division_expression.py", D+"probability_distribution.py:__floordiv__", D+"probability_distribution.py:contains_zero"])
p("Reported probabilities are correctly rounded",
  "Every float in get_dict_form is the IEEE-754 double nearest to the exact count/total, hence lies in [0, 1].",
  "every distribution with a positive total",
  "Ranges over all integer pairs, including those beyond 2^53.",
  [D+"probability_distribution.py:get_dict_form"])
p("average is the correctly rounded mean",
  "average() is the double nearest to the exact weighted mean; it raises ZeroDivisionError exactly when the distribution has no ways at all, and it lies between min() and max() (rounded).",
  "every distribution",
  "Ranges over all distributions.",
  [D+"probability_distribution.py:average"])
p("Averages are linear",
  "The exact mean of a + b (a - b) is the sum (difference) of the exact means, and that of a * b is their product, for operands that share no variable.",
  "every pair of reachable distributions with disjoint variables",
  "Ranges over all distributions.",
  [D+"probability_distribution.py:__add__", D+"probability_distribution.py:average"])
p("at_least is a survival function",
  "at_least has one entry for each integer from min to max, starts at exactly 1.0, never increases from one value to the next, and stays within rounding error of the exact P(X >= v).",
  "every non-empty distribution with positive total",
  "Floating-point accumulation over unboundedly many values.",
  [D+"probability_distribution.py:at_least"])
p("at_most is a distribution function",
  "at_most has one entry for each integer from min to max, never decreases, starts at the probability of the minimum, and stays within rounding error of the exact P(X <= v).",
  "every non-empty distribution with positive total",
  "Floating-point accumulation over unboundedly many values.",
  [D+"probability_distribution.py:at_most"])
p("Histogram data covers every integer between the extremes once",
  "The data plotted by get_histogram has each integer between the smallest and largest outcome exactly once, with the outcome's probability or 0 for a gap, in increasing order. A line marks the mean and is a tenth higher than the highest bar.",
  "every non-empty distribution",
  "Ranges over all distributions, with arbitrary gaps.",
  [D+"probability_distribution.py:_get_histogram_form", D+"probability_distribution.py:_make_histogram"])
p("Comparison histogram plots the difference at each outcome once",
  "The data passed to the plot by get_compare_histogram has each outcome of either distribution exactly once, with weight P(this) - P(other).",
  "every pair of distributions",
  "Ranges over all pairs of overlapping supports.",
  [D+"probability_distribution.py:get_compare_histogram"])
p("Dice notation means what the README says",
  "A numbered die dN has the faces 1..N once each, d% is d100, dF is -1,0,1; in a custom die a range lo-hi (in either order, with negative ends) is the list of its integers, and entry*k is k copies of the entry; equal multisets of faces give the same die.",
  "every integer N, lo, hi, k and every list of entries",
  "The notation is parsed with regular expressions over unboundedly many strings, with several uses of '-'.",
  [X+"dice_expression_helper.py:get_single_dice_outcome_map", X+"dice_expression_helper.py:_find_range"])
p("A trailing comma in a custom die is accepted",
  "d[1,2,] is the same die as d[1,2] (README: trailing comma allowed).",
  "every custom die",
  "Lexer tests accept the token, but nothing evaluates it.",
  ["python_dice/src/syntax/dice_syntax_helper.py:_CUSTOM_TYPE", X+"dice_expression_helper.py:get_single_dice_outcome_map"])
p("Constraint merging terminates",
  "Adding a constraint to a set, combining two sets and merging a set of constraints always finish, without error, whatever the iteration order of the underlying sets.",
  "every constraint, every constraint set, every iteration order",
  "A while loop whose work list grows; order depends on hash seeds.",
  [K+"constraint_merger.py:__merge_new_constraints"])
p("A constraint set is possible exactly when its constraints are jointly satisfiable",
  "After any sequence of add_constraint and combine_sets, is_possible() holds exactly when some assignment of integers to variables satisfies every constraint added, in any order of adding and any iteration order.",
  "every list of constraints, every iteration order",
  "All constraint lists and all orders.",
  [K+"constraint_set.py", K+"constraint_merger.py", K+"var_value_constraint.py:merge"])
p("complies() of a constraint set agrees with the constraints added",
  "An assignment complies with a constraint set exactly when it complies with each constraint that was added.",
  "every list of constraints, every assignment",
  "All constraint lists and assignments.",
  [K+"constraint_set.py:complies", K+"impossible_constraint.py:complies"])
p("Constraint sets do not depend on the order of adding",
  "Adding the same constraints in any order, or combining sets in any order, gives constraint sets with the same members (for each variable the common values of all its constraints).",
  "every list of constraints whose value sets are non-empty, every order and grouping, every iteration order",
  "All permutations.",
  [K+"constraint_merger.py", K+"constraint_set.py:combine_sets"])
p("Equality and hashing of outcomes agree",
  "Outcomes that compare equal have equal hashes, and equality is an equivalence, so they are usable as dictionary keys for every string hash function.",
  "every pair of outcomes whose variable names have no comma (no name of the language has one), every string hash function",
  "Hash seeds are randomised per process.",
  [D+"probability_outcome.py:__hash__", D+"probability_outcome.py:__eq__", K+"constraint_set.py:__hash__"])
p("Running a program in pieces is the same as running it at once",
  "roll, max, min, get_probability_distributions and get_estimated_cost on p1 and then on a non-empty p2, on one interpreter, leave the same variables and report the same result as one call on p1 + p2 (costs add up); when a line fails, the lines before it have taken effect and no later line has.",
  "every pair of programs, every starting state, every random choice",
  "All programs and split points.",
  [S+"python_dice_interpreter.py"])
p("Results already returned do not change",
  "A dictionary returned by roll, max or min is not changed by later calls on the same interpreter.",
  "every history of calls",
  "Aliasing shows only under particular call sequences.",
  [S+"python_dice_interpreter.py:roll", D+"probability_distribution_state.py:get_constant_dict"])
p("The name stdout is not a user variable",
  "Running a line does not define or overwrite a program variable other than the one it assigns.",
  "every program",
  "Needs all programs, including those that use the name stdout.",
  [S+"python_dice_interpreter.py", D+"probability_distribution_state.py:get_constant_dict"])
p("Operations of one kind do not disturb another",
  "Asking for the estimated cost (or max, min, distributions) of a program does not change what later rolls of the same interpreter produce for existing variables.",
  "every history of calls",
  "Cross-operation histories are unbounded.",
  [X+"var_assignment_expression.py:estimated_cost", X+"get_var_expression.py"])
p("Reading an undefined variable is a KeyError",
  "Rolling (distribution of) an expression that reads a variable not set by a previous roll/max/min/cost (distribution/max/min) line raises KeyError; reading only set variables never does.",
  "every expression, every reachable state",
  "All expressions and states.",
  [X+"get_var_expression.py", D+"probability_distribution_state.py:get_constant", D+"probability_distribution_state.py:get_var"])
p("get_contained_variables lists what an expression depends on",
  "The result of every operation on an expression depends only on the stored values of the variables that get_contained_variables reports.",
  "every expression, every pair of states that agree on those variables",
  "Non-interference over all states.",
  [X+"*:get_contained_variables"])
p("Estimated cost is compositional and non-negative",
  "On a fresh interpreter the estimated cost of a program is defined whenever every variable is assigned before use, is non-negative, is the sum over lines, is not lowered by adding lines, and an assignment costs 2 more than its expression; a NOT costs at least as much as its operand.",
  "every program",
  "All programs; involves floating-point rounding of cost*1.1.",
  [X+"*:estimated_cost", S+"python_dice_interpreter.py:get_estimated_cost"])
p("Lexing is total and lossless",
  "For every input text the lexer either returns tokens whose texts, in order and separated only by white space, spell the input exactly, or raises ValueError; it always terminates.",
  "every input text",
  "All strings.",
  [S+"python_dice_lexer.py", S+"python_dice_syntax_objects.py:LEXER_SYNTAX", "python_dice/src/syntax/*"])
p("Lexer error messages point at the offending character",
  "When lexing fails, the ValueError's message shows a window of the offending line with the arrow under the first character that cannot start a token, also for multi-line and very long inputs, and building the message never fails itself.",
  "every input text that does not lex",
  "Line/column arithmetic over all texts.",
  [S+"python_dice_lexer.py:lex"])
p("Parsing accepts exactly the grammar",
  "parse succeeds on a token sequence exactly when the production rules derive it (and each dice token denotes a die), and raises ValueError otherwise; the returned tree's tokens are exactly the input tokens.",
  "every token sequence",
  "All token sequences.",
  [S+"python_dice_parser.py", S+"python_dice_syntax_objects.py:PARSER_EXPRESSIONS"])
p("Precedence and associativity",
  "Comparison/AND/OR bind tighter than * and //, which bind tighter than + and -; all are left associative; ! and VAR name = extend as far right as possible. Every parse result obeys this and it determines the tree uniquely.",
  "every token sequence",
  "All nestings of operators.",
  [S+"python_dice_syntax_objects.py:PRECEDENCE"])
p("Printing and parsing round-trip",
  "For every expression obtained by parsing, str(expression) parses back to an equal expression.",
  "every input text that parses",
  "All expression trees, names, numbers and dice texts.",
  [X+"*:__str__", S+"python_dice_parser.py", S+"python_dice_lexer.py"])
p("The value of an assignment is the variable's value",
  "In an expression that contains VAR name = e as a sub-expression, the sub-expression's value and later reads of name are the same value.",
  "every expression with a nested assignment",
  "All nestings.",
  [X+"var_assignment_expression.py:get_probability_distribution", X+"var_assignment_expression.py:roll"])
p("Distributions of different interpreters are independent",
  "Adding (or otherwise combining) distributions obtained from two separate interpreters treats them as independent.",
  "every pair of programs on two interpreters",
  "All pairs of programs.",
  [D+"probability_distribution_state.py:set_var", D+"probability_distribution.py:__add__"])
p("Distribution arithmetic obeys the algebra of the numbers",
  "a + b and b + a have the same result map, likewise *, MIN, MAX, AND, OR, ==, !=; a < b and b > a agree, a <= b and b >= a too; +, *, MIN, MAX, AND, OR can be bracketed either way; adding 0 or multiplying by 1 changes nothing; abs and double NOT are idempotent on values.",
  "every pair of reachable distributions",
  "All distributions.",
  [D+"probability_distribution.py"])
p("Constraint sets with the same members are equal",
  "Two constraint sets that hold the same constraints compare equal and have the same hash, however they were put together.",
  "every pair of constraint sets, every iteration order",
  "Depends on the layout of Python's sets and on randomised string hashes.",
  [K+"constraint_set.py:__eq__", K+"constraint_set.py:__hash__"])
p("A roll is one joint result of all dice",
  "The runs of roll() on a program are the joint results of its dice, each die drawn on its own with its sides weighted by their multiplicities, each variable rolled once on the line that assigns it; all joint results are equally likely.",
  "every program whose dice can be rolled, every starting state",
  "All programs and all sequences of random choices.",
  [S+"python_dice_interpreter.py:roll", X+"dice_expression.py:roll", X+"drop_keep_expression.py:roll", X+"var_assignment_expression.py:roll"])
p("The lexer takes the longest token",
  "The tokens of a text are those that are found by taking, after white space, the longest piece of text that is a token there: words and names are whole words, ! is not taken from != and = not from a run of several =. The text lexes exactly when this reads all of it.",
  "every input text",
  "All strings; the order of the rules and the backtracking of the patterns decide.",
  [S+"python_dice_lexer.py", S+"python_dice_syntax_objects.py:LEXER_SYNTAX", S+"syntax/*"])
p("A syntax error names the first token that cannot stand where it stands",
  "When a text lexes but the parser rejects it, the message names a token's kind, text and position (offset, line, column). The tokens before it begin some valid program; with it they do not. When the text ends too early the message says $end. Conversely every such token is reported, unless it is a die that cannot be read.",
  "every input text that lexes",
  "All token sequences; LALR tables may reduce before they see the error, and white space inside dice moves lines.",
  [S+"python_dice_parser.py:error_handler", S+"python_dice_parser.py:parse", S+"python_dice_lexer.py:lex"])
p("In a histogram every integer has a bin of its own",
  "Each integer that get_histogram, get_at_least_histogram, get_at_most_histogram or get_compare_histogram plots lies in a bin of its own, from one half below it to one half above it; a figure is drawn whenever the probabilities exist.",
  "every distribution, every pair of distributions",
  "All distributions; the edges are floats, and comparisons have gaps and repetitions.",
  [D+"probability_distribution.py:_make_histogram", D+"probability_distribution.py:get_compare_histogram"])
p("A line plot shows one curve for each of the two distributions under its name",
  "get_compare, get_compare_at_least and get_compare_at_most draw two curves over increasing outcomes: the first, labelled with the first name, shows the probabilities (at_least, at_most values) of this distribution, the second, with the second name, those of the other. They raise exactly when one of the two distributions has no table, the first one's exception first.",
  "every pair of distributions and names",
  "All pairs of distributions.",
  [D+"probability_distribution.py:get_compare", D+"probability_distribution.py:get_compare_at_least", D+"probability_distribution.py:get_compare_at_most", D+"probability_distribution.py:_make_line_plot"])
p("White space between tokens does not matter",
  "White space may be inserted between any two tokens of a text that lexes, before the first and after the last, and left out wherever the two characters on its sides may meet: the tokens stay the same. Lines with the same tokens are interchangeable in every program: every call returns or raises the same.",
  "every input text that lexes, every place between two tokens, every program around it, every runtime",
  "All texts and places; dice contain white space, and some tokens only match at word boundaries.",
  [S+"python_dice_lexer.py", S+"python_dice_syntax_objects.py:LEXER_SYNTAX", S+"syntax/*"])
p("Lines that do not depend on each other can be exchanged",
  "Two groups of lines, neither of which reads or assigns a name that the other assigns, can be exchanged when another line follows and none mentions stdout: roll() returns dictionaries with each property equally likely, get_probability_distributions, max, min, get_average and get_probability_distributions_dict have the same entries, get_estimated_cost and the histograms are the same. An exception in one order is one in the other; for max, min, the distributions and the cost it is the same one unless both groups raise by themselves.",
  "every pair of groups of lines, every continuation, every interpreter state",
  "All programs and states; hidden state such as tags of variables and counters could leak between lines.",
  [S+"python_dice_interpreter.py", D+"probability_distribution_state.py", X+"var_assignment_expression.py", X+"get_var_expression.py"])
p("Lines whose assignments are not used can be left out",
  "Lines that assign no name that later lines read or assign can be left out before lines that do not mention stdout: the entries for all other names are the same for roll (each property has the same weight times the weight of the runs in which the omitted lines do not raise), get_probability_distributions, max, min, get_average and get_probability_distributions_dict, as are the histograms; the estimated cost falls by the cost of the omitted lines.",
  "every group of lines, every continuation, every interpreter state",
  "All programs and states; hidden state such as tags of variables and counters could leak between lines.",
  [S+"python_dice_interpreter.py", D+"probability_distribution_state.py", X+"var_assignment_expression.py", X+"get_var_expression.py"])
p("roll() draws each side of a die with its share",
  "random.choices, from uniform 53-bit numbers, chooses each side of a die with a probability that differs from its multiplicity over the total by less than 7/2^53; a side of multiplicity zero is never chosen. Whatever numbers the generator gives, roll() returns or raises one of the results of positive weight, and each of those is obtained with some numbers.",
  "every die, every program, every sequence of random numbers, every interpreter state",
  "All dice and 2^53 random numbers per die; the rounding of the product random() * total decides.",
  [X+"dice_expression.py:roll", X+"drop_keep_expression.py:roll", S+"python_dice_interpreter.py:roll"])
p("The results of roll() are as likely as reported",
  "For a program whose rolls raise nothing, of all sequences of 53-bit random numbers the share for which roll() returns a dictionary with a given property differs from the share of the weights by at most 7/2^53 for each side of each die that is thrown. For programs in which every variable read more than once is uniform, and whose AND, OR and NOT see truth values, the share for which stdout is v differs by no more from the probability that get_probability_distributions reports for v.",
  "every program, every property of the returned dictionary, every interpreter state",
  "All programs and all sequences of random numbers; errors of several dice add up.",
  [X+"dice_expression.py:roll", X+"drop_keep_expression.py:roll", S+"python_dice_interpreter.py:roll", D+"probability_distribution.py:get_result_map"])
p("The grammar needs no guessing: PRECEDENCE decides every conflict",
  "Building the parser from the rules of the expression classes and PRECEDENCE succeeds without a warning: every token is used, every rule can be reached, no shift/reduce conflict is left to a default and there is no reduce/reduce conflict. The LALR parser so built returns, for every token sequence, the tree that the rules derive and PRECEDENCE groups, and rejects exactly the sequences without one.",
  "every token sequence, every input text",
  "All token sequences; the tables are generated and their conflicts are resolved while the parser is built.",
  [S+"python_dice_parser.py:__init__", S+"python_dice_parser.py:parse", S+"python_dice_syntax_objects.py:PARSER_EXPRESSIONS", S+"python_dice_syntax_objects.py:PRECEDENCE"])
p("Nothing depends on the hash seed",
  "Take any session: any number of interpreters, any sequence of their ten calls, the distributions they return combined by operators, compared and asked for anything, and the same random numbers. All that is returned, also the order of the entries of dictionaries, every float and every exception, is the same for all string hash functions and all iteration orders of sets; and so is str() of each distribution.",
  "every session, every two hash functions and iteration orders of sets, every sequence of random numbers",
  "Python chooses the hash seed at random for every process; outcomes are dictionary keys with a hash and an == that depend on printed sets.",
  [S+"constraint/constraint_set.py:__eq__", S+"constraint/constraint_set.py:__hash__", D+"probability_outcome.py:__eq__", D+"probability_outcome.py:__hash__", D+"probability_distribution.py:__str__", S+"python_dice_interpreter.py"])
p("A variable that is read once can be replaced by its definition",
  "Let a line assign e to x, let the next line read x exactly once and no later line read it. Leaving the first line out and writing (e) for x in the next changes nothing: get_probability_distributions reports the same probabilities or raises the same, roll() returns each value equally often and can raise the same, and max() and min() return or raise the same.",
  "every program with two such lines, every interpreter state",
  "All programs; a variable is assigned by making constraints for every value it can have, and read by combining them.",
  [S+"python_dice_interpreter.py", D+"probability_distribution_state.py", X+"var_assignment_expression.py", X+"get_var_expression.py", X+"parentheses_enclosed_expression.py"])
p("The names of the variables do not matter",
  "Take any session: any number of interpreters, any sequence of their ten calls, the distributions they return combined, compared and asked for anything, and the same random numbers. Replace the names in all its lines by others, the same name by the same and different names by different ones, and leave stdout. Then all that is returned is the same, also the order of the entries of dictionaries, every float and every exception; only the keys of dictionaries have the new names.",
  "every session, every renaming, every two hash functions and iteration orders of sets, every sequence of random numbers",
  "All programs and all names; the code makes the names of constraints from names of variables and numbers, and compares constraints by their printed forms.",
  [S+"python_dice_interpreter.py", D+"probability_distribution_state.py:set_var", K+"var_value_constraint.py:__eq__", S+"syntax/name_syntax.py"])
p("An operand of the wrong kind is refused with a TypeError",
  "An operator or method that combines a ProbabilityDistribution with anything but a distribution raises a TypeError, on whichever side it stands; the same for a ProbabilityOutcome and anything but an outcome, also for ==. Two distributions are never refused: combining them raises nothing but the ZeroDivisionError of a division of a non-empty distribution by one that lists 0. A ProbabilityOutcome is made of an int only, not of a bool or anything else.",
  "every distribution, outcome, operator and operand (an int, a bool, an outcome, a distribution, or an object of another built-in class)",
  "All operators with all kinds of operands on both sides; Python asks the right operand of a comparison when the left one does not know.",
  [D+"probability_distribution.py:__add__", D+"probability_distribution.py:__lt__", D+"probability_distribution.py:max_operator", D+"probability_outcome.py:__init__", D+"probability_outcome.py:_combine", D+"probability_outcome.py:__eq__"])
p("A distribution made of a dictionary holds what the dictionary says",
  "ProbabilityDistribution(factory, m) and ProbabilityDistributionFactory().create(m) list exactly the values that the keys of m (ints and outcomes) stand for, each with the sum of its counts, and refuse a key of another kind. Made of get_constraint_result_map() of a distribution it is the same distribution; made of get_result_map() it has the same results and is independent of every other distribution. Made of None it is empty.",
  "every dictionary from Python objects to ints, every distribution",
  "All dictionaries, with keys of mixed kinds that stand for the same value.",
  [D+"probability_distribution.py:__init__", D+"probability_distribution_factory.py:create", D+"probability_distribution.py:get_constraint_result_map", D+"probability_distribution.py:get_result_map"])
p("What is put into the state by hand is what programs read",
  "After set_constant(n, v) on the state of an interpreter, roll(), max() and min() of the line n give v. After set_var(n, d) the line n reports exactly the counts of d, n + 0 has the results of d, and the variable is a new one, correlated with nothing but d and what d was made of. Entries of other names, and constants or variables of the same name, stay. All that holds of interpreters holds as well when constants and variables are set by hand before and between calls, and when dictionaries that were returned are changed.",
  "every state, every name, every value, every distribution",
  "All states and distributions; the names of constraints are made of names and counters of the state, so distributions of another interpreter may have constraints of the same name.",
  [D+"probability_distribution_state.py:set_constant", D+"probability_distribution_state.py:set_var", D+"probability_distribution_state.py:get_constant", D+"probability_distribution_state.py:get_var", S+"python_dice_interpreter.py:__init__"])
p("The same dice written differently give the same results",
  "Adding up n dice with the same faces, or taking the highest or the lowest of them, can be written in many ways: ndX, sums of smaller groups in any order and with any parentheses, ndXk1, ndXd(n-1), nested MAX() and MIN(), dN or d[1-N] or d[...] with the faces in another order. All ways report the same values with the same counts, roll() returns each value equally often, max() and min() return the same, and get_estimated_cost is n times the number of different faces.",
  "every two such lines, any dice, any number of dice, every interpreter state",
  "All groupings of any number of dice; the code computes ndX by adding maps, pools by enumerating combinations or by a formula, and sums and MAX() by combining outcomes.",
  [X+"dice_expression.py", X+"drop_keep_expression.py", X+"add_expression.py", X+"minmax_expression.py", X+"parentheses_enclosed_expression.py"])
p("Symmetric dice give symmetric results",
  "If on a die c - x is as frequent as x, then a sum of n such dice reports n*c - v with the count of v, and keeping the highest k dice of a pool reports v as often as keeping the lowest k reports k*c - v. All dice with consecutive faces are symmetric, and the counts of a sum of them do not fall up to the middle n*c/2, so that they have a single peak.",
  "every sum and pool of such dice, every interpreter state",
  "All symmetric dice and any number of them.",
  [X+"dice_expression.py", X+"drop_keep_expression.py", X+"add_expression.py"])
p("Parts with the same results can be exchanged",
  "Take a program and exchange some parts of its lines, each without variables, for others that by themselves report the same results with the same probabilities (perhaps with other counts). The program then reports the same results with the same probabilities, also as floats and with the same average; it raises the same; max() and min() return or raise the same. If the parts are rolled with the same probabilities by roll(), then so is the program, and it can raise the same.",
  "every program, every choice of parts, also inside definitions of variables that are used any number of times, every interpreter state",
  "All programs and all pairs of parts; a distribution keeps counts, not probabilities, and the counts of a variable enter as powers.",
  [S+"python_dice_interpreter.py", D+"probability_distribution.py", X+"var_assignment_expression.py", X+"get_var_expression.py"])
p("str() of a distribution tells everything about it",
  "Two distributions have the same str() exactly if they have the same outcomes in the same order, with equal values, equal constraint sets and equal counts; two outcomes have the same str() exactly if they are ==. Distributions with the same str() cannot be told apart: whatever is asked of them, and whatever they are combined with, in any session with any interpreters, the same is returned.",
  "every two distributions that a user can get hold of, every session",
  "All distributions; the printed forms of outcomes, constraint sets, sets of ints and names are put together without quotes.",
  [D+"probability_distribution.py:__str__", D+"probability_outcome.py:__str__", D+"probability_outcome.py:__eq__", K+"constraint_set.py:__str__", K+"var_value_constraint.py:__str__"])
p("An expression made by hand prints a program that means the same",
  "Take an object made with the constructors of the expression classes, any class inside any other, not only as the parser puts them together. str() of it is accepted by the parser and means the same as the object. The parser makes exactly the objects grouped as the README says. Parentheses around operands change nothing: distribution, roll, max, min, cost and contained variables are those without them.",
  "every object made of the expression classes with texts that are tokens, every state, every random generator",
  "All trees of any depth; the tests print single expressions with leaves as operands.",
  [X+"add_expression.py:__str__", X+"multiply_expression.py:__str__", X+"not_expression.py:__str__", X+"parentheses_enclosed_expression.py", S+"python_dice_parser.py"])
p("Better dice never lower the chances",
  "Exchange parts of a program for parts that by themselves reach every value with at least the same probability, where the result grows with them (and for worse ones where it falls: right of - and >, under !, ...). Then the program reaches every value with at least the same probability, as reported and by roll(), and average() is at least as large. In particular better faces make sums and pools better, more dice make 'keep the highest k' and sums of dice without negative faces better and 'keep the lowest k' worse, and MAX(a, b) is at least as good as a and b, which are at least as good as MIN(a, b).",
  "every program, every pair of parts, any dice, any number of dice, every interpreter state",
  "A comparison of all pairs of programs at all values; the distributions keep counts with different totals.",
  [S+"python_dice_interpreter.py", X+"drop_keep_expression.py", X+"dice_expression.py", X+"minmax_expression.py", X+"binary_operator_expression.py", D+"probability_distribution.py:average"])
p("Formulas that are equal for all numbers can be exchanged",
  "Rewrite lines of a program by a law of arithmetic: put for a formula another one with the same letters that has the same value for all values that its letters can have (a + b and b + a, a - (b + c) and a - b - c, NOT (a < b) and a >= b, De Morgan, ...). If every letter stands once in each formula, get_result_map() is the same, and the same is raised, whatever expressions the letters stand for; roll() rolls every result with the same probability. The same for expressions without dice whose letters stand there several times (2 * a and a + a, a * (b + c) and a * b + a * c), with the same probabilities.",
  "every program, every pair of equal formulas in any places, all expressions for the letters, every interpreter state",
  "All programs and all laws; a test can only compare the two sides of single examples.",
  [S+"python_dice_interpreter.py", X+"add_expression.py", X+"multiply_expression.py", X+"subtract_expression.py", X+"not_expression.py", X+"binary_operator_expression.py", X+"minmax_expression.py", X+"get_var_expression.py"])
p("The values of a variable can be distinguished case by case",
  "Let a line of a program set a variable to an expression without variables. For each value of that expression take the program in which the line sets the variable to this number. The program can give what it gives in one of these cases, and raises if the expression raises or one of the cases does. Its probabilities, its probabilities of reaching a value and its average are the averages over the cases, weighted with the probabilities of the values; the same for the runs of roll(). If the last line does not use the variable, all cases report the same as the program.",
  "every program, every such line with any lines before and after it, every interpreter state",
  "All programs and all values; the code rolls the variable once and combines its distribution with others by constraints, in each case it is a constant.",
  [S+"python_dice_interpreter.py", D+"probability_distribution_state.py:set_var", D+"probability_distribution.py", X+"var_assignment_expression.py", X+"get_var_expression.py"])
p("The probabilities shown add up to 1",
  "The floats in the n entries of get_dict_form() add up (exactly, not in floating-point arithmetic) to a number that differs from 1 by at most n * 2^-54; the results weighted with them add up to the mean, up to 2^-54 times the sum of the sizes of the results. at_least() of v and at_most() of v - 1 add up to 1, and both agree with the sums of the floats in get_dict_form(), up to 2^-50 for each number in the range from the smallest result to v and 2^-54 for each result.",
  "every distribution that a user can get hold of and that has results, every entry, every program",
  "All distributions, also those with thousands of results, where rounding errors of single entries could pile up; the tests compare a few tables with constants.",
  [D+"probability_distribution.py:get_dict_form", D+"probability_distribution.py:at_least", D+"probability_distribution.py:at_most", S+"python_dice_interpreter.py:get_probability_distributions_dict"])
p("One can calculate with the result of a part of a line",
  "Take a program whose last line is a calculation with a part e and dice, like (a + a) * d2 with the part (a + a). Look at e alone as the last line, and for each of its values x at the same calculation with the number x. The program counts each result as often as the values of e, each times the count in its case, add up to; its probabilities, its probabilities of reaching a value and its mean are the averages over the values of e with their probabilities. It can give what a case can give, and raises what e raises or one of the cases raises. The same for the runs of roll().",
  "every program, every part e with any variables used any number of times, every calculation in which nothing else reads variables, every interpreter state",
  "All programs and calculations; the code combines the outcomes of e, which carry constraints on variables, and adds up the values only at the end.",
  [S+"python_dice_interpreter.py", D+"probability_distribution.py:_combine_distributions", X+"binary_operator_expression.py", X+"get_var_expression.py"])
p("Calls of roll() one after the other are independent",
  "Call roll() several times on one interpreter, with the same or with different programs that read only variables they have assigned. With given random numbers each call gives the same whatever was called before. Of all lists of random numbers, the share for which the calls give results in given sets of results (which may contain exceptions) is exactly the product of the shares for each call alone; it differs from the product of the probabilities reported by at most 7 / 2^53 for each side of each die. With the ideal weights of random.choices the weights multiply.",
  "every sequence of such programs, every sets of results, every interpreter state",
  "All sequences of calls and all sequences of random numbers; the interpreter keeps its state between the calls, and a call that raises has used only some of its random numbers.",
  [S+"python_dice_interpreter.py:roll", X+"dice_expression.py:roll", X+"drop_keep_expression.py:roll", X+"get_var_expression.py:roll", D+"probability_distribution_state.py"])
p("What a self-contained program gives does not depend on what was done before",
  "Take a program that reads only variables it has assigned itself. Whatever calls were made before on the interpreter, with whatever variables and exceptions, and whatever the hash seed: get_probability_distributions() gives for stdout and for each variable of the program a distribution with the same get_result_map(), get_dict_form(), average(), at_least(), at_most() and histogram data (dictionaries up to order), the three histograms are the same, max() and min() give the same, get_estimated_cost() is the same, roll() gives each result with the same weight, and the same exceptions are raised. get_average() and get_probability_distributions_dict() give the same for these names too.",
  "every such program, every pair of interpreter states that calls can lead to, also of interpreters with different hash seeds",
  "All programs and all histories; the interpreter keeps its variables and the numbers of their instances between the calls, a test has to pick one history.",
  [S+"python_dice_interpreter.py", D+"probability_distribution_state.py", D+"probability_distribution.py", X+"var_assignment_expression.py", X+"get_var_expression.py"])
p("Results of separate groups of lines are independent",
  "Take two self-contained groups of lines that assign different variables, each ending in an expression, and the program that consists of the assignments of both and an operation (+, -, *, //, a comparison, AND, OR, MAX, MIN) on the two expressions. The number of ways and the probability of a result are the sums, over the pairs of values with this result, of the products of the numbers of ways or probabilities in the two groups, however often variables are used within a group. So the probabilities of being at most a value multiply under MAX, those of being at least a value multiply under MIN, means multiply under *, and variances add up under + and -. The program raises what one of the groups raises, and otherwise only ZeroDivisionError for a division when 0 is a value of the second group. roll() gives the combination of a result of the first and one of the second group, with the product of their weights, and raises in the same way.",
  "every two such groups, every operation, every value, every history of the interpreter and every hash seed",
  "All pairs of programs; the distribution of the operation is computed from outcomes with constraints on the instances of the variables of both groups, which have to multiply without interfering.",
  [D+"probability_distribution.py", D+"probability_distribution_state.py", X+"add_expression.py", X+"multiply_expression.py", X+"minmax_expression.py", X+"get_var_expression.py", S+"python_dice_interpreter.py"])
p("Pools of equal dice",
  "Of n equal dice, keep the highest k or drop them. On the average the kept and the dropped dice together give what all n dice give; the highest k dice give at least k/n of it; each further die that is kept adds at most as much as the one before. The highest of n dice is at most v with the n-th power of the probability that one die is at most v, and the lowest of n dice is at least v with the n-th power of the probability that one die is at least v.",
  "every die with any faces and copies, every n >= 1, every k >= 0 (k <= n where dice are compared), every v, every history of the interpreter and every hash seed",
  "All dice and all numbers of dice; the code computes pools with its own enumeration of the sorted hands, separate from that of sums of dice, and dropping separately from keeping.",
  [X+"drop_keep_expression.py:get_probability_distribution", X+"drop_keep_expression.py:_update_key_list", X+"dice_expression.py:get_probability_distribution", D+"probability_distribution.py"])
p("Relations between numbers carry over to the averages",
  "Take programs with the same assignments whose last lines calculate different things with the same two expressions: an operation on them, then ABS, NOT or operations with numbers. Whatever linear equation or inequality holds between the values for all values of the two expressions holds between the averages reported, however often the expressions use the same variables. In particular the probabilities of a < b, a == b and a > b add up to 1, that of a <= b is that of a < b plus that of a == b, and so on; the averages of MAX(a, b) and MIN(a, b) add up to that of a + b, their difference is the average of ABS(a - b), which is at least the distance of the average of a - b from 0; and for truth values the probabilities of a AND b and a OR b add up to the average of a + b.",
  "every assignments, every two expressions, every number of such last lines with any factors, every history of the interpreter and every hash seed",
  "All programs and all calculations; each last line is evaluated by combining outcomes with constraints on its own, and the code has no notion of the relation between them.",
  [D+"probability_distribution.py:_combine_distributions", D+"probability_distribution.py", X+"binary_operator_expression.py", X+"minmax_expression.py", X+"abs_expression.py", S+"python_dice_interpreter.py"])
p("Closed formulas for the number of ways",
  "For the line NdS, get_result_map() gives for v the sum over j = 0, ..., N of (-1)^j C(N, j) C(v - S j - 1, N - 1), also when the sides 1, ..., S are written as a custom die. For N dice with a blank sides 0 and b sides 1 it gives the binomial distribution C(N, v) b^v a^(N - v). For the highest of N such dice with the sides 1, ..., S it gives v^N - (v - 1)^N, for the lowest (S - v + 1)^N - (S - v)^N, and 0 for other v. roll() gives each of these results with the weight of the same formula.",
  "every number of dice N >= 1, every number of sides, every v, every history of the interpreter and every hash seed",
  "All numbers of dice and sides; the code adds one die after the other and has no closed formula to compare with.",
  [X+"dice_expression.py:get_probability_distribution", X+"drop_keep_expression.py:get_probability_distribution", D+"probability_distribution.py", S+"python_dice_interpreter.py"])
p("The average and the variance of several dice",
  "n equal dice have n times the average and n times the variance of one die, as computed from what is reported. For the sides 1, ..., S the average is n (S + 1) / 2 and the variance n (S^2 - 1) / 12; for dice with a sides 0 and b sides 1 and p = b / (a + b) they are n p and n p (1 - p).",
  "every die with at least one side, every n >= 1, every history of the interpreter and every hash seed",
  "All dice and numbers of dice; the code adds up dice one at a time and never computes a variance.",
  [X+"dice_expression.py:get_probability_distribution", D+"probability_distribution.py:average", D+"probability_distribution.py"])
p("The average is the sum of the values of at_least()",
  "When all results lie between a and b, the mean is a plus the probabilities of at least a + 1, ..., b, and b less the probabilities of at most a, ..., b - 1. The values of the dict that at_least() returns add up to the mean less the smallest result plus 1, and those of at_most() to the largest result plus 1 less the mean, each up to 2^-50 times the sum of the distances of the keys from the smallest result (plus one for each key in at_most()). The bars that get_at_least_histogram() and get_at_most_histogram() plot have the same sums. If one distribution reaches every number with at least the probability of another one, its average() is at least as large.",
  "every distribution that the API can return with at least one way, every bounds on its results",
  "All distributions; average() and at_least() are computed by separate loops, and the rounding errors of the subtractions in at_least() add up.",
  [D+"probability_distribution.py:at_least", D+"probability_distribution.py:at_most", D+"probability_distribution.py:average", S+"python_dice_interpreter.py:get_at_least_histogram", S+"python_dice_interpreter.py:get_at_most_histogram"])
p("Relations between numbers carry over to roll()",
  "Take programs with the same assignments whose last lines are different operations on the same two expressions, and for each of them the event that roll() gives some value. Whatever linear equation or inequality holds between these events for all values that the two expressions can have holds between their weights, however often the expressions use the same variables. In particular exactly one of a < b, a == b and a > b holds; a <= b is as likely as a < b and a == b together, a != b as a < b and a > b together; a - b is 0 as often as a == b; and a OR b is at least as likely as a AND b, also for numbers, which roll() combines bit by bit. For truth values the weights of a AND b and a OR b add up to that of a + b being 1 and twice that of a + b being 2.",
  "every assignments, every two expressions, every number of such events with any factors, every states of the interpreters and every hash seed",
  "All programs and all operations; a test can only sample rolls, and each last line is evaluated on its own.",
  [X+"binary_operator_expression.py:roll", X+"minmax_expression.py:roll", X+"subtract_expression.py:roll", S+"python_dice_interpreter.py:roll"])
with open(os.path.join(os.path.dirname(__file__), "..", "properties.jsonl"), "w") as f:
    for o in P:
        f.write(json.dumps(o) + "\n")
print(len(P))
