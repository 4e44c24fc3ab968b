#!/usr/bin/env python3
"""Regenerates /verif/MANIFEST.json from the theorems in rocq/theories/Props*.v and the table below."""
import glob, json, os, re
ROOT = os.path.join(os.path.dirname(os.path.abspath(__file__)), "..")
# property -> (status, note)
TABLE = {
 "C01": ("proved", "for every face map and every dice text; n = 0 is counted as one die (C01_zero_dice_count_as_one)"),
 "C02": ("proved", "for every face map and every keep text with 0 < K < n"),
 "C03": ("proved", "for every face map and every drop text with 0 < K < n"),
 "C04": ("partial", "proved for n >= 1 (all five operations); keeping 0 of 0 dice is not the constant 0 (C04_keep_zero_of_zero_refuted)"),
 "C05": ("proved", "for every runtime and every reachable interpreter state; expressions of any depth with at least one die per dice term"),
 "C06": ("proved", "for every distribution obtainable through the API, also from several interpreters"),
 "C07": ("proved", "totals, and the exact counts of the combination; an inequality when variables are shared"),
 "C08": ("proved", "for every program with at least one die per dice term and dice that can be rolled"),
 "C09": ("partial", "false of the code (C09_read_twice_refuted: a non-uniform variable read twice; C09_heavy_dice_refuted: roll() raises OverflowError for a die with more than about 1.8e308 sides); proved when every variable is used at most once or is uniform, and AND, OR, NOT are used where roll() and the README agree"),
 "C10": ("proved", "closed form of the reported counts for all programs; exact when every variable is used at most once or uniform"),
 "C11": ("proved", "for every history of calls on one interpreter"),
 "C12": ("proved", "for every reachable state, every expression (nested assignments included) and every runtime"),
 "C13": ("partial", "false of the code (C13_logic_refuted: 2 AND 1 rolls 0; C13_zero_dice_refuted: 0dN); proved, in both directions, for programs with at least one die per dice term and logic used where roll() and the README agree"),
 "C14": ("partial", "proved for distributions; false of roll() (C14_roll_refuted); proved for roll() when the operands are truth values; C14_agreement says for which integers OR, NOT and AND agree"),
 "C15": ("partial", "false of the code (C15_related_operands_refuted: max of MIN(a, 3 - a); C15_zero_dice_refuted: 0dN); proved for programs with at least one die per dice term whenever the operands of MIN in max() and of MAX in min() go back to no common roll; without that condition they are still bounds, and C15_what_is_returned says what the value is for every program"),
 "C16": ("partial", "false of the code (C16_logic_refuted: (d2 - 2) OR 0; C16_zero_dice_refuted: 0d2 + 0); proved for programs with at least one die per dice term and logic used where roll() and the README agree; the bounds are reached when max() and min() are exact"),
 "C17": ("partial", "distributions, max, min and roll: proved, with sides of multiplicity zero counting as possible for all but roll; without that reading false (C17_impossible_division_refuted)"),
 "C18": ("proved", "for every distribution obtainable through the API with at least one way; get_probability_distributions_dict() as well"),
 "C19": ("partial", "false of the code for means beyond the largest float (C19_overflow_refuted: OverflowError); proved otherwise, for average() and get_average()"),
 "C20": ("proved", "exact rational means"),
 "C21": ("proved", "each entry is within (v - min) * 2^-50 of the exact probability; plots of programs that do not read stdout show the same table"),
 "C22": ("proved", "each entry is within (v - min + 1) * 2^-50 of the exact probability; plots of programs that do not read stdout show the same table"),
 "C23": ("proved", "the (x, weight) pairs and the line handed to matplotlib; gaps have probability 0"),
 "C24": ("partial", "false of the code when the ranges overlap (C24_overlap_refuted, C24_apart: exactly then); proved: the weights, how often each integer is plotted, and that the bar piles up that many times the difference"),
 "C25": ("proved", "every numbered, %, F and custom die, with ranges, multipliers, white space and leading zeros"),
 "C26": ("partial", "false of the code: C26_trailing_comma_refuted, and every custom die with a trailing comma raises ValueError"),
 "C27": ("proved", "for every runtime (iteration order); ValueError exactly for ConstraintSet of an empty set"),
 "C28": ("proved", "for every runtime"),
 "C29": ("partial", "false of the code (C29_complies_refuted: contradictory constraints merge into one that complies with everything); proved when the constraints are jointly satisfiable, and what happens otherwise"),
 "C30": ("proved", "closed form of the members and order independence; C30_empty_values_refuted shows the non-emptiness condition is needed"),
 "C31": ("proved", "for comma-free names; C31_comma_names_refuted shows the condition is needed"),
 "C32": ("proved", "roll, max, min, get_probability_distributions and get_estimated_cost, for every state and every random choice"),
 "C33": ("partial", "false of the code: roll, max and min return the interpreter's own dictionary (C33_live_refuted); proved: entries not assigned by later calls stay, distribution calls change nothing"),
 "C34": ("partial", "false of the code for the name stdout (C34_stdout_refuted); proved for every other name and every call"),
 "C35": ("partial", "false of the code: estimated cost and max()/min() overwrite the values read by rolls (C35_cost_refuted, C35_max_refuted); proved for distribution calls, and for all calls when the rolled program reads no variable they assign"),
 "C36": ("proved", "unset reads fail, with KeyError when nothing else is wrong with the program; a KeyError is always due to an unset variable; which variables are set is characterised by the history of calls"),
 "C37": ("partial", "false of the code for assignments, which report no variables (C37_assignment_refuted); proved for all other expressions and all four operations"),
 "C38": ("partial", "definedness is false of the code for a NOT of a cost that no float can hold (C38_overflow_refuted); proved: OverflowError and a NOT are the only exception (C38_defined_partial), and all the other claims, also on any interpreter that has worked out costs only"),
 "C39": ("proved", "for every text (Latin-1 code points); where neighbouring tokens cannot be confused the lexer also finds exactly the intended ones (C39_finds_the_tokens)"),
 "C40": ("proved", "for every text that does not lex; the tokens before the character are the longest ones (C49)"),
 "C41": ("proved", "for every token sequence and every text"),
 "C42": ("proved", "for every token sequence"),
 "C43": ("proved", "equal means the same tree of the same classes with the same fields; the printed text even has the same tokens"),
 "C44": ("partial", "proved for roll; false of distributions (C44_distribution_refuted)"),
 "C45": ("partial", "false when both interpreters assigned the same name (C45_two_interpreters_refuted); proved for all distributions of two interpreters after any calls (C45_histories_partial) when no name was assigned on both, or one side has no variables"),
 "C46": ("proved", "for all obtainable distributions, shared variables included"),
 "C47": ("partial", "equality is false of the code (C47_same_members_equal_refuted: the printed order decides); equal hashes proved"),
 "C48": ("proved", "dice with fewer than about 1.8e308 sides, above which roll() raises OverflowError (C09_heavy_dice_refuted); random.choices is taken to draw with the exact weights; any number of dice, also 0; AND, OR and NOT as Python computes them on integers"),
 "C50": ("proved", "for every text (Latin-1 code points); rply's source positions and automaton are modelled, see DESIGN.md"),
 "C51": ("partial", "false of the code for integers from 2^52 on (C51_large_refuted) and for comparisons of ranges that overlap or have a gap between them (C51_gap_refuted); proved: the exact conditions, and exactly when no figure is drawn"),
 "C52": ("proved", "the two lists of points and labels handed to matplotlib"),
 "C53": ("proved", "tokens and every interpreter call; the positions in error messages do move"),
 "C54": ("proved", "any interpreter state; for the tables and histograms: one order returns exactly when the other does"),
 "C55": ("proved", "the omitted lines must not raise, except in the roll theorem; the tables need the omitted names to be new"),
 "C56": ("partial", "the last clause is false of the code for a side with a tiny share of its die (C56_never_drawn_refuted); proved when every side has at least 7/2^53 of its die; random.choices and bisect as in CPython 3.9 and later"),
 "C57": ("proved", "the exact conditions of the second clause are those of C09 (good_program, drawable, program_logic_agrees, used_once_or_uniform); dice with fewer than about 1.8e308 sides"),
 "C58": ("proved", "rply's table construction is modelled from its published source (Lalr.v, DESIGN.md); the tables are computed in Coq and compared with the automaton of Parser.v"),
 "C62": ("partial", "false of the code for bools: ProbabilityOutcome accepts True although its message says that it does not (C62_bool_refuted); all the rest is proved"),
 "C63": ("partial", "false of the code for keys that are neither ints nor outcomes: they are not refused, their entries are lost (C63_other_keys_refuted); all the rest is proved"),
 "C64": ("partial", "false of the code for distributions of another interpreter: constraints of the same name are taken to be the same (C64_foreign_refuted); proved for all distributions of this interpreter, now or earlier, new ones, and what operators make of them (C64_variable_partial); the last sentence is the definition of `after` in SpecInterp, over which all theorems about reachable states are stated"),
 "C65": ("proved", "for dice with at least one face listed"),
 "C67": ("proved", "for programs of lines and assignments whose dice have at least one side"),
 "C70": ("partial", "false of the code for parts of earlier lines: a better die in a variable that is read twice can lower the chance of reaching a value (C70_variable_refuted; counts of variables enter as powers, see C44); proved for parts of the last line (C70_improved_partial), for parts of all lines when variables are used once or uniformly distributed (C70_programs), for roll() however often variables are used (C70_roll, where AND, OR and NOT agree with the README), and all claims about faces, numbers of dice, MAX and MIN"),
 "C71": ("partial", "false of the code when letters stand several times: d[1*2,2] in a, the counts of a + a and 2 * a differ (C71_several_refuted; see C44), and false of roll() for numbers under AND, OR and NOT (C71_roll_refuted; see C13); proved for letters that stand once (C71_once), possible results and exceptions in all cases (C71_values, C71_errors), several times when variables are used once or uniformly distributed (C71_several_partial), roll() when AND, OR and NOT agree with the README (C71_roll_partial); the laws themselves are C71_laws_*"),
 "C72": ("partial", "false of the code for reported probabilities: d[1*2,2] in a, a + a is 2 with probability 4/5 and not 2/3 (C72_probability_refuted; see C44); proved when variables are used once or uniformly distributed (C72_probability_partial); proved in all cases: the counts with powers (C72_ways, C72_unused), the possible results, the exceptions, and all that is claimed of roll()"),
 "C76": ("partial", "false of the code for get_average() and get_probability_distributions_dict(): after VAR b = d[1*0] they raise ZeroDivisionError for every program (C76_tables_refuted); proved: their entries agree when they do not raise (C76_tables_partial), and all the other claims; for dice with at least one side"),
 "C77": ("proved", "probabilities and means for dice with at least one side; variances and roll() for dice that can be rolled"),
 "C78": ("proved", "for pools and dice alone in a line; the average of dice without any face counts as 0"),
 "C79": ("proved", "for dice with at least one side and programs that do not raise; the exact averages, of which the floats shown are roundings (C19)"),
 "C80": ("proved", "C80_text from the text of the line; the others for dice and pools alone in a line, for roll() with at least one side and fewer than about 1.8e308"),
 "C81": ("proved", "for dice alone in a line; the exact average, of which the float shown is a rounding (C19)"),
 "C82": ("proved", "for the exact mean and probabilities, and for the tables shown up to the rounding of their entries, summed exactly; Python's sum() of the floats is not modelled"),
 "C83": ("proved", "for last lines that are one operation on the two expressions, and dice that can be rolled; rolls that raise ZeroDivisionError count for no event"),
 "C75": ("proved", "for programs that read only variables they have assigned themselves, also ones that raise ZeroDivisionError; the random numbers are counted over all lists of 53-bit numbers, as in C57"),
 "C74": ("proved", "the calculation has one hole, with the part in it, and no other variables; dice with at least one side, for roll() with fewer than about 1.8e308"),
 "C73": ("proved", "bounds on the rounding, for sums taken exactly; Python's sum() of the floats, which rounds after each addition, is not modelled"),
 "C69": ("partial", "false of the code: Multiply(Add(1, 2), 3) prints 1 + 2 * 3 (C69_regrouped_refuted); proved: the text is always accepted, exactly for which objects it is read as the object itself (C69_round_trip_partial), and all the other claims"),
 "C68": ("proved", "within one process: iteration orders of sets and string hashes are fixed"),
 "C66": ("proved", "for dice with at least one face listed"),
 "C61": ("proved", "for all sessions, with one renaming for all interpreters"),
 "C60": ("partial", "false of the code for reported probabilities when the second line assigns a variable that is used more than once (C60_used_twice_refuted: its results are weighted by powers of their counts, see C44); proved for the distributions otherwise, and without that condition for exceptions, roll, max and min"),
 "C59": ("partial", "false of the code for str() of a distribution, which prints sets (C59_str_refuted); proved for everything else that the session returns"),
 "C49": ("proved", "for every text (Latin-1 code points); the kinds of token never compete for the same text"),
}
names = {}
for f in sorted(glob.glob(os.path.join(ROOT, "rocq/theories/Props*.v"))):
    for m in re.finditer(r"^Theorem (C(\d\d)_\w+)", open(f).read(), re.M):
        names.setdefault("C" + m.group(2), []).append(m.group(1))
claims = []
for l in open(os.path.join(ROOT, "properties.jsonl")):
    i = json.loads(l)["id"]
    if i in TABLE:
        assert i in names, i
        claims.append({"property": i, "status": TABLE[i][0], "theorems": names[i], "note": TABLE[i][1]})
    else:
        assert i not in names, i
        print("no claim for", i)
json.dump({"claims": claims}, open(os.path.join(ROOT, "MANIFEST.json"), "w"), indent=1)
