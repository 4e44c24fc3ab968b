#!/usr/bin/env python3
"""Read the project's own tests in /repo/python_dice/test as text and write the values they assert as
build-time checks of the model, rocq/theories/RepoTests.v.  Nothing of /repo is run or imported: the test
files are only parsed, and a test that does not have one of the shapes below is left out and counted."""
import ast
import os
import sys

TESTS = "/repo/python_dice/test"
OUT = os.path.join(os.path.dirname(os.path.abspath(__file__)), "..", "rocq", "theories", "RepoTests.v")

# the number of ways the dice can fall is too large to list for these programs: their rolls are not checked
NO_ROLLS = {"2d4 * d2 + 6d6 // 1d4", "((8d6 + 8) // 2) >= (2d8 + 5)", "((8d6 + 8) // 2) > (3d8 + 5)",
            "((8d6 + 8) // 2) <= (3d8 + 5)", "((8d6 + 8) // 2) < (2d8 + 5)", "18d3k4 == 12", "5d10k2", "5d10d3"}

# this map takes a minute to compute
NO_MAP = {"2d%"}

checks = []          # (file, function, line, coq boolean)
left_out = []


def q(s):
    assert all(c == "\n" or 32 <= ord(c) < 127 for c in s), s
    return " ++ [newline] ++ ".join('$"%s"' % p.replace('"', '""') for p in s.split("\n"))


def text(s):
    r = q(s)
    return "(%s)" % r


def z(n):
    return str(n) if n >= 0 else "(%d)" % n


def zmap(d):
    return "[" + "; ".join("(%s, %s)" % (z(k), z(v)) for k, v in d.items()) + "]"


def zlist(l):
    return "[" + "; ".join(z(v) for v in l) + "]"


def lines(p):
    return "[" + "; ".join(text(l) for l in p) + "]"


def value(node, env=None):
    """the value of a literal expression of the test (numbers, texts, lists, dicts, sums of such)"""
    code = compile(ast.Expression(node), "literal", "eval")
    for n in ast.walk(node):
        if isinstance(n, (ast.Attribute, ast.Call)) and not (isinstance(n, ast.Call) and getattr(n.func, "id", "") == "range"):
            raise ValueError("not a literal")
    return eval(code, {"__builtins__": {}, "range": range}, dict(env or {}))


def functions(path):
    tree = ast.parse(open(os.path.join(TESTS, path)).read())
    for c in tree.body:
        if isinstance(c, ast.ClassDef):
            for f in c.body:
                if isinstance(f, ast.FunctionDef):
                    yield f


def calls(f, name):
    return [n for n in ast.walk(f) if isinstance(n, ast.Call) and isinstance(n.func, ast.Attribute) and n.func.attr == name]


def src(n):
    return ast.unparse(n)


def emit(path, f, b):
    checks.append((path, f.name, f.lineno, b))


# --- syntax/*: what each token's regular expression matches at the start of a text
def syntax_tests():
    for path in sorted(os.listdir(os.path.join(TESTS, "syntax"))):
        if not path.startswith("test_"):
            continue
        p = "syntax/" + path
        name = None
        for f in functions(p):
            if f.name.endswith("get_token_name"):
                name = next(n.value for n in ast.walk(f) if isinstance(n, ast.Constant) and isinstance(n.value, str))
        for f in functions(p):
            if f.name.endswith("_match"):
                cases = next(value(n.value) for n in f.body if isinstance(n, ast.Assign))
                want = "false" if "not_match" in f.name else "true"
                emit(p, f, "matches T_%s %s [%s]" % (name, want, "; ".join(text(c) for c in cases)))
            elif f.name.endswith("get_token_name"):
                emit(p, f, "text_eqb (token_type T_%s) %s" % (name, text(name)))
            else:
                left_out.append((p, f.name))


# --- the lexer: the error messages, the names and the texts of the tokens
def lexer_tests():
    p = "test_python_dice_lexer.py"
    for f in functions(p):
        lexed = calls(f, "lex")
        if not lexed:
            continue
        given = value(lexed[0].args[0])
        if "error" in f.name:
            e = calls(f, "assertEqual")[0]
            emit(p, f, "lex_message %s %s" % (text(given), text(value(e.args[0]))))
            continue
        for e in calls(f, "assertEqual"):
            if "token.value" in src(e.args[1]):
                emit(p, f, "token_texts %s [%s]" % (text(given), "; ".join(text(t) for t in value(e.args[0]))))
            elif src(e.args[1]) == "token.name":
                emit(p, f, "all_tokens %s T_%s" % (text(given), value(e.args[0])))
            else:
                emit(p, f, "token_names %s [%s]" % (text(given), "; ".join("T_" + t for t in value(e.args[0]))))


# --- the parser: parse, then roll, max, min and the result map
def parser_tests():
    p = "test_python_dice_parser.py"
    for f in functions(p):
        parsed = calls(f, "parse")
        if f.name == "test_parser_error":
            loop = next(n for n in f.body if isinstance(n, ast.For))
            for bad in value(loop.iter):
                emit(p, f, "refused %s" % text(bad))
        elif calls(f, "assert_distribution"):
            env = {}
            for n in f.body:
                if isinstance(n, ast.Assign) and isinstance(n.targets[0], ast.Name):
                    env[n.targets[0].id] = value(n.value)
            given = value(parsed[0].args[0])
            e = calls(f, "assert_distribution")[0]
            expected, low, high = (value(a, env) for a in e.args[1:4])
            emit(p, f, "is_max %s %s" % (text(given), z(high)))
            emit(p, f, "is_min %s %s" % (text(given), z(low)))
            emit(p, f, "is_map %s %s" % (text(given), zmap(expected)))
            if given not in NO_ROLLS:
                emit(p, f, "rolls_in %s %s" % (text(given), zlist(expected)))
        elif parsed and "state_var" in f.name:
            program = [value(c.args[0]) for c in sorted(parsed, key=lambda c: c.lineno)]
            for e in calls(f, "assertEqual"):
                name = value(calls(e, "get_var")[0].args[0])
                emit(p, f, "var_map %s %s %s" % (lines(program), text(name), zmap(value(e.args[0]))))
        elif f.name.startswith("test_"):
            left_out.append((p, f.name))


# --- the interpreter
def interpreter_tests():
    p = "test_python_dice_interpreter.py"
    for f in functions(p):
        env = {}
        if "uses_" in f.name or "histogram" in f.name:
            left_out.append((p, f.name))
            continue
        if f.name == "test_estimated_cost":
            for program, cost in value(next(n.value for n in f.body if isinstance(n, ast.Assign))):
                emit(p, f, "is_cost %s %s" % (lines(program), z(cost)))
            continue
        if f.name == "test_probability_distribution_binary_operator":
            m = value(next(n.value for n in f.body if isinstance(n, ast.Assign) and isinstance(n.value, ast.Dict)))
            for op, d in m.items():
                emit(p, f, "var_map %s $\"stdout\" %s" % (lines(["d[-1-1] %s 1" % op]), zmap(d)))
            continue
        origin = {}
        for n in f.body:
            if isinstance(n, ast.Assign) and isinstance(n.targets[0], ast.Name):
                name = n.targets[0].id
                if calls(n.value, "get_probability_distributions"):
                    origin[name] = value(n.value.slice)
                elif name in ("program", "out_come_list"):
                    env[name] = value(n.value)
        program = env["program"]
        # three tests ask for the same program: its distribution is computed once, for all of them
        if f.name == "test_get_probability_distribution_dict":
            shared = value(calls(f, "assertEqual")[0].args[0])
            shared_program = program
            shared_f = f
            continue
        if f.name == "test_get_probability_distribution":
            assert program == shared_program and value(calls(f, "assertEqual")[0].args[0]) == shared
            continue
        if f.name == "test_average":
            assert program == shared_program
            e = calls(f, "assertEqual")[0]
            emit(p, shared_f, "dict_and_average %s %s [%s] (%s)" % (lines(program), text(value(e.args[1].slice)),
                 "; ".join("(%s, %s)" % (z(k), flt(v)) for k, v in shared.items()), flt(value(e.args[0]))))
            continue
        if f.name == "test_roll_single_line":
            emit(p, f, "rolls_in %s %s" % (text(program[0]), zlist(env["out_come_list"])))
            continue
        for e in calls(f, "assertEqual"):
            want, got = e.args
            s = src(got)
            if s.endswith(".get_result_map()"):
                emit(p, f, "var_map %s %s %s" % (lines(program), text(origin[s.split(".")[0]]), zmap(value(want))))
            elif "get_probability_distributions_dict" in s or s.endswith("get_dict_form()"):
                name = origin.get(s.split(".")[0]) or value([n for n in ast.walk(got) if isinstance(n, ast.Subscript)][0].slice)
                d = value(want)
                kind = "dict_all" if "distributions_dict" in s else "dict_form"
                emit(p, f, "%s %s %s [%s]" % (kind, lines(program), text(name),
                     "; ".join("(%s, %s)" % (z(k), flt(v)) for k, v in d.items())))
            elif "get_average" in s:
                emit(p, f, "is_average %s %s %s" % (lines(program), text(value(got.slice)), flt(value(want))))
            elif "get_estimated_cost" in s:
                emit(p, f, "is_cost %s %s" % (lines(program), z(value(want))))
            elif ".max(" in s or ".min(" in s:
                emit(p, f, "is_ext %s %s %s %s" % ("true" if ".max(" in s else "false", lines(program),
                     text(value(got.slice)), z(value(want))))
            else:
                raise Exception(f.name)


def flt(v):
    """the float as its mantissa (53 bits) and exponent"""
    v = float(v)
    if v == 0:
        return "fzero"
    n, d = abs(v).as_integer_ratio()
    e = -(d.bit_length() - 1)
    while n.bit_length() < 53:
        n, e = 2 * n, e - 1
    while n.bit_length() > 53:
        assert n % 2 == 0
        n, e = n // 2, e + 1
    return "S754_finite %s %d (%d)" % ("true" if v < 0 else "false", n, e)


# --- the dice classes
def dice_tests():
    for p, cls in (("expression/test_dice_expression.py", "DiceExpression"),
                   ("expression/test_drop_keep_expression.py", "DropKeepExpression")):
        base = {}
        for f in functions(p):
            env = dict(base)
            for n in f.body:
                if isinstance(n, ast.Assign) and isinstance(n.value, ast.Call) and getattr(n.value.func, "id", "") == cls:
                    env[src(n.targets[0])] = value(n.value.args[0])
            if f.name == "setUp":
                base = env
                continue
            made = {}
            sets = {}
            for n in ast.walk(f):
                if isinstance(n, ast.For):
                    c = n.body[0].value
                    sets[c.func.value.id] = src(c.args[0].func.value)
            if "add_production" in f.name:
                left_out.append((p, f.name))
                continue
            for e in calls(f, "assertEqual") + calls(f, "assertSetEqual"):
                want, got = e.args
                if src(want) in sets:
                    want, got = got, want
                s = src(got)
                if s in sets:
                    emit(p, f, "rolls_are %s %s" % (text(env[sets[s]]), zlist(sorted(value(want)))))
                    continue
                if s.split("(")[0] in ("len", "max", "min") and s.split("(")[1][:-1] in sets:
                    d = env[sets[s.split("(")[1][:-1]]]
                    if d in NO_ROLLS:
                        left_out.append((p, f.name))
                        continue
                    emit(p, f, "rolls_%s %s %s" % (s.split("(")[0], text(d), z(value(want))))
                    continue
                if s.startswith("str("):
                    emit(p, f, "is_str %s %s" % (text(env[s[4:-1]]), text(value(want))))
                    continue
                dice, method = s.split(".get_probability_distribution()")[0], s
                if s.endswith(".get_probability_distribution().get_result_map()"):
                    d = env[s[:-len(".get_probability_distribution().get_result_map()")]]
                    if d in NO_MAP:
                        left_out.append((p, f.name))
                        continue
                    if "Counter" in src(want):
                        ranges = [n for n in ast.walk(f) if isinstance(n, ast.Call) and src(n.func) == "itertools.product"][0]
                        r, k = value(ranges.args[0]), value(ranges.keywords[0].value)
                        emit(p, f, "is_map %s (counted %s %s)" % (text(d), zlist(list(r)), k))
                    else:
                        emit(p, f, "is_map %s %s" % (text(d), zmap(value(want))))
                    continue
                obj, m = s.rsplit(".", 1)
                d = env[obj]
                if m == "get_contained_variables()":
                    emit(p, f, "no_variables %s" % text(d))
                elif m in ("max()", "min()"):
                    emit(p, f, "is_%s %s %s" % (m[:3], text(d), z(value(want))))
                elif m == "estimated_cost()":
                    emit(p, f, "is_cost [%s] %s" % (text(d), z(value(want))))
                else:
                    raise Exception(f.name)
    p = "expression/test_dice_expression_helper.py"
    for f in functions(p):
        e = calls(f, "assertEqual")[0]
        emit(p, f, "die_map %s %s" % (text(value(e.args[1].args[0])), zmap(value(e.args[0]))))


# --- the operators: each operand of the test is a mock with a fixed roll and a fixed distribution.  The roll
# is checked with two integers in place of the operands, the rest with two dice that have the distributions
def operator_tests():
    folder = os.path.join(TESTS, "expression")
    infix = {"AddExpression": "+", "SubtractExpression": "-", "MultiplyExpression": "*", "IntegerDivisionExpression": "//"}
    wanted = [x for x in sorted(os.listdir(folder)) if x.startswith("test_binary_operator") or x in
              ("test_add_expression.py", "test_subtract_expression.py", "test_multiply_expression.py",
               "test_integer_division_expression.py", "test_minmax_expression.py", "test_abs_expression.py")]
    for path in wanted:
        p = "expression/" + path
        base = None
        for f in functions(p):
            rolls, dists, tops, lows, strs, costs, names, made = [dict(d) for d in base] if base else [{} for _ in range(8)]

            def index(n):
                return value(n.slice) if isinstance(n, ast.Subscript) else 0
            for n in f.body:
                if not isinstance(n, ast.Assign):
                    continue
                t = n.targets[0]
                s = src(t)
                if s.endswith(".roll.return_value"):
                    rolls[index(t.value.value)] = value(n.value)
                elif s.endswith(".get_probability_distribution.return_value"):
                    dists[index(t.value.value)] = value(n.value.args[0])
                elif s.endswith(".max.return_value"):
                    tops[index(t.value.value)] = value(n.value)
                elif s.endswith(".min.return_value"):
                    lows[index(t.value.value)] = value(n.value)
                elif s.endswith(".__str__.return_value"):
                    strs[index(t.value.value)] = value(n.value)
                elif s.endswith(".estimated_cost.return_value"):
                    costs[index(t.value.value)] = value(n.value)
                elif s.endswith(".get_contained_variables.return_value"):
                    names[index(t.value.value)] = sorted(value(n.value))[0].replace(" ", "_")
                elif isinstance(n.value, ast.Call) and src(n.value.func).endswith("Expression") and s.startswith("self._test"):
                    args = n.value.args
                    op = args[0].value if isinstance(args[0], ast.Constant) else None
                    made[s] = (src(n.value.func), op, [index(a) for a in args if not isinstance(a, ast.Constant)])
            if f.name == "setUp":
                base = (rolls, dists, tops, lows, strs, costs, names, made)
                continue

            def program(obj, leaf):
                cls, op, at = made[obj]
                a = [leaf(i) for i in at]
                if cls in infix:
                    return "%s %s %s" % (a[0], infix[cls], a[1])
                if cls == "BinaryOperatorExpression":
                    return "%s %s %s" % (a[0], op, a[1])
                if cls == "MinMaxExpression":
                    return "%s(%s, %s)" % (op, a[0], a[1])
                return {"AbsExpression": "ABS(%s)", "NotExpression": "!%s"}[cls] % a[0]

            def die(i):
                return "d[%s]" % ",".join("%d*%d" % vc for vc in dists[i].items())
            for e in calls(f, "assertEqual"):
                want, got = e.args
                s = src(got)
                if s.endswith(".roll()"):
                    emit(p, f, "rolls_are %s [%s]" % (text(program(s[:-7], lambda i: str(rolls[i]))), z(value(want))))
                elif s.endswith(".get_probability_distribution().get_result_map()"):
                    o = s[:-len(".get_probability_distribution().get_result_map()")]
                    emit(p, f, "is_map %s %s" % (text(program(o, die)), zmap(value(want))))
                elif s.endswith(".max()") or s.endswith(".min()"):
                    # MinMaxExpression asks its operands for max() and min(), the others for the distribution
                    extremes = tops if s.endswith(".max()") else lows
                    leaf = (lambda i: str(extremes[i])) if "minmax" in p else die
                    emit(p, f, "is_%s %s %s" % (s[-5:-2], text(program(s[:-6], leaf)), z(value(want))))
                elif s.startswith("str("):
                    emit(p, f, "is_str %s %s" % (text(program(s[4:-1], strs.get)), text(value(want))))
                elif s.endswith(".estimated_cost()"):
                    o = s[:-len(".estimated_cost()")]
                    emit(p, f, "is_cost [%s] %s" % (text(program(o, lambda i: "d%d" % costs[i])), z(value(want))))
                else:
                    left_out.append((p, f.name))
            for e in calls(f, "assertSetEqual"):
                want, got = e.args
                o = src(got)[:-len(".get_contained_variables()")]
                expected = sorted(n.replace(" ", "_") for n in value(want))
                emit(p, f, "variables %s [%s]" % (text(program(o, names.get)), "; ".join(text(n) for n in expected)))
            for e in calls(f, "assertRaises"):
                o, m = src(e.args[1]).rsplit(".", 1)
                if m == "roll":
                    emit(p, f, "roll_zero_division %s" % text(program(o, lambda i: str(rolls[i]))))
                elif m in ("max", "min"):
                    emit(p, f, "ext_zero_division %s %s" % ("true" if m == "max" else "false", text(program(o, die))))
                else:
                    emit(p, f, "dist_zero_division %s" % text(program(o, die)))
            if not (calls(f, "assertEqual") or calls(f, "assertRaises") or calls(f, "assertSetEqual")):
                left_out.append((p, f.name))


# --- ProbabilityDistribution
def distribution_tests():
    p = "probability_distribution/test_probability_distribution.py"
    method = {"max_operator": "VMax", "min_operator": "VMin", "__equal__": "VEq", "__not_equal__": "VNe", "__and__": "VAnd",
              "__or__": "VOr"}
    binop = {ast.Add: "VAdd", ast.Sub: "VSub", ast.Mult: "VMul", ast.FloorDiv: "VDiv"}
    cmpop = {ast.Lt: "VLt", ast.LtE: "VLe", ast.Gt: "VGt", ast.GtE: "VGe"}
    base = {}
    for f in functions(p):
        env = dict(base)

        def dist(n):
            s = src(n)
            if s in env:
                return env[s]
            if isinstance(n, ast.Call) and src(n.func) == "ProbabilityDistribution":
                return "(made %s)" % zmap(value(n.args[1]))
            if isinstance(n, ast.Call) and src(n.func) == "abs":
                return "(changed o_abs %s)" % dist(n.args[0])
            if isinstance(n, ast.Call) and n.func.attr == "not_operator":
                return "(changed o_not %s)" % dist(n.func.value)
            if isinstance(n, ast.Call) and n.func.attr in method:
                return "(joined %s %s %s)" % (method[n.func.attr], dist(n.func.value), dist(n.args[0]))
            if isinstance(n, ast.BinOp):
                return "(joined %s %s %s)" % (binop[type(n.op)], dist(n.left), dist(n.right))
            if isinstance(n, ast.Compare):
                return "(joined %s %s %s)" % (cmpop[type(n.ops[0])], dist(n.left), dist(n.comparators[0]))
            raise KeyError(s)
        if "_non_" in f.name or "histogram" in f.name or "at_least" in f.name or "at_most" in f.name or "compare" in f.name or "average" in f.name:
            # TypeErrors (not modelled), images, and the tests with delta=1e8, which assert nothing
            left_out.append((p, f.name))
            continue
        for n in f.body:
            if isinstance(n, ast.Assign):
                try:
                    env[src(n.targets[0])] = dist(n.value)
                except (KeyError, AttributeError):
                    pass
        if f.name == "setUp":
            base = env
            continue
        for e in calls(f, "assertEqual"):
            want, got = e.args
            if isinstance(got.func, ast.Name):
                emit(p, f, "printed %s %s" % (dist(got.args[0]), text(value(want))))
                continue
            m = got.func.attr
            d = dist(got.func.value)
            if m == "get_result_map":
                emit(p, f, "map_is %s %s" % (d, zmap(value(want))))
            elif m == "get_dict_form":
                emit(p, f, "dict_is %s [%s]" % (d, "; ".join("(%s, %s)" % (z(k), flt(v)) for k, v in value(want).items())))
            elif m in ("max", "min"):
                emit(p, f, "ext_is %s %s %s" % ("true" if m == "max" else "false", d, z(value(want))))
            elif m == "contains_zero":
                emit(p, f, "zero_is %s %s" % (d, "true" if value(want) else "false"))
            else:
                left_out.append((p, f.name))
    # ProbabilityOutcome with real constraint sets
    p = "probability_distribution/test_intergration_probability_outcome.py"
    for f in functions(p):
        made = [n for n in f.body if isinstance(n, ast.Assign) and src(n.targets[0]) == "new_probability_outcome"]
        if not made:
            if f.name != "setUp":
                left_out.append((p, f.name))
            continue
        n = made[0].value
        if isinstance(n, ast.Call):
            op = method[n.func.attr]
        elif isinstance(n, ast.BinOp):
            op = binop[type(n.op)]
        else:
            op = cmpop[type(n.ops[0])]
        e = calls(f, "assertEqual")[0]
        w = e.args[0]
        if isinstance(w, ast.Call):
            expected = {"max": max, "min": min}[src(w.func)](*[value(a) for a in w.args])
        else:
            expected = value(w)
        emit(p, f, "outcome_is %s %s" % (op, z(expected)))


syntax_tests()
lexer_tests()
parser_tests()
interpreter_tests()
dice_tests()
operator_tests()
distribution_tests()

out = []
last = None
names = {}
for path, fn, line, b in checks:
    key = os.path.basename(path)[5:-3] + "__" + fn[5:]
    names[key] = names.get(key, 0) + 1
    if path != last:
        out.append("\n(** ** python_dice/test/%s *)" % path)
        last = path
    suffix = "" if names[key] == 1 else "_%d" % names[key]
    out.append("Definition %s%s : unit := ltac:(passes (%s)).  (* :%d *)" % (key, suffix, b, line))

body = open(OUT).read() if os.path.exists(OUT) else ""
MARK = "(** GENERATED from here on by tools/gen_repo_tests.py *)"
head = body.split(MARK)[0]
open(OUT, "w").write(head + MARK + "\n" + "\n".join(out) + "\n")
tests = {(p, f) for p, f, _, _ in checks}
print("%d checks from %d test functions; %d left out" % (len(checks), len(tests), len(set(left_out) - tests)))
if "-v" in sys.argv:
    for x in sorted(set(left_out) - tests):
        print(x)
