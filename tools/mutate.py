#!/usr/bin/env python3
"""Mutation testing of the theorems.

usage: mutate.py SCRATCH NAME FILE OLD NEW
Copies the (built) rocq directory to SCRATCH/NAME, replaces OLD by NEW in theories/FILE, and recompiles what depends on
it.  A proof that no longer goes through is replaced by an open one in the scratch copy and compilation goes on; at the
end the theorems of the Props files that fail, or that depend on a failed proof, are listed."""
import json, os, re, shutil, subprocess, sys, time
OPEN = "Admit" + "ted."
scratch, name, fname, old, new = sys.argv[1:6]
src = os.environ.get("MUT_SRC") or os.path.join(os.path.dirname(os.path.abspath(__file__)), "..", "rocq")
dst = os.path.join(scratch, name)
shutil.rmtree(dst, ignore_errors=True)
shutil.copytree(src, dst, copy_function=shutil.copy2)
T = os.path.join(dst, "theories")
files = [l.strip().split("/")[1] for l in open(os.path.join(dst, "_CoqProject")) if l.startswith("theories/")]
txt = {f: open(os.path.join(T, f)).read() for f in files}
assert txt[fname].count(old) == 1, "OLD occurs %d times" % txt[fname].count(old)
txt[fname] = txt[fname].replace(old, new)
open(os.path.join(T, fname), "w").write(txt[fname])
deps = {}
for f in files:
    m = re.findall(r"From Verif Require Import ([^.]*)\.", txt[f])
    deps[f] = [w + ".v" for x in m for w in x.split()]
order = []
def visit(f):
    if f in deps and f not in order:
        for d in deps[f]:
            visit(d)
        order.append(f)
for f in list(files):
    visit(f)
files = order
dirty, failed, notes = set(), {}, []
def compile(f, limit):
    t = open(os.path.join(T, "_time"), "w")
    try:
        r = subprocess.run("ulimit -v 9000000; coqc -time -Q . Verif %s" % f, shell=True, cwd=T, stdout=t, stderr=subprocess.PIPE,
                           timeout=limit, executable="/bin/bash")
        return r.returncode, r.stderr.decode(errors="replace")
    except subprocess.TimeoutExpired:
        subprocess.run("pkill -f 'coqc.*Verif %s'" % f, shell=True)
        return 1, "TIMEOUT"
tainted = {}
for f in files:
    if f != fname and not any(d in dirty for d in deps[f]):
        continue
    dirty.add(f)
    started = False
    while True:
        rc, err = compile(f, 400)
        if rc == 0:
            break
        s = open(os.path.join(T, f)).read()
        b = s.encode()
        m = re.search(r'File "\./%s", line (\d+), characters (\d+)-(\d+)' % re.escape(f), err)
        if m and "TIMEOUT" not in err:
            ls = b.split(b"\n")
            off = sum(len(x) + 1 for x in ls[:int(m.group(1)) - 1]) + int(m.group(2))
        else:
            c = re.findall(r"Chars (\d+) - (\d+)", open(os.path.join(T, "_time")).read())
            off = int(c[-1][1]) + 1 if c else 0
        off = len(b[:off].decode(errors="replace"))
        head = [x for x in re.finditer(r"^[ ]*(?:Local |Global )?(Lemma|Theorem|Example|Corollary|Fact|Remark|Instance)\s+(\w+)", s, re.M) if x.start() <= off]
        lem = head[-1].group(2) if head else "?"
        ps = [x for x in re.finditer(r"\bProof\b[^.]*\.", s) if x.start() <= off and x.start() > (head[-1].start() if head else 0)]
        qs = re.compile(r"\b(Qed|Defined)\.").search(s, off)
        if not head or not ps or not qs or (f, lem) in failed:
            notes.append("%s: statement of %s does not check any more: %s" % (f, lem, " ".join(err.split())[:300]))
            # drop the whole statement if it is in a Props file
            if f.startswith("Props") and head and qs:
                nxt = qs.end()
                s = s[:head[-1].start()] + s[nxt:]
                s = re.sub(r"^Print Assumptions %s\.\n" % lem, "", s, flags=re.M)
                failed[(f, lem)] = "statement"
                open(os.path.join(T, f), "w").write(s)
                continue
            tainted[f] = True
            break
        failed[(f, lem)] = " ".join(err.split("\n", 1)[-1].split())[:160]
        s = s[:ps[-1].start()] + "Proof. " + OPEN + s[qs.end():]
        if not started:
            s = "Unset Keep Admitted Variables.\n" + s; started = True
        open(os.path.join(T, f), "w").write(s)
    if tainted:
        notes.append("stopped at " + f)
        break
thms = []
for f in files:
    if f.startswith("Props") and f in dirty and f not in tainted and os.path.exists(os.path.join(T, f + "o")):
        out = open(os.path.join(T, f)).read()
        names = re.findall(r"^Theorem (\w+)", out, re.M)
        q = "From Verif Require %s.\n" % f[:-2] + "".join("Print Assumptions Verif.%s.%s.\n" % (f[:-2], n) for n in names)
        open(os.path.join(T, "zz.v"), "w").write(q)
        r = subprocess.run("coqc -Q . Verif zz.v", shell=True, cwd=T, capture_output=True, text=True)
        parts = re.split(r"(?=^Closed under|^Axioms:)", r.stdout, flags=re.M)[1:]
        for n, p in zip(names, parts):
            if p.startswith("Axioms:"):
                thms.append(n)
for (f, l) in failed:
    if f.startswith("Props") and l not in thms:
        thms.append(l)
res = {"name": name, "file": fname, "old": old, "new": new, "failed": sorted(set(thms)), "lemmas": ["%s:%s" % k for k in failed], "notes": notes}
open(os.path.join(scratch, name + ".json"), "w").write(json.dumps(res, indent=1))
shutil.rmtree(dst, ignore_errors=True)
print(json.dumps(res, indent=1))
