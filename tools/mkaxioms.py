#!/usr/bin/env python3
"""Prints a markdown table: axiom set -> theorems of MANIFEST.json that depend on it.
Needs a finished build in rocq/."""
import json, os, re, subprocess, sys, tempfile
root = "/verif/rocq"
m = json.load(open("/verif/MANIFEST.json"))
ths = []
def walk(x):
    if isinstance(x, dict):
        for k, v in x.items():
            if k == "theorems":
                for t in v:
                    ths.append(t if isinstance(t, str) else t.get("name"))
            else:
                walk(v)
    elif isinstance(x, list):
        for v in x: walk(v)
walk(m)
ths = sorted({t.split(".")[-1] for t in ths})
mods = sorted(f[:-2] for f in os.listdir(root + "/theories") if f.startswith("Prop") and f.endswith(".v"))
src = "".join("From Verif Require %s.\n" % k for k in mods)
where = {}
for k in mods:
    for t in re.findall(r"^Theorem (\w+)", open("%s/theories/%s.v" % (root, k)).read(), re.M):
        where[t] = k
for t in ths:
    src += 'Fail Check "%s".\nPrint Assumptions %s.%s.\n' % (t, where[t], t)
d = tempfile.mkdtemp()
open(d + "/A.v", "w").write("Require Import String. Open Scope string_scope.\n" + src.replace("Fail Check", "Check"))
out = subprocess.run(["coqc", "-Q", root + "/theories", "Verif", d + "/A.v"], capture_output=True, text=True).stdout
cur, sets = None, {}
for l in out.splitlines():
    k = re.match(r'^"(C\w+)"$', l)
    if k: cur = k.group(1); sets[cur] = set(); continue
    a = re.match(r"^([A-Za-z_0-9]+\.[A-Za-z_.0-9]+)( :|$)", l)
    if a and cur: sets[cur].add(a.group(1))
groups = {}
for t, s in sets.items(): groups.setdefault(tuple(sorted(s)), []).append(t)
missing = [t for t in ths if t not in sets]
print("missing:", missing, file=sys.stderr)
for s, l in sorted(groups.items(), key=lambda x: (len(x[0]), x[0])):
    print("| %s | %d | %s |" % (", ".join("`%s`" % x for x in s) or "none (closed under the global context)", len(l), ", ".join(l)))
