#!/usr/bin/env python3
"""After a build: list, for every theorem of MANIFEST.json, the axioms Print Assumptions
shows; writes /verif/AXIOMS.md."""
import json, re, subprocess, os, glob, collections
root = "/verif"
th = root + "/rocq/theories"
names = []
for f in sorted(glob.glob(th + "/Properties*.v")):
    mod = os.path.basename(f)[:-2]
    for m in re.finditer(r"^(?:Theorem|Example) (\w+)", open(f).read(), re.M):
        names.append((mod, m.group(1)))
src = "".join("From Verif Require %s.\n" % m for m in sorted({m for m, _ in names}))
src += "From Coq Require Import String.\nLocal Open Scope string_scope.\n"
for m, n in names:
    src += 'Eval compute in "@@%s".\nPrint Assumptions %s.%s.\n' % (n, m, n)
os.makedirs("/tmp/ax", exist_ok=True)
open("/tmp/ax/Ax.v", "w").write(src)
out = subprocess.run(["coqc", "-Q", th, "Verif", "/tmp/ax/Ax.v"], capture_output=True, text=True)
assert out.returncode == 0, out.stderr[:2000]
cur, res = None, collections.OrderedDict()
for line in out.stdout.splitlines():
    m = re.search(r'"@@(\w+)"', line)
    if m:
        cur = m.group(1); res[cur] = []
    elif cur and not line.startswith(" ") and line.strip() and not line.startswith("Axioms:") and "Closed under" not in line:
        n = line.split(" :")[0].strip()
        if n != "": res[cur].append(n.split(".")[-1] if n.startswith("FunctionalExt") else n)
groups = collections.OrderedDict()
for n, a in res.items():
    groups.setdefault(tuple(sorted(set(a))), []).append(n)
with open(root + "/AXIOMS.md", "w") as f:
    f.write("# What Print Assumptions lists for each theorem\n\nGenerated by tools/axioms.py; all axioms are those of Coq's standard library.\n")
    for a, ns in sorted(groups.items(), key=lambda p: len(p[0])):
        f.write("\n## " + (", ".join("`%s`" % x for x in a) if a else "Closed under the global context (no axioms)") + "\n\n")
        f.write("%d theorems: " % len(ns) + ", ".join(ns) + "\n")
print({k: len(v) for k, v in groups.items()})
