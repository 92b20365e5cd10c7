#!/usr/bin/env python3
"""Generate theories/Properties*.v from theories/*Laws.v.

Every `Lemma Cnn_name_lemma : statement.` of a Laws file becomes
`Theorem Cnn_name : statement. Proof. exact Cnn_name_lemma. Qed.` followed by
Print Assumptions; `Lemma Cnn_name_nonvacuous_lemma` becomes an Example. The
property files therefore contain nothing but statements.  Comments (** ... *)
directly above a lemma are copied."""
import re, glob, os
D = os.path.join(os.path.dirname(os.path.abspath(__file__)), "..", "rocq", "theories")
PAT = re.compile(r'((?:\(\*\*(?:(?!\*\)).)*\*\)\s*)?)Lemma (C\d\d_\w+)_lemma\b(.*?)\nProof\.', re.S)
names = []
for f in sorted(glob.glob(os.path.join(D, "*Laws.v"))):
    src = open(f).read()
    base = os.path.basename(f)[:-len("Laws.v")]
    head = "\n".join(l for l in src.split("\n")
                     if re.match(r'(From .*Require|Import |Local Open Scope|Set Implicit)', l))
    out = ["(** Generated by tools/genprops.py from %sLaws.v: property statements only. *)" % base,
           head, "From Verif Require Import %sLaws." % base, ""]
    for m in PAT.finditer(src):
        com, name, stmt = m.group(1), m.group(2), m.group(3).rstrip()
        ex = name.endswith("nonvacuous") or "_nonvacuous_" in name
        kind = "Example" if ex else "Theorem"
        out.append("%s%s %s%s\nProof. exact %s_lemma. Qed." % (com, kind, name, stmt, name))
        if not ex:
            out.append("Print Assumptions %s." % name)
            names.append(name)
        out.append("")
    open(os.path.join(D, "Properties%s.v" % base), "w").write("\n".join(out))
print(len(names), "theorems")
open("/tmp/w/names.txt","w").write("\n".join(names)) if os.path.isdir("/tmp/w") else None
