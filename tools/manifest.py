#!/usr/bin/env python3
"""Write MANIFEST.json from the theorems in theories/Properties*.v and the notes below."""
import re, glob, os, json
R = os.path.join(os.path.dirname(os.path.abspath(__file__)), "..")
NOTES = json.load(open(os.path.join(R, "tools", "notes.json")))
th = {}
for f in sorted(glob.glob(os.path.join(R, "rocq", "theories", "Properties*.v"))):
    for m in re.finditer(r'^Theorem ((C\d\d)_\w+)', open(f).read(), re.M):
        th.setdefault(m.group(2), []).append(m.group(1))
claims = []
for line in open(os.path.join(R, "properties.jsonl")):
    pid = json.loads(line)["id"]
    if pid not in th and pid not in NOTES: continue
    st, note = NOTES.get(pid, ["proved", ""])
    claims.append({"property": pid, "status": st, "theorems": th.get(pid, []), "note": note})
json.dump({"claims": claims}, open(os.path.join(R, "MANIFEST.json"), "w"), indent=1)
print(len(claims), "claims")
