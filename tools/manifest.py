#!/usr/bin/env python3
"""Regenerates MANIFEST.json from the table below; checks that every theorem exists."""
import json, re, glob, os
root = os.path.dirname(os.path.dirname(os.path.abspath(__file__)))
T = []
def c(pid, status, thms, note=""):
    T.append({"property": pid, "status": status, "theorems": thms.split(), "note": note})
exec(open(os.path.join(root, "tools", "claims.txt")).read())
src = "".join(open(f).read() for f in glob.glob(root + "/rocq/theories/*.v"))
names = set(re.findall(r"^\s*(?:Theorem|Lemma|Corollary)\s+(\w+)", src, re.M))
for x in T:
    for t in x["theorems"]:
        if t not in names: print("MISSING", x["property"], t)
ids = [json.loads(l)["id"] for l in open(root + "/properties.jsonl")]
have = {x["property"] for x in T}
print("unclaimed:", [i for i in ids if i not in have])
T.sort(key=lambda x: x["property"])
open(root + "/MANIFEST.json", "w").write(
    '{"claims": [\n' + ",\n".join(" " + json.dumps(x) for x in T) + "\n]}\n")
