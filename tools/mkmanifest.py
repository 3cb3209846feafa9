#!/usr/bin/env python3
"""Writes MANIFEST.json from the table below and checks that every theorem exists."""
import json, os, re, glob
ROOT = os.path.join(os.path.dirname(os.path.abspath(__file__)), "..")
C = []
def c(prop, status, theorems, note=""):
    C.append({"property": prop, "status": status, "theorems": theorems.split(), "note": note})

exec(open(os.path.join(ROOT, "tools", "claims.py")).read())

src = "\n".join(open(f).read() for f in glob.glob(os.path.join(ROOT, "rocq/theories/*.v")))
names = set(re.findall(r"^\s*Theorem\s+(\w+)", src, re.M))
used = [t for x in C for t in x["theorems"]]
for t in used:
    if t not in names: print("MISSING", t)
for t in sorted(names):
    if re.match(r"C\d\d", t) and t not in used: print("UNLISTED", t)
props = [json.loads(l)["id"] for l in open(os.path.join(ROOT, "properties.jsonl"))]
done = [x["property"] for x in C]
print("props", len(props), "claims", len(done), "todo:", [p for p in props if p not in done])
json.dump({"claims": C}, open(os.path.join(ROOT, "MANIFEST.json"), "w"), indent=1)
