#!/usr/bin/env python3
"""Writes sections 4 and 5 of DESIGN.md from the headers of the model files and MANIFEST.json."""
import glob, json, os, re
root = os.path.join(os.path.dirname(os.path.abspath(__file__)), "..")
def header(f):
    s = open(f).read(); i = s.index("(**"); d = 0; j = i
    while True:
        if s.startswith("(*", j): d += 1; j += 2
        elif s.startswith("*)", j):
            d -= 1; j += 2
            if d == 0: break
        else: j += 1
    t = s[i + 3:j - 2].strip("* \n")
    return re.sub(r"\s+", " ", t)
out = open(os.path.join(root, "DESIGN.md")).read()
out = out[:out.index("## 4. Modelled / not modelled")]
out += """## 4. Modelled / not modelled

Each model file starts with what it covers and what it leaves out; every definition cites its lines. The headers:

"""
for f in sorted(glob.glob(os.path.join(root, "rocq/theories/*_Model.v"))):
    out += "* `%s`: %s\n" % (os.path.basename(f), header(f).replace("|", "\\|"))
out += open(os.path.join(root, "tools/not_modelled.md")).read()
n = sum(len(c["theorems"]) for c in json.load(open(os.path.join(root, "MANIFEST.json")))["claims"])
out += """
## 5. Print Assumptions

Every property theorem is followed by `Print Assumptions` in its file. For all %d theorems named in MANIFEST.json
the answer is

    Closed under the global context

so no axiom is used, neither of the standard library nor of our own. (The context `coqchk` prints for the whole
library lists parameters of the module type `Coq.ssr.ssrunder.Under_rel`, which belong to the ssreflect plugin's
library file loaded by the standard library; no theorem depends on them.)
""" % n
open(os.path.join(root, "DESIGN.md"), "w").write(out)
