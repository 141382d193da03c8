#!/usr/bin/env python3
"""Writes MANIFEST.json from the claims below."""
import json, os, re
HERE = os.path.dirname(os.path.abspath(__file__))
ROOT = os.path.dirname(HERE)
claims = []
def c(prop, status, theorems, note=""):
    claims.append({"property": prop, "status": status, "theorems": theorems, "note": note})

exec(open(os.path.join(HERE, "claims.py")).read())

# every theorem named must exist
names = set()
for f in os.listdir(os.path.join(ROOT, "rocq/theories")):
    if f.endswith(".v"):
        t = open(os.path.join(ROOT, "rocq/theories", f)).read()
        names |= set(re.findall(r"\b(?:Theorem|Lemma|Corollary|Proposition|Fact|Remark)\s+([\w']+)", t))
listed = set()
for cl in claims:
    for t in cl["theorems"]:
        assert t in names, t
        listed.add(t)
    if cl["status"] == "proved":
        assert cl["theorems"] and not any("_partial" in t or "_refuted" in t for t in cl["theorems"]), cl
extra = sorted(n for n in names if re.match(r"C\d\d_", n) and n not in listed)
if extra:
    print("not listed:", extra)
props = [json.loads(l)["id"] for l in open(os.path.join(ROOT, "properties.jsonl"))]
print("no claim yet:", [p for p in props if p not in {cl["property"] for cl in claims}])
json.dump({"claims": claims}, open(os.path.join(ROOT, "MANIFEST.json"), "w"), indent=1)
