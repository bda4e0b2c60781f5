#!/usr/bin/env python3
"""Regenerates MANIFEST.json from the claim table below and checks every theorem name exists."""
import json, re, glob, os
here = os.path.dirname(os.path.dirname(os.path.abspath(__file__)))
src = "\n".join(open(f).read() for f in glob.glob(here + "/rocq/theories/*.v"))
names = set(re.findall(r"\b(?:Theorem|Lemma|Corollary|Proposition|Fact|Remark)\s+([A-Za-z0-9_']+)", src))
claims = []
for line in open(here + "/tools/claims.txt"):
    line = line.strip()
    if not line or line.startswith("#"): continue
    pid, status, thms, note = [x.strip() for x in line.split("|", 3)]
    thms = thms.split()
    for t in thms:
        if t not in names: print("MISSING", pid, t)
    claims.append(dict(property=pid, status=status, theorems=thms, note=note))
json.dump({"claims": claims}, open(here + "/MANIFEST.json", "w"), indent=1)
print(len(claims), "claims")
