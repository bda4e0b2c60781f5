#!/usr/bin/env python3
"""Append the results of an automatic mutation run (one JSON line each: file, definition, edit, res) to seeded/LOG.jsonl, once each.
usage: autolog.py out.jsonl [rerun]   -- with rerun, the lines are second attempts at earlier survivors"""
import json, sys, re
V = "/verif"
man = json.load(open(V + "/MANIFEST.json"))
prop = {}
for c in man["claims"]:
    for t in c["theorems"]: prop.setdefault(t, c["property"])
titles = {d["id"]: d["title"] for d in map(json.loads, open(V + "/properties.jsonl"))}
from collections import Counter
def file_prop(f):
    try: s = open(f"{V}/rocq/theories/{f}.v").read()
    except OSError: return None
    m = re.search(r"\bC(\d+)\b", s[:300])
    if m: return "C" + m.group(1)
    c = Counter(prop[t] for t in re.findall(r"(?:Theorem|Lemma|Corollary|Proposition) ([\w']+)", s) if t in prop)
    return c.most_common(1)[0][0] if c else None
log = V + "/seeded/LOG.jsonl"
seen = set()
for l in open(log):
    d = json.loads(l)
    if d.get("operator") == "automatic": seen.add((d["file"], d["definition"], d["edit"], d.get("attempt", 1)))
att = 2 if len(sys.argv) > 2 else 1
n = 0
with open(log, "a") as out:
    for l in open(sys.argv[1]):
        d = json.loads(l)
        if d["res"].startswith("INVALID"): continue
        k = (d["file"] + ".v", d["definition"], d["edit"], att)
        if k in seen: continue
        seen.add(k); n += 1
        r = {"definition": d["definition"], "file": d["file"] + ".v", "edit": d["edit"], "operator": "automatic"}
        if att > 1: r["attempt"] = att
        if d["res"].startswith("caught"):
            f, t = (d["res"].split(":", 1)[1].rsplit(".", 1) + [""])[:2]
            p = prop.get(t) or file_prop(f)
            r["claim"] = titles.get(p, "the specification lemmas of " + f) + " (first failure in " + f + ")"
            r["property"] = p; r["theorems_failed"] = [t]; r["theorems_tightened"] = []
            if att > 1: r["note"] = "survived the first run; caught by theorems added since"
        else:
            r["claim"] = "none found: default value, message or error kind on a branch no input reaches, or an equal function"
            r["property"] = None; r["theorems_failed"] = []; r["theorems_tightened"] = []; r["verdict"] = d["res"]
        out.write(json.dumps(r) + "\n")
print(n, "lines")
