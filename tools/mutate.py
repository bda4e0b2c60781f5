#!/usr/bin/env python3
"""Mutation testing of the theorems.  Usage: mutate.py mutants.json [workers]
mutants.json: list of {file, definition, old, new, claim, property, [only], [tightened], [expect]}.  Each edit is applied to a
scratch copy of rocq/ in /tmp/mut<i>; every dependent file (restricted to the comma separated name prefixes in [only], if given)
is recompiled without proofs (coqc -vos) and then all its proofs are replayed in coqtop, so that every proof that no longer
goes through is found; a theorem is recorded as failed when its proof fails or uses (textually, transitively) one that does.
One JSON line per mutant is appended to seeded/LOG.jsonl."""
import json, re, os, sys, subprocess, shutil, threading, queue, resource
V = "/verif"; TIMEOUT = 900; MEM = 5 * 2**30
order = [l.strip().split("/")[-1][:-2] for l in open(V + "/rocq/_CoqProject") if l.strip().endswith(".v")]
def deps(f):
    s = open(f"{V}/rocq/theories/{f}.v").read()
    out = set()
    for m in re.findall(r"From Verif Require (?:Import|Export) ([^.]*)\.", s): out |= set(m.split())
    return out
def topo():
    D = {g: deps(g) for g in order}; out = []
    def visit(g):
        if g in out: return
        for h in sorted(D[g]):
            if h in D: visit(h)
        out.append(g)
    for g in order: visit(g)
    return out
order = topo()
def dependents(f):
    hit = {f}
    for g in order:
        if deps(g) & hit: hit.add(g)
    return [g for g in order if g in hit]
def select(f, only):
    """the dependents of f to rebuild: all, or those matching a prefix in [only] plus every dependent they need"""
    dep = dependents(f)
    if not only: return dep
    want = {f} | {g for g in dep if any(g.startswith(o) for o in only.split(","))}
    for g in reversed(dep):
        if g in want: want |= deps(g) & set(dep)
    return [g for g in dep if g in want]
STMT = re.compile(r"^[ \t]*(?:Local )?(Theorem|Lemma|Corollary|Proposition|Fact|Remark|Example)\s+([A-Za-z0-9_']+)", re.M)
END = re.compile(r"\b(Qed|Defined)\.")
def lim(): resource.setrlimit(resource.RLIMIT_AS, (MEM, MEM))
def chunks(s):
    s = re.sub(r"^Print Assumptions.*$", "", s, flags=re.M)
    pos = 0
    for m in STMT.finditer(s):
        if m.start() < pos: continue
        e = END.search(s, m.start())
        if not e: continue
        yield None, None, s[pos:m.start()]
        yield m.group(1), m.group(2), s[m.start():e.end()]
        pos = e.end()
    yield None, None, s[pos:]
def replay(M, g):
    """-> (list of (kind, name, text)), set of failing names, note"""
    src = open(f"{M}/theories/{g}.v").read(); out = ["Set Default Timeout 60.\n"]; cs = list(chunks(src))
    for i, (k, n, t) in enumerate(cs):
        out.append(f"\nCheck MARKA_{i}_.\n" + t)
        if n: out.append(f"\nCheck MARKB_{i}_.\nCheck @{n}.\nCheck MARKC_{i}_.\nAdmitted.\n")
    out.append("\nCheck MARKA_END_.\n")
    open(f"{M}/{g}.in", "w").write("".join(out))
    with open(f"{M}/{g}.out", "w") as to, open(f"{M}/{g}.in") as ti:
        try: subprocess.run(["coqtop", "-q", "-Q", "theories", "Verif"], cwd=M, stdin=ti, stdout=to, stderr=subprocess.STDOUT, timeout=TIMEOUT, preexec_fn=lim)
        except subprocess.TimeoutExpired: pass
    o = open(f"{M}/{g}.out", errors="replace").read()
    bad = set(); note = None
    for i, (k, n, t) in enumerate(cs):
        if n:
            b = re.search(rf"MARKB_{i}_ was not.*?MARKC_{i}_ was not", re.sub(r"\s+", " ", o[max(0, o.find(f"MARKB_{i}_") - 200): o.find(f"MARKC_{i}_") + 200]))
            seg = o[o.find(f"MARKB_{i}_"): o.find(f"MARKC_{i}_")] if f"MARKC_{i}_" in o else ""
            seg = seg[seg.find("environment") + 5:] if seg else ""
            if not seg: note = note or f"{g}: stopped at {n}"; bad.add(n); continue
            seg = re.sub(r"\s+", " ", seg)
            if f"reference {n} was not found" in seg: bad.add(n)
        else:
            a = o.find(f"MARKA_{i}_"); e = o.find(f"MARKA_{i+1}_" if i + 1 < len(cs) else "MARKA_END_")
            seg = re.sub(r"\s+", " ", o[a:e]); seg = seg[seg.find("environment") + 5:]
            seg = seg[:seg.rfind("Toplevel")] if "Toplevel" in seg else seg
            if "Error:" in seg: note = note or f"{g}: error outside a proof: " + seg[seg.find("Error:"):][:200]
    return [c for c in cs if c[1]], bad, note
lock = threading.Lock()
def run(mu, M):
    if os.path.exists(M): shutil.rmtree(M)
    shutil.copytree(BASE, M)
    path = f"{M}/theories/{mu['file']}.v"
    s = open(path).read()
    if s.count(mu["old"]) < 1: print("NO MATCH", mu, flush=True); return
    if s.count(mu["old"]) > 1: print("AMBIGUOUS", s.count(mu["old"]), mu["old"], flush=True)
    s = s.replace(mu["old"], mu["new"], 1); open(path, "w").write(s)
    only = mu.get("only"); notes = []; allc = []; bad = set()
    files = select(mu["file"], only)
    for g in files:
        for ext in ("vo", "vos", "vok", "glob"):
            try: os.remove(f"{M}/theories/{g}.{ext}")
            except FileNotFoundError: pass
    for g in files:
        p = subprocess.run(["coqc", "-q", "-vos", "-Q", "theories", "Verif", f"theories/{g}.v"], cwd=M, capture_output=True, text=True)
        if p.returncode:
            # proofs inside sections are run even by -vos: record the lemma that fails, and (textually) whatever uses it downstream
            ln = (list(re.finditer(r"line (\d+), characters", p.stderr)) or [None])[-1]; src = open(f"{M}/theories/{g}.v").read(); hit = None
            if ln:
                off = sum(len(x) + 1 for x in src.split("\n")[:int(ln.group(1)) - 1])
                for m in STMT.finditer(src):
                    if m.start() <= off: hit = m.group(2)
            notes.append(f"{g} does not compile (at {hit}): " + p.stderr[-200:])
            if hit: bad.add(hit)
            for h in files[files.index(g):]: allc += [c for c in chunks(open(f"{M}/theories/{h}.v").read()) if c[1]]
            break
        shutil.copy(f"{M}/theories/{g}.vos", f"{M}/theories/{g}.vo")   # coqtop accepts it in place of the .vo
        cs, b, note = replay(M, g)
        allc += cs; bad |= b
        if note: notes.append(note)
    changed = True
    text = {n: set(re.findall(r"[A-Za-z_][A-Za-z0-9_']*", t[t.find("Proof"):])) for k, n, t in allc}
    fail = set(bad)
    while changed:
        changed = False
        for k, n, t in allc:
            if n not in fail and text[n] & fail: fail.add(n); changed = True
    thm = [n for k, n, t in allc if n in fail and k == "Theorem"]; oth = [n for k, n, t in allc if n in fail and k != "Theorem"]
    rec = dict(definition=mu["definition"], file=mu["file"] + ".v", edit=f"{mu['old']}  ==>  {mu['new']}", claim=mu["claim"],
               property=mu.get("property", ""), theorems_failed=thm, lemmas_failed=oth, theorems_tightened=mu.get("tightened", []))
    if notes: rec["notes"] = notes
    if not thm: rec["verdict"] = "SURVIVED"
    if mu.get("expect"): rec["comment"] = mu["expect"]
    with lock:
        print(json.dumps({k: rec[k] for k in rec if k in ("definition", "edit", "property", "theorems_failed", "notes", "verdict")}), flush=True)
        open(V + "/seeded/LOG.jsonl", "a").write(json.dumps(rec) + "\n")
BASE = f"/tmp/mutbase{os.getpid()}"; shutil.copytree(V + "/rocq", BASE)   # snapshot: /verif may be edited meanwhile
Q = queue.Queue()
for mu in json.load(open(sys.argv[1])): Q.put(mu)
def worker(i):
    while True:
        try: mu = Q.get_nowait()
        except queue.Empty: return
        run(mu, f"/tmp/mut{os.getpid()}_{i}"); shutil.rmtree(f"/tmp/mut{os.getpid()}_{i}", ignore_errors=True)
ts = [threading.Thread(target=worker, args=(i,)) for i in range(int(sys.argv[2]) if len(sys.argv) > 2 else 2)]
for t in ts: t.start()
for t in ts: t.join()
shutil.rmtree(BASE)
