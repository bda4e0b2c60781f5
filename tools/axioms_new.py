"""Like axioms.py, but only for the theorems of MANIFEST.json that AXIOMS.md does not list yet; merges them into it."""
import json, re, subprocess, glob, os, collections
os.chdir('/verif/rocq')
groups = collections.OrderedDict()
txt = open('/verif/AXIOMS.md').read()
for m in re.finditer(r'^## (.*)\n\n(.*)\n', txt, re.M):
    groups[tuple(re.findall(r'`([^`]+)`', m.group(1)))] = m.group(2).split(', ')
names = []
for c in json.load(open('/verif/MANIFEST.json'))['claims']:
    for t in c['theorems']:
        if t not in names: names.append(t)
have = {t for ts in groups.values() for t in ts}
todo = [t for t in names if t not in have]
where = {}
for f in sorted(glob.glob('theories/*.v')):
    for m in re.finditer(r'^\s*(?:Theorem|Lemma|Corollary|Proposition|Fact|Remark)\s+([\w\']+)', open(f).read(), re.M):
        where.setdefault(m.group(1), os.path.basename(f)[:-2])
src = ''.join(f'From Verif Require {m}.\n' for m in sorted({where[t] for t in todo}))
for t in todo: src += f'Goal True. idtac "@@ {t}". exact I. Qed.\nPrint Assumptions {where[t]}.{t}.\n'
open('/tmp/axn.v', 'w').write(src)
out = subprocess.run(['coqc', '-Q', 'theories', 'Verif', '/tmp/axn.v'], capture_output=True, text=True)
res, cur = collections.OrderedDict(), None
for line in out.stdout.splitlines():
    if line.startswith('@@ '): cur = line[3:].strip(); res[cur] = []; continue
    if cur is None: continue
    m = re.match(r'^([A-Za-z_][\w.\']*)\s*(?::|$)', line)
    if m and m.group(1) != 'Axioms': res[cur].append(m.group(1))
assert list(res) == todo, (out.stderr[-2000:], len(res), len(todo))
for t in todo: groups.setdefault(tuple(sorted(res[t])), []).append(t)
keep = set(names)
with open('/verif/AXIOMS.md', 'w') as f:
    f.write('# Print Assumptions for every theorem in MANIFEST.json\n\nGenerated by tools/axioms.py. Every axiom is declared by the Coq standard library.\n\n')
    for ax, ts in sorted(groups.items(), key=lambda p: len(p[0])):
        f.write('## ' + (', '.join('`%s`' % a for a in ax) if ax else 'Closed under the global context') + '\n\n')
        f.write(', '.join(t for t in ts if t in keep) + '\n\n')
print({a: len(t) for a, t in groups.items()})
