#!/usr/bin/env python3
"""Runs Print Assumptions on every theorem in MANIFEST.json (after a build) and
writes ASSUMPTIONS.txt: theorem, file, what Coq printed."""
import json, re, glob, os, subprocess
root = os.path.dirname(os.path.dirname(os.path.abspath(__file__)))
os.chdir(root + '/rocq')
where = {}
for f in sorted(glob.glob('theories/*.v')):
    for m in re.finditer(r"^\s*(?:Theorem|Corollary|Lemma) (C\d\d_[\w']+)", open(f).read(), re.M):
        where[m[1]] = os.path.basename(f)[:-2]
names = [t for c in json.load(open('../MANIFEST.json'))['claims'] for t in c['theorems']]
src = ''.join('From Verif Require %s.\n' % m for m in sorted(set(where[t] for t in names)))
for t in names:
    src += 'Print Assumptions Verif.%s.%s.\n' % (where[t], t)
open('/tmp/assumptions_check.v', 'w').write(src)
out = subprocess.run(['coqc', '-q', '-Q', 'theories', 'Verif', '/tmp/assumptions_check.v'], capture_output=True, text=True)
if out.returncode:
    print(out.stderr); raise SystemExit(1)
res = []
for l in out.stdout.splitlines():
    if l.startswith('Closed under') or l.startswith('Axioms:') or l.startswith('Section'):
        res.append([l])
    else:
        res[-1].append(l)
assert len(res) == len(names), (len(res), len(names))
with open('../ASSUMPTIONS.txt', 'w') as o:
    for t, r in zip(names, res):
        o.write('%s (%s.v): %s\n' % (t, where[t], ' '.join(x.strip() for x in r)))
print(len(names), 'theorems;', sum(r != ['Closed under the global context'] for r in res), 'not closed')
