#!/usr/bin/env python3
"""Writes /verif/ASSUMPTIONS.md: what Print Assumptions lists for each theorem of the manifest. Needs a finished build of /verif/rocq."""
import json, os, re, subprocess, glob, collections
V = '/verif'
man = json.load(open(V + '/MANIFEST.json'))
where = {}
for f in sorted(glob.glob(V + '/rocq/theories/Properties_*.v')):
    for m in re.finditer(r'^(?:Theorem|Lemma|Corollary)\s+(C\d\d+_\w+)', open(f).read(), re.M):
        where[m.group(1)] = os.path.basename(f)[:-2]
names = [t for c in man['claims'] for t in c['theorems']]
src = ''
for mod in sorted(set(where[n] for n in names)): src += 'From Verif Require %s.\n' % mod
for i, n in enumerate(names):
    src += 'Goal True. idtac "@@@ %s". exact I. Qed.\nPrint Assumptions %s.%s.\n' % (n, where[n], n)
os.makedirs('/tmp/assum', exist_ok=True)
open('/tmp/assum/a.v', 'w').write(src)
out = subprocess.run(['coqc', '-Q', V + '/rocq/theories', 'Verif', '/tmp/assum/a.v'], capture_output=True, text=True)
assert out.returncode == 0, out.stderr
groups = collections.OrderedDict()
for part in out.stdout.split('@@@ ')[1:]:
    name, body = part.split('\n', 1)
    ax = tuple(sorted(re.findall(r'^([A-Za-z_][\w.]*)', body, re.M))) if 'Closed under' not in body else ()
    ax = tuple(a for a in ax if a != 'Axioms')
    groups.setdefault(ax, []).append(name.strip())
with open(V + '/ASSUMPTIONS.md', 'w') as f:
    f.write('# Print Assumptions, per theorem\n\nGenerated by tools/gen_assumptions.py from the theorems of MANIFEST.json.\n')
    for ax, ns in sorted(groups.items(), key=lambda x: len(x[0])):
        f.write('\n## ' + ('Closed under the global context (no axioms)' if not ax else 'Standard library axioms: ' + ', '.join('`%s`' % a for a in ax)) + '\n\n')
        for n in sorted(ns): f.write('* %s (%s.v)\n' % (n, where[n]))
print({k: len(v) for k, v in groups.items()})
