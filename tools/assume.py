#!/usr/bin/env python3
"""Run Print Assumptions on every property theorem (needs a built rocq/) and rewrite section 5 of DESIGN.md."""
import re, subprocess, glob, os, collections
os.chdir(os.path.join(os.path.dirname(__file__), '..', 'rocq'))
names = []
for f in sorted(glob.glob('theories/Prop*.v')):
    mod = os.path.basename(f)[:-2]
    for m in re.finditer(r'^(?:Theorem|Lemma|Corollary)\s+(C\d\d\w*)', open(f).read(), re.M):
        names.append((m.group(1), mod))
names.sort()
mods = sorted({m for _, m in names})
with open('/tmp/assume_all.v', 'w') as o:
    o.write('From Verif Require %s.\n' % ' '.join(mods))
    for n, m in names:
        o.write('Goal True. idtac "@@ %s". exact I. Qed.\nPrint Assumptions %s.%s.\n' % (n, m, n))
out = subprocess.run(['coqc', '-R', 'theories', 'Verif', '/tmp/assume_all.v'], capture_output=True, text=True)
assert out.returncode == 0, out.stderr[-2000:]
groups = collections.defaultdict(list)
for part in out.stdout.split('@@ ')[1:]:
    name, rest = part.split('\n', 1)
    ax = tuple(sorted(re.findall(r'^([A-Za-z_][\w.\']*)\s*:', rest, re.M))) if 'Axioms:' in rest else ()
    ax = tuple(a for a in ax if a != 'Axioms')
    groups[ax].append(name.strip())
txt = ['## 5. Print Assumptions for each theorem', '',
       '%d theorems; generated by tools/assume.py from the compiled development. Every axiom below is the standard library\'s.' % len(names), '']
for ax in sorted(groups, key=lambda a: (len(a), a)):
    txt += ['### ' + (', '.join('`%s`' % a for a in ax) if ax else 'no axioms (closed under the global context)'), '', ', '.join(groups[ax]) + '.', '']
s = open('../DESIGN.md').read()
i = s.find('## 5. Print Assumptions')
if i >= 0: s = s[:i]
open('../DESIGN.md', 'w').write(s.rstrip() + '\n\n' + '\n'.join(txt))
print(len(names), 'theorems', {k: len(v) for k, v in groups.items()})
