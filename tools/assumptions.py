#!/usr/bin/env python3
"""Fills section 4 of DESIGN.md from the output of Print Assumptions (recompiles rocq/theories/Properties*.v;
the other files must be built)."""
import re, glob, os, subprocess
root = os.path.dirname(os.path.dirname(os.path.abspath(__file__)))
th = root + '/rocq/theories'
out = []
for f in sorted(glob.glob(th + '/Properties*.v'), key=lambda f: int(re.search(r'(\d+)\.v', f)[1])):
    names = re.findall(r'^Print Assumptions (\w+)\.', open(f).read(), re.M)
    r = subprocess.run(['timeout', '1500', 'coqc', '-Q', '.', 'Verif', os.path.basename(f)], cwd=th, capture_output=True, text=True)
    assert r.returncode == 0, (f, r.stderr[:500])
    chunks = re.findall(r'Closed under the global context|Axioms:\n(?:.+\n?)+', r.stdout)
    assert len(chunks) == len(names), (f, len(chunks), len(names))
    out += [(os.path.basename(f), n, c.strip()) for n, c in zip(names, chunks)]
closed = [(f, n) for f, n, c in out if c.startswith('Closed')]
lines = [f'`Print Assumptions` was run on each of the {len(out)} theorems below (generated by `tools/assumptions.py`).', '',
         f'"Closed under the global context" (no axioms at all): {len(closed)} theorems.', '']
for f in dict.fromkeys(f for f, _, _ in out):
    lines.append(f'* `{f}`: ' + ', '.join(n for g, n in closed if g == f))
others = [(f, n, c) for f, n, c in out if not c.startswith('Closed')]
if others:
    lines += ['', 'Theorems with axioms:'] + [f'* `{f}` {n}: {c}' for f, n, c in others]
else:
    lines += ['', 'No theorem depends on any axiom.']
d = open(root + '/DESIGN.md').read()
i = d.index('## 4. Assumptions per theorem')
j = d.find("\n`coqchk` additionally", i)
d = d[:i] + '## 4. Assumptions per theorem\n\n' + '\n'.join(lines) + '\n' + (d[j:] if j >= 0 else '')
open(root + '/DESIGN.md', 'w').write(d)
print(len(out), 'theorems;', len(closed), 'closed')
