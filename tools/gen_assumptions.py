#!/usr/bin/env python3
"""Compiles theories/Properties/*.v (the rest must be built) and writes what
Print Assumptions says about each theorem into DESIGN.md, between the markers."""
import glob, os, re, subprocess
root = os.path.dirname(os.path.dirname(os.path.abspath(__file__)))
th = root + '/rocq/theories'
groups = {}
for f in sorted(glob.glob(th + '/Properties/*.v')):
    src = open(f).read()
    names = re.findall(r'^Print Assumptions (\w+)\.', src, re.M)
    out = subprocess.run(['coqc', '-Q', th, 'Verif', f], capture_output=True, text=True, timeout=1800)
    assert out.returncode == 0, (f, out.stderr)
    blocks = re.split(r'^(?=Closed under the global context|Axioms:)', out.stdout, flags=re.M)[1:]
    assert len(blocks) == len(names), (f, len(blocks), len(names))
    for n, b in zip(names, blocks):
        ax = tuple(sorted(re.findall(r'^([A-Z]\w*(?:\.\w+)+)', b, re.M)))
        groups.setdefault(ax, []).append(n)
text = ''
for ax in sorted(groups, key=len):
    text += '* ' + ('closed under the global context (no axioms)' if not ax else ', '.join('`%s`' % a for a in ax)) + ':\n  '
    text += ', '.join(groups[ax]) + '\n'
d = open(root + '/DESIGN.md').read()
a, b = '<!-- assumptions begin -->', '<!-- assumptions end -->'
d = d[:d.index(a) + len(a)] + '\n' + text + d[d.index(b):]
open(root + '/DESIGN.md', 'w').write(d)
print({len(k): len(v) for k, v in groups.items()})
