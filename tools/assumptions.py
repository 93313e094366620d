#!/usr/bin/env python3
"""Rewrite the section of DESIGN.md which lists the axioms of every property theorem.

Compiles each *Props.v in a scratch copy (the other files must be compiled in rocq/theories) and
reads what Print Assumptions prints."""
import glob, os, re, shutil, subprocess, tempfile
ROOT = '/verif'
th = ROOT + '/rocq/theories'
sets = {}
for f in sorted(glob.glob(th + '/*Props.v')):
    tmp = tempfile.mkdtemp()
    g = tmp + '/' + os.path.basename(f)
    shutil.copy(f, g)
    r = subprocess.run(['coqc', '-Q', th, 'Verif', g], capture_output=True, text=True)
    assert r.returncode == 0, (f, r.stderr)
    names = re.findall(r'^Print Assumptions (\w+)\.', open(f).read(), re.M)
    blocks = [b for b in re.split(r'(?=^(?:Closed under the global context|Axioms:))', r.stdout, flags=re.M) if b.strip()]
    assert len(names) == len(blocks), (f, len(names), len(blocks))
    for n, b in zip(names, blocks):
        ax = tuple(sorted(x for x in re.findall(r'^([\w.]+)\s*:', b, re.M) if x != 'Axioms'))
        sets.setdefault(ax, []).append(n)
    shutil.rmtree(tmp)
out = []
for ax, names in sorted(sets.items()):
    out.append('* ' + ('No axioms (closed under the global context)' if not ax else ', '.join('`%s`' % a for a in ax)) + ' - %d theorems: ' % len(names) + ', '.join('`%s`' % n for n in sorted(names)) + '.')
p = ROOT + '/DESIGN.md'
s = open(p).read()
a, b = '<!-- axioms -->\n', '<!-- end axioms -->'
i, j = s.index(a) + len(a), s.index(b)
open(p, 'w').write(s[:i] + '\n'.join(out) + '\n' + s[j:])
print(len(sets), sum(map(len, sets.values())))
