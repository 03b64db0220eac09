#!/usr/bin/env python3
"""Write MANIFEST.json: every theorem named Cxx_... in the Properties files is listed for its property.

A property is "proved" unless one of its theorems ends in _partial, and "partial" in that case.
Notes come from NOTES below."""
import json, re, glob, os
root = os.path.dirname(os.path.dirname(os.path.abspath(__file__)))
thms = {}
for f in sorted(glob.glob(root + '/rocq/theories/Properties*.v')):
    for m in re.finditer(r'^Theorem (C\d\d)(_\w+)', open(f).read(), re.M):
        thms.setdefault(m.group(1), []).append(m.group(1) + m.group(2))
exec(open(root + '/tools/notes.py').read())
claims = []
for line in open(root + '/properties.jsonl'):
    p = json.loads(line)['id']
    t = thms.get(p, [])
    if p in NOT_APPLICABLE:
        claims.append({'property': p, 'status': 'not_applicable', 'theorems': [], 'note': NOT_APPLICABLE[p]})
    elif t:
        partial = any(x.endswith('_partial') for x in t)
        claims.append({'property': p, 'status': 'partial' if partial else 'proved', 'theorems': t,
                       'note': NOTES.get(p, '')})
    else:
        claims.append({'property': p, 'status': 'partial', 'theorems': [], 'note': 'not modelled yet'})
json.dump({'claims': claims}, open(root + '/MANIFEST.json', 'w'), indent=1)
for c in claims:
    print(c['property'], c['status'], len(c['theorems']))
