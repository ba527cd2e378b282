#!/usr/bin/env python3
"""Regenerate MANIFEST.json: theorems named Cnn_* in rocq/theories/Prop*.v, notes from tools/notes.json."""
import json, re, glob, os
root = os.path.dirname(os.path.dirname(os.path.abspath(__file__)))
thms = {}
for f in sorted(glob.glob(root + '/rocq/theories/Prop*.v')):
    for m in re.finditer(r'^(?:Theorem|Lemma)\s+((C\d+)_\w+)', open(f).read(), re.M):
        thms.setdefault(m.group(2), []).append(m.group(1))
notes = json.load(open(root + '/tools/notes.json'))
claims = []
for line in open(root + '/properties.jsonl'):
    p = json.loads(line)['id']
    n = notes.get(p, {})
    t = thms.get(p, [])
    status = n.get('status', 'proved' if t else 'partial')
    if any(x.endswith('_partial') for x in t):
        status = 'partial'
    note = n.get('note', '' if t else 'not proved yet')
    claims.append({'property': p, 'status': status, 'theorems': t, 'note': note})
json.dump({'claims': claims}, open(root + '/MANIFEST.json', 'w'), indent=1)
print({s: sum(c['status'] == s for c in claims) for s in ('proved', 'partial', 'not_applicable')},
      'without theorem:', [c['property'] for c in claims if not c['theorems']])
