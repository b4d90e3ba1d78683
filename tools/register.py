#!/usr/bin/env python3
"""Adds theory files to _CoqProject, notes, properties and design lines.
usage: register.py SPEC.json with keys files, notes, properties, design."""
import json, sys
spec = json.load(open(sys.argv[1]))
p = '/verif/rocq/_CoqProject'
s = open(p).read()
for f in spec.get('files', []):
    if f'theories/{f}.v\n' not in s: s += f'theories/{f}.v\n'
open(p, 'w').write(s)
p = '/verif/tools/notes.json'
d = json.load(open(p)); d.update(spec.get('notes', {})); json.dump(d, open(p, 'w'), indent=1)
p = '/verif/properties.jsonl'
rows = [json.loads(l) for l in open(p)]
for q in spec.get('properties', []):
    rows = [r for r in rows if r['id'] != q['id']] + [q]
rows.sort(key=lambda r: int(r['id'][1:]))
open(p, 'w').write(''.join(json.dumps(r) + '\n' for r in rows))
p = '/verif/DESIGN.md'
lines = open(p).read().split('\n')
for k, text in spec.get('design', {}).items():
    idx = [i for i, l in enumerate(lines) if l.startswith(f'- **{k} ')]
    if idx: lines[idx[0]] = text
    else:
        last = max(i for i, l in enumerate(lines) if l.startswith('- **C'))
        lines.insert(last + 1, text)
open(p, 'w').write('\n'.join(lines))
