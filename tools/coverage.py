"""Writes the table of modelled source files in DESIGN.md from the anchors of the properties."""
import json, re, os, collections
R = '/verif'
props = [json.loads(l) for l in open(R + '/properties.jsonl')]
by = collections.defaultdict(list)
for r in props:
    for a in r['anchors']:
        for m in re.findall(r'tf_quant_finance/[\w/]+\.py', a):
            if r['id'] not in by[m]: by[m].append(r['id'])
dirs = collections.defaultdict(list)
for f in sorted(by):
    d, b = os.path.split(f[len('tf_quant_finance/'):])
    dirs[d].append('%s (%s)' % (b[:-3], ', '.join(by[f])))
out = ['## Modelled source files', '', 'Files of `tf_quant_finance` with the properties that model them; the model files of each property are in the plan above. The parts of a file that a model leaves out are named in its comments and in `MANIFEST.json`.', '']
out += ['- `%s`: %s' % (d or '.', '; '.join(v)) for d, v in sorted(dirs.items())]
s = open(R + '/DESIGN.md').read()
s = re.sub(r'## Modelled source files.*?(?=## Trusted base)', '', s, flags=re.S)
s = s.replace('## Trusted base', '\n'.join(out) + '\n\n## Trusted base')
open(R + '/DESIGN.md', 'w').write(s)
