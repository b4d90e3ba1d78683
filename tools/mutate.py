#!/usr/bin/env python3
"""Seeded-bug runner.  Reads a JSON list of {file, def, old, new, edit, claim, props} from the
file given as argument.  For each: copies rocq/ to a scratch directory, applies the edit to the model
file, rebuilds; each proof that fails is replaced by Admitted (in the scratch copy only) and
the build goes on, so that Print Assumptions in the Props files tells which property theorems
no longer hold.  Only the Props files of the properties named in "claim" (with what they
need) are rebuilt.  Appends one line per mutation to seeded/LOG.jsonl."""
import json, os, re, shutil, subprocess, sys
SRC = os.environ.get('SRC', '/verif/rocq')
SCR = os.environ.get('SCRATCH', '/tmp/mut')
LOG = '/verif/seeded/LOG.jsonl'
HEAD = re.compile(r'^\s*(?:Local\s+|Global\s+)?(Lemma|Theorem|Corollary|Example|Fact|Remark|Proposition|Instance)\s+([A-Za-z0-9_\']+)', re.M)

def sync():
    shutil.rmtree(SCR, ignore_errors=True)
    subprocess.run(['cp', '-a', SRC, SCR], check=True)
    subprocess.run('coq_makefile -f _CoqProject -o Makefile', shell=True, cwd=SCR, check=True,
                   stdout=subprocess.DEVNULL, stderr=subprocess.DEVNULL)

def admit_at(path, line):
    src = open(path).read()
    pos = sum(len(l) + 1 for l in src.split('\n')[:line - 1])
    heads = [m for m in HEAD.finditer(src) if m.start() <= pos + 1]
    if not heads: return None
    h = heads[-1]
    tail = src[h.start():]
    m = re.search(r'\bProof\b[^.]*\.|\bProof\.', tail)
    q = re.search(r'\b(Qed|Defined)\.', tail)
    if not m or not q: return None
    if m.start() > q.start(): return None
    new = tail[:m.start()] + 'Proof. Admitted.' + tail[q.end():]
    open(path, 'w').write(src[:h.start()] + new)
    return h.group(1), h.group(2)

def targets(claim):
    ids = re.findall(r'\bC\d\d+\b', claim.split(':')[0])
    ts = []
    for f in sorted(os.listdir(SCR + '/theories')):
        if f.startswith('Props') and f.endswith('.v') and f'theories/{f}' in open(SCR + '/_CoqProject').read():
            if any(f'Print Assumptions {i}_' in open(f'{SCR}/theories/{f}').read() for i in ids): ts.append(f)
    return ts

def run(mut):
    sync()
    ts = targets(mut['claim'])
    goal = ' '.join(f'theories/{f}o' for f in ts)
    edits = mut.get('edits') or [(mut['file'], mut['old'], mut['new'])]
    for f, o, n in edits:
        p = f"{SCR}/theories/{f}"
        s = open(p).read()
        if s.count(o) < 1: return {'error': 'pattern not found ' + o}
        i = s.index(mut['def']) if mut.get('anchor', True) and mut['def'] in s else 0
        if o not in s[i:]: i = 0
        s = s[:i] + s[i:].replace(o, n, 1)
        open(p, 'w').write(s)
    failed = []
    for it in range(60):
        r = subprocess.run(f'timeout 1500 make -k -j2 {goal} 2>&1', shell=True, cwd=SCR, capture_output=True, text=True)
        out = r.stdout
        if r.returncode == 0: break
        errs = re.findall(r'File "\./(theories/[^"]+)", line (\d+),[^\n]*\nError', out)
        errs = list(dict(errs).items()) if False else list({e[0]: e for e in errs}.values())
        if not errs: return {'error': 'build failed without location', 'out': out[-1500:]}
        for f, ln in errs:
            a = admit_at(f"{SCR}/{f}", int(ln))
            if a is None: return {'error': f'cannot admit at {f}:{ln}', 'out': out[-1500:], 'failed': failed}
            failed.append(a)
    # collect theorems of Props files that are no longer closed
    bad = [n for k, n in failed if k == 'Theorem']
    admitted = set(n for k, n in failed)
    for f in sorted(os.listdir(SCR + '/theories')):
        if not (f.startswith('Props') and f.endswith('.v')) : continue
        src = open(f'{SCR}/theories/{f}').read()
        if 'Print Assumptions' not in src: continue
        if f'theories/{f}' not in open(SCR + '/_CoqProject').read(): continue
        if f in mut.get('skip', []) or (ts and f not in ts): continue
        vo = '/theories/' + f + 'o'
        if os.path.exists(SRC + vo) and os.path.exists(SCR + vo) and os.path.getmtime(SRC + vo) == os.path.getmtime(SCR + vo): continue  # not affected
        names = re.findall(r'Print Assumptions ([A-Za-z0-9_\']+)\.', src)
        if not admitted: break
        r = subprocess.run(f'timeout 900 coqc -Q theories Verif theories/{f}', shell=True, cwd=SCR, capture_output=True, text=True)
        chunks = re.split(r'(?=^Closed under|^Axioms:)', r.stdout, flags=re.M)
        chunks = [c for c in chunks if c.startswith('Closed') or c.startswith('Axioms:')]
        if len(chunks) != len(names):
            bad.append(f'?{f}'); continue
        for n, c in zip(names, chunks):
            toks = set(re.findall(r"^([A-Za-z0-9_'.]+)\s*(?::|$)", c, re.M))
            toks = {t.split('.')[-1] for t in toks}
            if toks & admitted: bad.append(n)
    return {'failed_lemmas': [n for k, n in failed], 'theorems': sorted(set(bad))}

if __name__ == '__main__':
    muts = json.load(open(sys.argv[1]))
    dry = len(sys.argv) > 2 and sys.argv[2] == 'dry'
    for m in muts:
        r = run(m)
        print(json.dumps({'edit': m['edit'], **r})[:1500], flush=True)
        if 'error' in r or dry: continue
        rec = {'definition': m['def'], 'edit': m['edit'], 'claim_broken': m['claim'],
               'theorems_failed': r['theorems'], 'first_failing_lemmas': r['failed_lemmas'][:6],
               'theorems_tightened': m.get('tightened', [])}
        if not r['theorems']: rec['outcome'] = m.get('outcome', 'survived')
        open(LOG, 'a').write(json.dumps(rec) + '\n')
