#!/usr/bin/env python3
"""Test the theorems against wrong programs.

usage: mutate.py BASE SCRATCH MUTANTS.json OUT.jsonl

BASE is a copy of rocq/ that has been built (outside /verif).  Each mutant is an object with id,
file, old, new, edit, claim, definition.  The edit is applied in a fresh copy of BASE, and whatever
no longer goes through is admitted there, lemma by lemma, until the whole copy compiles.  A theorem
counts as failed if it rests on an admitted lemma.
"""
import json, os, re, shutil, subprocess, sys

START = re.compile(r'^\s*(?:#\[[^\]]*\]\s*)?(?:Local |Global )?(Theorem|Lemma|Example|Corollary|Remark|Fact|Proposition|Definition|Instance|Program Definition|Fixpoint)\s+([A-Za-z0-9_\']+)')
END = re.compile(r'(Qed|Defined)\.')

def blocks(text):
    """(start, proof, end, name) offsets of everything that has a Proof."""
    out = []
    lines = text.split('\n'); off = []; o = 0
    for l in lines:
        off.append(o); o += len(l) + 1
    cur = None
    for i, l in enumerate(lines):
        m = START.match(l)
        if m: cur = (i, m.group(2))
        j = l.find('Proof.')
        if j >= 0 and cur and '(*' not in l[:j]:
            k = i; pos = j
            while True:
                e = END.search(lines[k], pos)
                if e: break
                k += 1; pos = 0
            out.append((off[cur[0]], off[i] + j, off[k] + e.end(), cur[1], cur[0] + 1, k + 1))
            cur = None
    return out

def offset(text, line, char):
    lines = text.split('\n')
    return sum(len(l) + 1 for l in lines[:line - 1]) + len(lines[line - 1].encode()[:char].decode(errors='ignore'))

def run(m, base, scratch, theorems, jobs):
    d = os.path.join(scratch, m['id'])
    shutil.rmtree(d, ignore_errors=True)
    subprocess.check_call(['cp', '-a', base, d])
    p = os.path.join(d, 'theories', m['file'])
    s = open(p).read()
    if s.count(m['old']) != 1: return {'id': m['id'], 'error': 'old text occurs %d times' % s.count(m['old'])}
    open(p, 'w').write(s.replace(m['old'], m['new']))
    lemmas = []
    for _ in range(400):
        r = subprocess.run(['make', '-k', '-j%d' % jobs], cwd=d, capture_output=True, text=True)
        if r.returncode == 0: break
        err = r.stdout + r.stderr
        hits = []
        for f, line, a in re.findall(r'File "\./theories/([^"]+)", line (\d+), characters (\d+)-\d+:\nError', err):
            hits.append((f, int(line), int(a)))
        if not hits: return {'id': m['id'], 'error': err[-2000:]}
        for f, line, a in set(hits):
            q = os.path.join(d, 'theories', f)
            t = open(q).read()
            o = offset(t, line, a)
            bs = [b for b in blocks(t) if b[0] <= o < b[2]]
            if not bs: return {'id': m['id'], 'error': '%s:%d not in a proof\n%s' % (f, line, err[-1500:])}
            b = bs[-1]
            if o < b[1]: return {'id': m['id'], 'error': '%s:%d in a statement\n%s' % (f, line, err[-1500:])}
            open(q, 'w').write(t[:b[1]] + 'Admitted.' + t[b[2]:])
            lemmas.append(f[:-2].replace('/', '.') + '.' + b[3])
    mods = sorted({t[0] for t in theorems})
    lines = ['From Verif Require %s.' % ' '.join(mods)]
    for mod, th in theorems:
        lines.append('Goal True. idtac "@@ %s". exact I. Qed.' % th)
        lines.append('Print Assumptions Verif.%s.%s.' % (mod, th))
    open(os.path.join(d, 'Report.v'), 'w').write('\n'.join(lines))
    r = subprocess.run(['coqc', '-Q', 'theories', 'Verif', 'Report.v'], cwd=d, capture_output=True, text=True)
    if r.returncode: return {'id': m['id'], 'error': r.stderr[-1500:]}
    names = {x.split('.')[-1] for x in lemmas}
    failed, kept, cur = [], [], None
    for part in r.stdout.split('@@ ')[1:]:
        th, _, rest = part.partition('\n')
        ax = set(re.findall(r'^([A-Za-z0-9_.\']+)\s*(?::|$)', rest, re.M))
        bad = {x.split('.')[-1] for x in ax} & names
        (failed if bad or th.strip() in names else kept).append(th.strip())
    shutil.rmtree(d, ignore_errors=True)
    return {'id': m['id'], 'definition': m['definition'], 'edit': m['edit'], 'claim': m['claim'],
            'failed': sorted(failed), 'failed_lemmas': lemmas, 'tightened': [], 'still_proved': sorted(kept)}

def main():
    base, scratch, mutants, out = sys.argv[1:5]
    only = sys.argv[5:]
    theorems = []
    for f in sorted(os.listdir(os.path.join(base, 'theories'))):
        if 'Props' in f and f.endswith('.v'):
            for n in re.findall(r'^Theorem (C\d+_\w+)', open(os.path.join(base, 'theories', f)).read(), re.M):
                theorems.append((f[:-2], n))
    for m in json.load(open(mutants)):
        if only and m['id'] not in only: continue
        r = run(m, base, scratch, theorems, int(os.environ.get("JOBS", "4")))
        open(out, 'a').write(json.dumps(r) + '\n')
        print(m['id'], r.get('error') or 'failed %d, kept %d, lemmas %d' % (len(r['failed']), len(r['still_proved']), len(r['failed_lemmas'])), flush=True)

main()
