#!/usr/bin/env python3
"""Test the theorems against wrong programs.

usage: [QUICK=1] [JOBS=n] mutate.py MUTANTS.py OUT.jsonl [INDEX ...]
MUTANTS.py defines M = [(file, definition, old, new, claims), ...]. Each edit is made in a scratch copy, which is rebuilt;
proofs that fail are replaced by Admitted there until the rest builds, so that all failures are seen. A theorem counts as
failed if its own proof fails or if it depends on a lemma whose proof fails."""
import json, os, re, subprocess, sys, glob
BASE, WORK = '/tmp/mut/base', os.environ.get('WORK', '/tmp/mut/work')
JOBS = os.environ.get('JOBS', '3')
def sh(c, t=None): return subprocess.run(c, shell=True, capture_output=True, text=True, timeout=t)
def reset():
    sh(f'rm -rf {WORK} && cp -a {BASE} {WORK}')
START = re.compile(r'(?m)^[ \t]*(?:Local\s+|Global\s+)?(Lemma|Theorem|Corollary|Example|Fact|Remark|Instance)\s+([\w\']+)')
def admit(path, line, col):
    s = open(path).read()
    off = sum(len(l)+1 for l in s.split('\n')[:line-1]) + col
    ms = [m for m in START.finditer(s) if m.start() <= off]
    if not ms: return None
    m = ms[-1]
    pm = re.compile(r'Proof\b[^.]*\.').search(s, m.end())
    if not pm or pm.start() > off: return ('statement', m.group(2))
    q = re.compile(r'\b(Qed|Defined)\.').search(s, pm.end())
    if not q or q.end() < off: return ('between', m.group(2))
    s = s[:pm.end()] + ' Admitted.' + '\n' * s[pm.end():q.end()].count('\n') + s[q.end():]
    open(path, 'w').write(s)
    return ('proof', m.group(2))
def thms():
    return [t for c in json.load(open('/verif/MANIFEST.json'))['claims'] for t in c['theorems']]
def graph():
    """who refers to whom, from the .glob files of the unedited build"""
    refs = {}
    for g in sorted(glob.glob(f'{BASE}/theories/*.glob')):
        mod, cur = 'Verif.' + os.path.basename(g)[:-5], None
        for l in open(g):
            m = re.match(r'(prf|def|thm|lem|ex|fact|rem|cor|inst|ind|rec) \d+:\d+ (\S+) (\S+)', l)
            if m: cur = (mod, m.group(3)); refs.setdefault(cur, set()); continue
            m = re.match(r'R\d+:\d+ (Verif\.\w+) (\S+) (\S+) \w+', l)
            if m and cur: refs[cur].add((m.group(1), m.group(3)))
    return refs
def dependents(failed):
    """theorems of the manifest whose proofs refer, directly or not, to a failed lemma"""
    refs = graph(); bad = {d for d in refs if d[0][6:] + '.' + d[1] in failed}
    while True:
        more = {d for d in refs if d not in bad and refs[d] & bad}
        if not more: break
        bad |= more
    names = {d[1] for d in bad}
    return [t for t in thms() if t in names]
def attempt(f, old, new):
    reset()
    path = f'{WORK}/theories/{f}.v'
    s = open(path).read()
    if s.count(old) != 1: return {'error': f'{s.count(old)} matches'}
    open(path, 'w').write(s.replace(old, new))
    direct, stuck = [], []
    for rnd in range(25):
        r = sh(f'cd {WORK} && make -k -j{JOBS} TIMECMD="timeout 300" 2>&1')
        errs = re.findall(r'File "\./theories/(\w+)\.v", line (\d+), characters (\d+)-\d+:\nError', r.stdout)
        if r.returncode == 0: break
        prog = False
        for ef, el, ec in errs:
            a = admit(f'{WORK}/theories/{ef}.v', int(el), int(ec))
            if a and a[0] == 'proof': direct.append(ef + '.' + a[1]); prog = True
            else: stuck.append(f'{ef}.{a[1] if a else el} ({a[0] if a else "definition"})')
        if prog and os.environ.get('QUICK') and dependents(set(direct)): break   # detected; the list of failures is then incomplete
        if not prog:
            if not errs: stuck.append('timeout or other: ' + ' '.join(re.findall(r'theories/\w+\.vo\] Error \d+', r.stdout)))
            break
    return {'direct': direct, 'stuck': stuck, 'dep': dependents(set(direct))}
if __name__ == '__main__':
    g = {}
    exec(open(sys.argv[1]).read(), g)
    only = set(sys.argv[3:])
    for n, (f, d, old, new, claims) in enumerate(g['M']):
        if only and str(n) not in only: continue
        r = attempt(f, old, new)
        r.update(n=n, file=f, definition=d, old=old, new=new, claims=claims)
        open(sys.argv[2], 'a').write(json.dumps(r) + '\n')
        print(n, f, d, '|', 'direct', r.get('direct'), 'stuck', r.get('stuck'), 'dep', r.get('dep'), r.get('error', ''), flush=True)
