#!/usr/bin/env python3
"""Write seeded/LOG.jsonl from the results of mutate.py (seeded/results/rK.jsonl) and the judgements below."""
import json, os, re, glob, sys
sys.path.insert(0, '/verif/tools')
import mutate
mutate.BASE = '/verif/rocq'
R = '/verif/seeded/results'
REFS = mutate.graph()
THMS = mutate.thms()
def requires():
    d = {}
    for f in glob.glob('/verif/rocq/theories/*.v'):
        m = os.path.basename(f)[:-2]
        d[m] = set(w for l in re.findall(r'(?s)From Verif Require Import ([^.]*)\.', open(f).read()) for w in l.split())
    def clo(m, seen):
        for x in d.get(m, ()):
            if x not in seen: seen.add(x); clo(x, seen)
        return seen
    return {m: clo(m, {m}) for m in d}
REQ = requires()
def dependents(file, direct):
    direct = set(x.split('.')[-1] for x in direct if '.' not in x) , set(x for x in direct if '.' in x)
    bad = {d for d in REFS if file in REQ.get(d[0][6:], ()) and (d[1] in direct[0] or d[0][6:] + '.' + d[1] in direct[1])}
    while True:
        more = {d for d in REFS if d not in bad and REFS[d] & bad}
        if not more: break
        bad |= more
    names = {d[1] for d in bad if file in REQ.get(d[0][6:], ())}
    return [t for t in THMS if t in names]
# (batch, index) -> (claims broken, remark, theorems tightened)
J = {}
exec(open('/verif/seeded/judgements.py').read())
out = []
for f in sorted(glob.glob(R + '/r*.jsonl')):
    b = re.search(r'r(\w+)\.jsonl', f).group(1)
    last = {}
    for l in open(f):
        r = json.loads(l); last[r['n']] = r
    for n in sorted(last):
        r = last[n]
        claims, remark, tight = J.get((b, n), (r['claims'], '', []))
        if r.get('error'): continue
        failed = dependents(r['file'], r['direct'])
        if claims == '?' and r['stuck'] and not r['direct']: claims, remark = 'none: not well-typed', 'generated'
        elif claims == '?' and failed: claims, remark = ' '.join(sorted({t.split('_')[0] for t in failed})), 'generated; the claims are those of the theorems that fail'
        e = {'batch': b, 'attempt': n, 'definition': r['file'] + '.' + r['definition'], 'edit': {'from': r['old'], 'to': r['new']},
             'claim_broken': claims, 'proofs_failed': r['direct'], 'theorems_failed': failed, 'theorems_tightened': tight}
        if r['stuck']: e['not_built'] = r['stuck']
        if remark: e['remark'] = remark
        out.append(e)
        if not claims.startswith('none') and not failed and not tight and not r['stuck']: print('SURVIVOR', b, n, r['file'], r['definition'])
        want = set(re.findall(r'C\d+', claims)); got = {t.split('_')[0] for t in failed}
        if want - got and not tight: print('missing', b, n, r['file'], r['definition'], sorted(want - got), sorted(got))
open('/verif/seeded/LOG.jsonl', 'w').write(''.join(json.dumps(e) + '\n' for e in out))
print(len(out), 'attempts')
