#!/usr/bin/env python3
"""Writes what Print Assumptions says of each theorem of the manifest at the end of DESIGN.md. Needs a finished build."""
import glob, json, os, re, subprocess
T = '/verif/rocq/theories'
owner = {}
for f in sorted(glob.glob(T + '/*.v')):
    for m in re.finditer(r"(?m)^[ \t]*(?:Lemma|Theorem|Corollary)\s+([\w']+)", open(f).read()): owner[m.group(1)] = os.path.basename(f)[:-2]
claims = json.load(open('/verif/MANIFEST.json'))['claims']
ts = list(dict.fromkeys(t for c in claims for t in c['theorems']))
src = 'From Verif Require %s.\n' % ' '.join(sorted(set(owner[t] for t in ts)))
for i, t in enumerate(ts): src += f'Definition mark_{i} := tt.\nPrint mark_{i}.\nPrint Assumptions Verif.{owner[t]}.{t}.\n'
open('/tmp/q.v', 'w').write(src)
r = subprocess.run(f'cd /tmp && coqc -Q {T} Verif q.v', shell=True, capture_output=True, text=True)
parts = re.split(r'mark_\d+ = tt', r.stdout)[1:]
assert len(parts) == len(ts), r.stderr
open_, closed = [], []
for t, p in zip(ts, parts): (closed if 'Closed under the global context' in p else open_).append((t, p))
s = open('/verif/DESIGN.md').read().split('\n## Print Assumptions')[0].rstrip() + '\n\n## Print Assumptions\n\n'
for t, p in open_: s += f'* `{owner[t]}.{t}`:\n```\n{p}\n```\n'
s += 'Closed under the global context:\n\n'
for f in sorted(set(owner[t] for t in ts)):
    s += f'* {f}: ' + ', '.join(t for t, _ in closed if owner[t] == f) + '\n'
open('/verif/DESIGN.md', 'w').write(s)
print(len(closed), 'closed', len(open_), 'not')
