#!/usr/bin/env python3
"""Generate edits of the model definitions by simple operators, for mutate.py.

usage: genmut.py OUT.py SEED PER_DEFINITION [FILE ...]
Every edit made in an earlier batch (seeded/mutants) is left out."""
import glob, os, random, re, sys
T = '/verif/rocq/theories'
OPS = [(r'<\?', '<=?'), (r'<=\?', '<?'), (r'(?<![<>])=\?', '<=?'), (r'\btrue\b', 'false'), (r'\bfalse\b', 'true'), (r'&&', '||'), (r'\|\|', '&&'),
       (r'\bnegb \(', '('), (r' \+\+ \[[^\[\]]*\]', ''), (r'\(S ([a-z_]\w*|\([^()]*\))\)', r'\1'), (r'\bS ([a-z_]\w*)(?= |\))(?!\s*=>)', r'\1'), (r' \+ 1\b', ''), (r' - 1\b', ''), (r'\bNone\b(?! *[=,|])', None),
       (r'(?<=then )([^\n;|]+?)( else )([^\n;|()]+?)(?=\n|$| end)', r'\3\2\1'), (r'\((\w+) :: (\w+) (\w+)\)', r'(\2 \3)'), (r'\b(\w+) && (\w+ \w+)', r'\2'), (r'\bupd (\w+) (\([^()]*\)) (\([^()]*\))', r'\3'),
       (r'\bfilter \(fun (\w+) => negb', r'filter (fun \1 => id'), (r'existsb', 'forallb'), (r'\bfst\b', 'snd'), (r'\bsnd\b', 'fst')]
def defs(s):
    for m in re.finditer(r'(?m)^[ \t]*(?:Definition|Fixpoint) ([\w\']+)', s):
        e = re.compile(r'\.(?=\s|$)').search(s, m.end())
        while e and s[:e.start()].count('(*') > s[:e.start()].count('*)'): e = re.compile(r'\.(?=\s|$)').search(s, e.end())
        yield m.group(1), m.start(), e.end()
def uniq(s, a, b, lo, hi):
    """widen [a,b) inside [lo,hi) until the text occurs once"""
    while s.count(s[a:b]) != 1 and (a > lo or b < hi):
        if a > lo: a -= 1
        if b < hi: b += 1
    while a > lo and re.match(r'[\w\']', s[a]) and re.match(r'[\w\']', s[a-1]): a -= 1
    return a, b
def main():
    out, seed, per = sys.argv[1], int(sys.argv[2]), int(sys.argv[3])
    files = sys.argv[4:] or [os.path.basename(f)[:-2] for f in sorted(glob.glob(T + '/*Model.v'))]
    rnd = random.Random(seed)
    done = set()
    for f in glob.glob('/verif/seeded/mutants/*.py'):
        g = {}; exec(open(f).read(), g)
        for m in g['M']: done.add((m[0], m[2], m[3]))
    M = []
    for f in files:
        s = open(f'{T}/{f}.v').read()
        for name, lo, hi in defs(s):
            body = s.index(':=', lo) + 2
            c = []
            for pat, rep in OPS:
                if rep is None: continue
                for m in re.finditer(pat, s[body:hi]):
                    x, y = body + m.start(), body + m.end()
                    if s[:x].count('(*') > s[:x].count('*)'): continue
                    if re.match(r'\s*=>', s[y:]) : continue
                    new = m.expand(rep)
                    if new == m.group(0): continue
                    a, b = uniq(s, x, y, lo, hi)
                    old = s[a:b]; nw = s[a:x] + new + s[y:b]
                    if s.count(old) == 1 and (f, old, nw) not in done: c.append((f, name, old, nw, '?'))
            rnd.shuffle(c)
            M += c[:per]
    rnd.shuffle(M)
    open(out, 'w').write('M=[\n' + ''.join(repr(m) + ',\n' for m in M) + ']\n')
    print(len(M))
main()
