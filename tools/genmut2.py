#!/usr/bin/env python3
"""Further edits of the model definitions for mutate.py: a constructor or a field for another of the same type, a condition that always or never holds,
swapped arguments, another constant, a match arm that does nothing.

usage: genmut2.py OUT.py SEED PER_DEFINITION [FILE ...]"""
import glob, os, random, re, sys
sys.path.insert(0, '/verif/tools')
T = '/verif/rocq/theories'
def strip(s): return re.sub(r'\(\*.*?\*\)', lambda m: ' ' * len(m.group(0)), s, flags=re.S)
def defs(s):
    for m in re.finditer(r'(?m)^[ \t]*(?:Definition|Fixpoint) ([\w\']+)', s):
        e = re.compile(r'\.(?=\s|$)').search(s, m.end())
        yield m.group(1), m.start(), e.end()
def families(s):
    """groups of names that can stand for one another: constructors with the same arguments, fields with the same type"""
    fam = {}
    for m in re.finditer(r'(?s)\bInductive (\w+)[^:.]*:[^.]*?:=(.*?)\.(?=\s)', s):
        g = {}
        for c in re.split(r'\|', m.group(2)):
            c = ' '.join(c.split())
            k = re.match(r'([\w\']+)(.*)', c)
            if not k: continue
            names = re.sub(r'\(([^:()]*):', lambda x: '(%d:' % len(x.group(1).split()), k.group(2))
            g.setdefault(names, []).append(k.group(1))
        for names in g.values():
            if len(names) > 1:
                for n in names: fam.setdefault(n, set()).update(x for x in names if x != n)
    for m in re.finditer(r'(?s)\bRecord (\w+)[^{.]*\{(.*?)\}\.', s):
        g = {}
        for f in m.group(2).split(';'):
            k = re.match(r'\s*([\w\']+)\s*:(.*)', f, re.S)
            if k: g.setdefault(' '.join(k.group(2).split()), []).append(k.group(1))
        for names in g.values():
            if len(names) > 1:
                for n in names: fam.setdefault(n, set()).update(x for x in names if x != n)
    return fam
def uniq(s, a, b, lo, hi):
    while s.count(s[a:b]) != 1 and (a > lo or b < hi):
        if a > lo: a -= 1
        if b < hi: b += 1
    while a > lo and re.match(r'[\w\']', s[a]) and re.match(r'[\w\']', s[a-1]): a -= 1
    while b < hi and re.match(r'[\w\']', s[b]) and re.match(r'[\w\']', s[b-1]): b += 1
    return a, b
ATOM = r'(?:[a-z_][\w\']*|\((?:[^()]|\([^()]*\))*\))'
def edits(src, s, lo, body, hi, fam):
    pats = [(m.start(1), m.end(1)) for m in re.finditer(r'(?:\||\bwith\b)\s*([^|]*?)=>', s[:hi]) if m.start() >= lo]
    inpat = lambda x: any(a <= x < b for a, b in pats)
    t = s[body:hi]
    for m in re.finditer(r"\b[A-Za-z_][\w']*", t):
        for n in fam.get(m.group(0), ()):
            if not inpat(body + m.start()): yield body + m.start(), body + m.end(), n
    for m in re.finditer(r'\bif (.*?) then\b', t, re.S):
        if 'if' in m.group(1).split(): continue
        yield body + m.start(1), body + m.end(1), 'true'
        yield body + m.start(1), body + m.end(1), 'false'
    for m in re.finditer(r'(?<![\w\'])(\d+)(?![\w\'])', t):
        if inpat(body + m.start()): continue
        yield body + m.start(), body + m.end(), str(int(m.group(1)) + 1)
    for m in re.finditer(r'=> (Some \()', t):
        d, j = 1, m.end()
        while j < len(t) and d: d += {'(': 1, ')': -1}.get(t[j], 0); j += 1
        yield body + m.start(1), body + j, 'None'
    for m in re.finditer(r"(?<=[ (])([a-z_][\w']*) (%s) (%s)(?=[ );,\n])" % (ATOM, ATOM), t):
        if inpat(body + m.start()) or m.group(1) in ('match', 'if', 'then', 'else', 'with', 'fun', 'let', 'in', 'end', 'as', 'forall', 'exists') or m.group(2) == m.group(3): continue
        if m.group(2) in ('in', 'then', 'else', 'with', 'end', 'match', 'if', 'as') or m.group(3) in ('in', 'then', 'else', 'with', 'end', 'match', 'if', 'as'): continue
        yield body + m.start(2), body + m.end(3), m.group(3) + ' ' + m.group(2)
    for m in re.finditer(r'(%s) \+\+ (%s)' % (ATOM, ATOM), t): yield body + m.start(), body + m.end(), m.group(2) + ' ++ ' + m.group(1)
    for m in re.finditer(r' (\+|-|<=\?|<\?|<=|<) ', t):
        yield body + m.start(1), body + m.end(1), {'+': '-', '-': '+', '<=?': '<?', '<?': '<=?', '<=': '<', '<': '<='}[m.group(1)]
def main():
    out, seed, per = sys.argv[1], int(sys.argv[2]), int(sys.argv[3])
    files = sys.argv[4:] or [os.path.basename(f)[:-2] for f in sorted(glob.glob(T + '/*Model.v'))]
    rnd = random.Random(seed)
    done = set()
    for f in glob.glob('/verif/seeded/mutants/*.py'):
        g = {}; exec(open(f).read(), g)
        for m in g['M']: done.add((m[0], m[2], m[3]))
    allfam = {}
    for f in files:
        for k, v in families(strip(open(f'{T}/{f}.v').read())).items(): allfam.setdefault(k, set()).update(v)
    M = []
    for f in files:
        src = open(f'{T}/{f}.v').read(); s = strip(src)
        for name, lo, hi in defs(s):
            if ':=' not in s[lo:hi]: continue
            body = s.index(':=', lo) + 2
            c = []
            for x, y, new in edits(src, s, lo, body, hi, allfam):
                a, b = uniq(src, x, y, lo, hi)
                old = src[a:b]; nw = src[a:x] + new + src[y:b]
                if src.count(old) == 1 and old != nw and (f, old, nw) not in done: c.append((f, name, old, nw, '?'))
            rnd.shuffle(c)
            M += c[:per]
    rnd.shuffle(M)
    open(out, 'w').write('M=[\n' + ''.join(repr(m) + ',\n' for m in M) + ']\n')
    print(len(M))
main()
