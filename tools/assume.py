#!/usr/bin/env python3
"""Rewrite the section "Assumptions per theorem" of DESIGN.md from what Print Assumptions reports (needs a finished build)."""
import re, glob, os, subprocess, tempfile, sys
from concurrent.futures import ThreadPoolExecutor
root = os.path.dirname(os.path.dirname(os.path.abspath(__file__)))
th = os.path.join(root, 'rocq', 'theories')
def names(f):
    return re.findall(r'^\s*(?:Theorem|Example|Corollary)\s+(C\d+_\w+)', open(f).read(), re.M)
def run(f):
    ns = names(f)
    if not ns: return {}
    mod = os.path.basename(f)[:-2]
    d = tempfile.mkdtemp()
    src = 'From Verif Require %s.\n' % mod
    for n in ns:
        src += 'Eval compute in tt.\nPrint Assumptions %s.%s.\n' % (mod, n)
    p = os.path.join(d, 'a.v'); open(p, 'w').write(src)
    r = subprocess.run(['coqc', '-Q', th, 'Verif', p], capture_output=True, text=True)
    if r.returncode: sys.exit(mod + ': ' + r.stderr)
    parts = re.split(r'= tt\s+: unit', r.stdout)[1:]
    assert len(parts) == len(ns), (mod, len(parts), len(ns))
    out = {}
    for n, t in zip(ns, parts):
        ax = frozenset() if 'Closed under the global context' in t else frozenset(re.findall(r'^([\w.]+)\s*(?::|$)', t.split('Axioms:', 1)[1], re.M))
        out[n] = ax
    return out
# With file names as arguments only these are asked again and the other entries kept.
def kept():
    out, ax = {}, None
    for l in open(os.path.join(root, 'DESIGN.md')).read().split('## Assumptions per theorem')[1].split('\n'):
        m = re.match(r'### (.*) \(\d+\)$', l)
        if m: ax = frozenset(re.findall(r'`([^`]+)`', m.group(1)))
        elif ax is not None and l.strip():
            for e in l.rstrip('.').split('; '):
                c, v = e.split(': ')
                for x in v.split(', '): out[c + '_' + x] = ax
    return out
files = [os.path.join(th, a) for a in sys.argv[1:]] or sorted(glob.glob(os.path.join(th, '*.v')))
res = kept() if sys.argv[1:] else {}
with ThreadPoolExecutor(int(os.environ.get('JOBS', '2'))) as ex:
    for o in ex.map(run, files): res.update(o)
groups = {}
for n, ax in res.items(): groups.setdefault(ax, []).append(n)
key = lambda n: (int(re.match(r'C(\d+)', n).group(1)), n)
L = ['## Assumptions per theorem', '', 'Written by `tools/assume.py` from the output of `Print Assumptions` on each of the %d theorems and examples named after a property.' % len(res),
     'All axioms are those of the standard library; none is added here.', '']
for ax in sorted(groups, key=lambda a: (len(a), sorted(a))):
    L.append('### ' + ('No axioms' if not ax else ', '.join('`%s`' % a for a in sorted(ax))) + ' (%d)' % len(groups[ax])); L.append('')
    by = {}
    for n in sorted(groups[ax], key=key): by.setdefault(n.split('_')[0], []).append(n.split('_', 1)[1])
    L.append('; '.join('%s: %s' % (c, ', '.join(v)) for c, v in by.items()) + '.'); L.append('')
d = os.path.join(root, 'DESIGN.md'); s = open(d).read()
s = s.split('## Assumptions per theorem')[0].rstrip() + '\n\n' + '\n'.join(L).rstrip() + '\n'
open(d, 'w').write(s)
print(len(res), 'theorems,', len(groups), 'sets of axioms')
