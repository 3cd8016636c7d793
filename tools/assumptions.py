#!/usr/bin/env python3
"""Prints, as markdown, what Print Assumptions lists for every theorem claimed in MANIFEST.json.
Needs a built rocq/ tree.  Usage: tools/assumptions.py > /tmp/assumptions.md"""
import json, os, re, subprocess, tempfile, collections
here = os.path.dirname(os.path.dirname(os.path.abspath(__file__)))
man = json.load(open(os.path.join(here, 'MANIFEST.json')))
thms = [(c['property'], t) for c in man['claims'] for t in c['theorems']]
files = sorted(f[:-2] for f in os.listdir(os.path.join(here, 'rocq/theories')) if f.startswith('Props') and f.endswith('.v'))
where = {}
for f in files:
    for t in re.findall(r'^(?:Theorem|Lemma)\s+([A-Za-z0-9_\']+)', open(os.path.join(here, 'rocq/theories', f + '.v')).read(), re.M):
        where[t] = f
src = 'From Coq Require Import String.\nFrom Verif Require ' + ' '.join(files) + '.\nOpen Scope string_scope.\n'
for p, t in thms:
    src += 'Check "@@%s".\nPrint Assumptions %s.%s.\n' % (t, where[t], t)
d = tempfile.mkdtemp()
open(d + '/a.v', 'w').write(src)
out = subprocess.run(['coqc', '-Q', os.path.join(here, 'rocq/theories'), 'Verif', d + '/a.v'], capture_output=True, text=True)
assert out.returncode == 0, out.stderr[-2000:]
cur, res = None, collections.OrderedDict()
for l in out.stdout.split('\n'):
    m = re.match(r'"@@(\S+)"', l)
    if m: cur = m.group(1); res[cur] = []; continue
    m = re.match(r'^([A-Za-z_][\w.\']*)\s*(:|$)', l)
    if m and cur and m.group(1) not in ('Axioms', 'Closed'): res[cur].append(m.group(1))
names = {}
sets = collections.OrderedDict()
for t, a in res.items(): sets.setdefault(tuple(sorted(set(a))), []).append(t)
def kind(a):
    return 'primitive' if re.match(r'(PrimFloat|PrimInt63|Uint63|PrimInt|float$|int$)', a) else 'axiom'
letters = 'ABCDEFGHIJKLMNOPQRSTUVWXYZ'
order = sorted(sets, key=lambda s: (len(s), s))
lab = {s: (letters[i] if i < 26 else 'Z%d' % i) for i, s in enumerate(order)}
print('Sets of assumptions (names as printed by `Print Assumptions`):\n')
for s in order:
    print('* **%s** (%d theorems): %s' % (lab[s], len(sets[s]), ', '.join('`%s`' % a for a in s) if s else 'Closed under the global context'))
print('\n| property | theorem (assumption set) |\n|---|---|')
inv = {t: lab[s] for s, ts in sets.items() for t in ts}
for c in man['claims']:
    print('| %s (%s) | %s |' % (c['property'], c['status'], ', '.join('`%s` (%s)' % (t, inv[t]) for t in c['theorems'])))
