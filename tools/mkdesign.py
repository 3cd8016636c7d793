#!/usr/bin/env python3
"""Fills the generated parts of DESIGN.md: the table of section 3 (from tools/plan.txt and tools/notes.json)
and section 7 (from tools/assumptions.py, needs a built rocq/ tree)."""
import json, os, re, subprocess, sys
here = os.path.dirname(os.path.dirname(os.path.abspath(__file__)))
notes = json.load(open(here + '/tools/notes.json'))
man = {c['property']: c for c in json.load(open(here + '/MANIFEST.json'))['claims']}
rows = ['| property | code modelled | model | proof | status and restrictions |', '|---|---|---|---|---|']
for l in open(here + '/tools/plan.txt'):
    p, code, mod, how = l.strip().split('|')
    rows.append('| %s | %s | %s | %s | %s. %s |' % (p, code, mod, how, man[p]['status'], notes.get(p, '')))
ass = subprocess.run([sys.executable, here + '/tools/assumptions.py'], capture_output=True, text=True, check=True).stdout
s = open(here + '/DESIGN.md').read()
def put(s, name, body):
    b, e = '<!-- BEGIN %s -->' % name, '<!-- END %s -->' % name
    i, j = s.index(b) + len(b), s.index(e)
    return s[:i] + '\n' + body.strip() + '\n' + s[j:]
s = put(s, 'PLAN', '\n'.join(rows)); s = put(s, 'ASSUMPTIONS', ass)
open(here + '/DESIGN.md', 'w').write(s)
