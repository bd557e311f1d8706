#!/usr/bin/env python3
"""Fill the generated sections of DESIGN.md (results per property; assumptions of all theorems with --all, of those in the given modules otherwise)."""
import json, os, re, subprocess, sys
root = os.path.dirname(os.path.dirname(os.path.abspath(__file__)))
claims = json.load(open(root + '/MANIFEST.json'))['claims']
title = {}
for line in open(root + '/properties.jsonl'):
    o = json.loads(line); title[o['id']] = o['title']
def put(s, name, text):
    return re.sub(r'(<!-- %s -->\n).*?(<!-- /%s -->)' % (name, name), lambda m: m.group(1) + text + m.group(2), s, flags=re.S)
res = ''
for c in claims:
    good = [t for t in c['theorems'] if not t.endswith('_refuted')]
    bad = [t for t in c['theorems'] if t.endswith('_refuted')]
    res += '* **%s %s** (%s). %s\n  Theorems: %s.%s\n' % (c['property'], title[c['property']], c['status'], c['note'], ', '.join(good) or 'none', ' Refuted: %s.' % ', '.join(bad) if bad else '')
s = open(root + '/DESIGN.md').read()
s = put(s, 'results', res)
if '--all' in sys.argv or sys.argv[1:]:
    out = subprocess.run([sys.executable, root + '/tools/assumptions.py'] + [a for a in sys.argv[1:] if a != '--all'], stdout=subprocess.PIPE, text=True, check=True).stdout
    s = put(s, 'assumptions', out)
open(root + '/DESIGN.md', 'w').write(s)
