#!/usr/bin/env python3
"""Collect what Print Assumptions reports for every theorem of MANIFEST.json.
Run in a built tree; prints a Markdown fragment for DESIGN.md.  With names of modules as
arguments only these are asked; what DESIGN.md says about the other theorems is kept."""
import json, re, subprocess, glob, os, sys
root = os.path.dirname(os.path.dirname(os.path.abspath(__file__)))
claims = json.load(open(root + '/MANIFEST.json'))['claims']
names = [t for c in claims for t in c['theorems']]
where = {}
for f in glob.glob(root + '/rocq/theories/*.v'):
    for m in re.finditer(r'^(?:Theorem|Lemma|Corollary) (C\d+_\w+)', open(f).read(), re.M):
        where[m.group(1)] = os.path.basename(f)[:-2]
mods = sorted(set(where[n] for n in names))
groups = {}
if sys.argv[1:]:
    mods = sys.argv[1:]
    old = {}
    for line in re.search(r'<!-- assumptions -->\n(.*?)<!-- /assumptions -->', open(root + '/DESIGN.md').read(), re.S).group(1).splitlines():
        if line.startswith('* `'):
            ax, _, ns = line[2:].partition(': ')
            for n in ns.rstrip('.').split(', '): old[n] = tuple(a.strip('`') for a in ax.split(', '))
    for n in names:
        if where[n] not in mods: groups.setdefault(old.get(n, ()), []).append(n)
for mod in mods:
    mine = [n for n in names if where[n] == mod]
    src = 'From Verif Require Import %s.\n' % mod
    for n in mine:
        src += 'Goal True. idtac "@@ %s". exact I. Qed.\nPrint Assumptions %s.%s.\n' % (n, mod, n)
    open('/tmp/assum.v', 'w').write(src)
    out = subprocess.run(['coqc', '-Q', root + '/rocq/theories', 'Verif', '/tmp/assum.v'], capture_output=True, text=True, cwd='/tmp')
    if out.returncode: raise SystemExit(mod + ': ' + out.stderr)
    for part in out.stdout.split('@@ ')[1:]:
        n, _, rest = part.partition('\n')
        ax = tuple(sorted(set(re.findall(r'^([A-Za-z_][\w.]*)(?: *:|$)', rest, re.M)) - {'Axioms'}))
        if 'Closed' in rest: ax = ()
        groups.setdefault(ax, []).append(n)
if sum(map(len, groups.values())) != len(names): raise SystemExit('some theorems were not reported')
for ax in sorted(groups, key=lambda a: (len(a), a)):
    if not ax: print('* Closed under the global context: all theorems of MANIFEST.json but the following (%d of %d).' % (len(groups[ax]), len(names)))
    else: print('* %s: %s.' % (', '.join('`%s`' % a for a in ax), ', '.join(groups[ax])))
