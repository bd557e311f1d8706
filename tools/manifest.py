#!/usr/bin/env python3
"""Regenerate MANIFEST.json from theorem names in rocq/theories and /verif/notes (status+notes)."""
import re,json,glob,os
props=[json.loads(l) for l in open('/verif/properties.jsonl') if l.strip()]
notes=json.load(open('/verif/tools/notes.json')) if os.path.exists('/verif/tools/notes.json') else {}
th={}
for f in sorted(glob.glob('/verif/rocq/theories/*.v')):
    for m in re.finditer(r'^(?:Theorem|Corollary)\s+((C\d\d\d?)_\w+)',open(f).read(),re.M):
        th.setdefault(m.group(2),[]).append(m.group(1))
claims=[]
for p in props:
    i=p['id']
    if i not in th and i not in notes: continue
    t=th.get(i,[])
    st='proved'
    if any(x.endswith('_partial') or x.endswith('_refuted') for x in t): st='partial'
    n=notes.get(i,{})
    claims.append({"property":i,"status":n.get("status",st),"theorems":t,"note":n.get("note","")})
json.dump({"claims":claims},open('/verif/MANIFEST.json','w'),indent=1)
print(len(claims),'claims',sum(len(c['theorems']) for c in claims),'theorems; missing notes:',[c['property'] for c in claims if not c['note']])
