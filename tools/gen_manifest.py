#!/usr/bin/env python3
"""Regenerates MANIFEST.json: theorem names are collected from rocq/theories/Props_*.v by their Cnn_ prefix."""
import json, re, glob, os
root=os.path.dirname(os.path.dirname(os.path.abspath(__file__)))
props=[json.loads(l) for l in open(root+'/properties.jsonl')]
th={}
for f in sorted(glob.glob(root+'/rocq/theories/Props_*.v')):
    for m in re.finditer(r'^Theorem (C\d\d_\w+)', open(f).read(), re.M):
        th.setdefault(m.group(1)[:3],[]).append(m.group(1))
notes=json.load(open(root+'/tools/notes.json'))
claims=[]
for p in props:
    i=p['id']; n=notes.get(i,{})
    names=th.get(i,[])
    st=n.get('status') or ('proved' if names else 'partial')
    claims.append(dict(property=i,status=st,theorems=names,note=n.get('note','' if names else 'not yet proved')))
json.dump(dict(claims=claims),open(root+'/MANIFEST.json','w'),indent=1)
print({s:sum(c['status']==s for c in claims) for s in ('proved','partial','not_applicable')}, [c['property'] for c in claims if not c['theorems']])
