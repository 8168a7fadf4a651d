#!/usr/bin/env python3
"""Regenerate MANIFEST.json from properties.jsonl, Properties_*.v and notes.json."""
import json,re,glob,os
root=os.path.dirname(os.path.dirname(os.path.abspath(__file__)))
props=[json.loads(l) for l in open(root+'/properties.jsonl') if l.strip()]
notes=json.load(open(root+'/tools/notes.json')) if os.path.exists(root+'/tools/notes.json') else {}
th={}
for f in sorted(glob.glob(root+'/rocq/theories/Properties_*.v')):
    for m in re.finditer(r'^\s*Theorem ((C\d+)_\w+)',open(f).read(),re.M):
        th.setdefault(m.group(2),[]).append(m.group(1))
claims=[]
for p in props:
    i=p['id']; t=th.get(i,[]); n=notes.get(i,{})
    st=n.get('status') or ('proved' if t and not any(x.endswith('_partial') for x in t) else 'partial')
    note=n.get('note','')
    if not t: st='partial'; note=note or 'not yet modelled'
    claims.append(dict(property=i,status=st,theorems=t,note=note))
json.dump({"claims":claims},open(root+'/MANIFEST.json','w'),indent=1)
missing=[c['property'] for c in claims if not c['theorems']]
print(len(claims),'claims; without theorem:',missing)
extra=set(th)-{p['id'] for p in props}
if extra: print('theorems without property',extra)
