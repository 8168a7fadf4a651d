#!/usr/bin/env python3
"""append the results of seed.py to seeded/LOG.jsonl: seed_log.py id... [--tightened 'text']"""
import json,sys
args=sys.argv[1:]; t=[]
if '--tightened' in args:
    i=args.index('--tightened'); t=args[i+1:]; args=args[:i]
with open('/verif/seeded/LOG.jsonl','a') as o:
    for i in args:
        r=json.load(open(f'/tmp/seed/res_{i}.json'))
        e={'definition':f"{r['file']}.v: {r['definition']}",'edit':r['edit'],'claim_broken':r['claim'],
           'theorems_failed':r.get('failed',[]),'lemmas_failed':r.get('broken',[]),'theorems_tightened':t}
        if r.get('error'): e['note']=r['error']
        o.write(json.dumps(e)+'\n')
