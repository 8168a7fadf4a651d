#!/usr/bin/env python3
"""Writes DESIGN.md: tools/design_head.md, tools/findings.md, per-property plan and Print Assumptions table."""
import json,re,sys,subprocess,glob,os,tempfile
V='/verif'; T=V+'/rocq/theories'
man={c['property']:c for c in json.load(open(V+'/MANIFEST.json'))['claims']}
props=[json.loads(l) for l in open(V+'/properties.jsonl')]
where={}
for f in sorted(glob.glob(T+'/Properties_*.v')):
    for x in re.findall(r'^\s*Theorem (C\d+_\w+)',open(f).read(),re.M): where[x]=os.path.basename(f)[:-2]
plan=json.load(open(V+'/tools/plan.json'))
ax={}
d=tempfile.mkdtemp()
with open(d+'/Chk.v','w') as o:
    o.write('From Verif Require Import '+' '.join(sorted(set(where.values())))+'.\n')
    # --inc: theorems already listed in DESIGN.md are not checked again
    known=dict(re.findall(r'^\| (C\d+_\w+) \| \w+ \| (\S+) \|$',open(V+'/DESIGN.md').read(),re.M)) if '--inc' in sys.argv else {}
    for x in where:
        if x in known: ax[x]=known[x]; continue
        o.write(f'Goal True. idtac "@@{x}". Abort.\nPrint Assumptions {x}.\n')
out=subprocess.run(['coqc','-Q',T,'Verif',d+'/Chk.v'],stdout=subprocess.PIPE,stderr=subprocess.STDOUT,text=True).stdout
for blk in out.split('@@')[1:]:
    n=blk.split('\n')[0].strip(' "'); s=[]
    for k,t in (('sig_forall_dec','S'),('sig_not_dec','N'),('functional_extensionality_dep','F'),('classic','C')):
        if re.search(r'\b%s\s*:'%k,blk): s.append(t)
    if 'Closed under' not in blk and not s: s=['?'+blk[:60]]
    ax[n]=''.join(s) or '-'
with open(V+'/DESIGN.md','w') as o:
    o.write(open(V+'/tools/design_head.md').read()+'\n'+open(V+'/tools/findings.md').read()+'\n')
    o.write('## Properties: model and proof\n')
    for p in props:
        fs=sorted({where[t] for t in man[p['id']]['theorems'] if t in where})
        area=', '.join(f[len('Properties_'):] for f in fs)
        o.write(f"* **{p['id']}** {p['title']} ({man[p['id']]['status']}): model {area}_Model; {plan.get(p['id']) or 'executable model of the cited functions; proved by induction, case analysis or real algebra on it'}.\n")
    o.write('\n## Print Assumptions, theorem by theorem\nS = sig_forall_dec, N = sig_not_dec, F = functional_extensionality_dep, C = classic; - = closed under the global context.\n\n| theorem | file | axioms |\n|---|---|---|\n')
    for x in sorted(where,key=lambda t:(int(re.match(r'C(\d+)',t).group(1)),t)): o.write(f"| {x} | {where[x]} | {ax.get(x,'?')} |\n")
print(len(where),{v for v in ax.values()})
