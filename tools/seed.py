#!/usr/bin/env python3
"""Seeded-bug runner.  usage: seed.py mutants.json [ids...]
Each mutant: {id, area, file, old, new, definition, edit, claim}.  Works in a scratch copy outside
/verif: applies the edit, recompiles the files of the area; every lemma whose proof breaks is
replaced by Admitted (scratch only) so that the rest of the file is still examined; then reports
which property theorems no longer hold without such an admitted lemma (Print Assumptions)."""
import json,sys,os,re,subprocess,shutil,concurrent.futures as cf
V='/verif/rocq'; S='/tmp/seed'
HEAD=re.compile(r'^\s*(?:Local |Global )?(Lemma|Theorem|Example|Corollary|Fact|Remark|Definition|Instance)\s+([A-Za-z0-9_\']+)',re.M)
def files():
    return [l.strip()[len('theories/'):-2] for l in open(V+'/_CoqProject') if l.strip().startswith('theories/')]
def comp(d,f,to=1500):
    try:
        p=subprocess.run(['coqc','-Q','.','Verif',f+'.v'],cwd=d,stdout=subprocess.PIPE,stderr=subprocess.STDOUT,text=True,timeout=to)
        return p.returncode,p.stdout
    except subprocess.TimeoutExpired: return 124,'TIMEOUT'
def run(m):
    d=f'{S}/{m["id"]}'; shutil.rmtree(d,ignore_errors=True); os.makedirs(d)
    fs=files()
    for f in fs:
        for e in ('.v','.vo','.glob'):
            if e!='.glob': 
                src=f'{V}/theories/{f}{e}'
                if e=='.v': shutil.copy(src,d)
                else: os.link(src,f'{d}/{f}{e}') if os.stat(src).st_dev==os.stat(d).st_dev else os.symlink(src,f'{d}/{f}{e}')
    t=open(f'{d}/{m["file"]}.v').read()
    if t.count(m['old'])<1: return dict(m,error='old text not found')
    if m.get('all'): t=t.replace(m['old'],m['new'])
    else: t=t.replace(m['old'],m['new'],1)
    open(f'{d}/{m["file"]}.v','w').write(t)
    areas=m['area'] if isinstance(m['area'],list) else [m['area']]
    todo=[f for f in fs if f==m['file'] or ((any(f.startswith(a+'_') or f=='Properties_'+a for a in areas)) and fs.index(f)>=fs.index(m['file']))]
    broken=[]
    for f in todo:
        vo=f'{d}/{f}.vo'
        if os.path.lexists(vo): os.remove(vo)
    for f in todo:
        fp=f'{d}/{f}.v'; tt=open(fp).read(); open(fp,'w').write('Set Default Timeout 60. '+tt)
        for it in range(80):
            rc,out=comp(d,f)
            if rc==0: break
            if rc==124: return dict(m,error=f'timeout in {f}',broken=broken)
            lm=[x for x in re.finditer(r'File "\./%s\.v", line (\d+)'%f,out)]
            err=out.rfind('\nError'); err=err if err>=0 else out.find('Error')
            ln=None
            for x in lm:
                if x.start()<err: ln=int(x.group(1))
            if ln is None: return dict(m,error=f'no location in {f} rc={rc}: {out[-300:]}',broken=broken)
            src=open(f'{d}/{f}.v').read(); L=src.split('\n'); pos=sum(len(x)+1 for x in L[:ln-1])
            # end of line position
            endpos=pos+len(L[ln-1])
            hs=[h for h in HEAD.finditer(src) if h.start()<=endpos]
            if not hs: return dict(m,error=f'no head {f}:{ln} {out[-300:]}',broken=broken)
            h=hs[-1]
            pf=re.compile(r'\bProof\b').search(src,h.start())
            q=re.compile(r'\b(Qed|Defined)\.').search(src,h.start())
            nx=HEAD.search(src,h.end())
            if h.group(1)=='Definition' or not pf or not q or (nx and pf.start()>nx.start()) or (pf.start()>endpos):
                if h.group(1)=='Definition' or h.group(2) not in [b.split(':')[1] for b in broken]:
                    return dict(m,error=f'statement/definition breaks: {f}:{h.group(2)}: {out[err:err+300]}',broken=broken)
            src=src[:pf.start()]+'Admitted.'+src[q.end():]
            broken.append(f'{f}:{h.group(2)}')
            open(f'{d}/{f}.v','w').write(src)
        else: return dict(m,error='too many',broken=broken)
    props=[f for f in fs if f.startswith('Properties_') and f in todo]
    ths=[]; 
    for f in props:
        ths+=[(f,x) for x in re.findall(r'^\s*Theorem (C\d+_\w+)',open(f'{d}/{f}.v').read(),re.M)]
    with open(d+'/Chk.v','w') as o:
        o.write('From Verif Require Import '+' '.join(sorted(set(f for f,_ in ths)))+'.\n')
        for f,x in ths: o.write(f'Goal True. idtac "@@{x}". Abort.\nPrint Assumptions {x}.\n')
    rc,out=comp(d,'Chk')
    failed=[];survived=[]
    bn=[b.split(':')[1] for b in broken]
    for blk in out.split('@@')[1:]:
        n=blk.split('\n')[0].strip(' "')
        names=set(re.findall(r'([A-Za-z0-9_\']+)\s*(?:\n\s*)?:',blk))|set(blk.split())
        names={x.split('.')[-1] for x in names}
        (failed if any(b in names for b in bn) else survived).append(n)
    shutil.rmtree(d,ignore_errors=True)
    return dict(m,broken=broken,failed=failed,survived=survived)
if __name__=='__main__':
    ms=json.load(open(sys.argv[1])); ids=sys.argv[2:]
    if ids: ms=[m for m in ms if m['id'] in ids]
    os.makedirs(S,exist_ok=True)
    with cf.ThreadPoolExecutor(int(os.environ.get("SEEDJ","2"))) as ex:
        for r in ex.map(run,ms):
            json.dump(r,open(f'{S}/res_{r["id"]}.json','w'))
            cl=re.findall(r'C\d+',r['claim']); fl=r.get('failed') or []
            miss=[c for c in cl if not any(x.startswith(c+'_') for x in fl)]
            sv=[x for x in (r.get('survived') or []) if x.split('_')[0] in cl]
            print(r['id'],'|',r['edit'],'|',r.get('error',''),'|','MISS '+str(miss) if miss else 'ok','| claim-survivors',sv,'| failed',sorted(set(x.split('_')[0] for x in fl)),flush=True)
