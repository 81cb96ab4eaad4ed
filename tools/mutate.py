#!/usr/bin/env python3
"""Run wrong-program experiments against the model.

usage: mutate.py SPEC.py [start]
SPEC.py defines  M = [(file, definition, old, new, claim), ...].
Each mutant is built in a scratch copy outside /verif; one JSON line per mutant is appended
to /verif/seeded/LOG.jsonl."""
import sys, os, re, json, subprocess, shutil, runpy
SRC=os.environ.get('MUT_SRC','/verif/rocq/theories'); LOG='/verif/seeded/LOG.jsonl'
def deps():
    d={}
    for f in os.listdir(SRC):
        if f.endswith('.v'):
            t=open(f'{SRC}/{f}').read()
            s=set()
            for m in re.finditer(r'From Verif Require (?:Import |Export )?([^.]*)\.',t): s|=set(m.group(1).split())
            for m in re.finditer(r'Require Import ((?:Verif\.\w+\s*)+)\.',t): s|={x.split('.')[1] for x in m.group(1).split()}
            d[f[:-2]]=s
    return d
D=deps()
def topo():
    out=[];seen=set()
    def go(x):
        if x in seen: return
        seen.add(x)
        for y in sorted(D.get(x,())): go(y)
        out.append(x)
    for x in sorted(D): go(x)
    return out
ORDER=topo()
if os.environ.get('MUT_TARGET'):   # only what this module is built from
    need=set(); todo=[os.environ['MUT_TARGET']]
    while todo:
        x=todo.pop()
        if x not in need: need.add(x); todo+=D.get(x,())
    ORDER=[x for x in ORDER if x in need]
def lemma_at(path,line):
    name='?'
    for i,l in enumerate(open(path),1):
        if i>line: break
        m=re.match(r'\s*(?:Local |Global |#\[\w+\] )?(?:Lemma|Theorem|Corollary|Example|Definition|Fixpoint|Fact|Remark)\s+(\w+)',l)
        if m: name=m.group(1)
    return name
def props(path):
    return re.findall(r'^(?:Theorem|Corollary)\s+(C\d\d_\w+)',open(path).read(),re.M)
def run(f,defn,old,new,claim,tight=(),wd='/tmp/mut'):
    shutil.rmtree(wd,ignore_errors=True); os.makedirs(wd)
    subprocess.run(f'cp -p {SRC}/*.v {SRC}/*.vo {wd}/',shell=True,check=True)
    p=f'{wd}/{f}.v'; t=open(p).read()
    n=t.count(old)
    if n!=1: print('!! pattern count',n,f,repr(old)); return None
    open(p,'w').write(t.replace(old,new))
    dirty={f}; bad=set(); failed=[]; blocked=[]
    for x in ORDER:
        if x==f or D[x]&(dirty|bad):
            if D[x]&bad:
                bad.add(x); blocked+=props(f'{wd}/{x}.v'); continue
            dirty.add(x)
            try:
                r=subprocess.run(['bash','-c',f'ulimit -v 7000000; cd {wd}; timeout 400 coqc -Q . Verif {x}.v'],capture_output=True,text=True)
                if r.returncode==0: continue
                m=re.search(r'line (\d+), characters',r.stderr)
                failed.append(x+'.'+(lemma_at(f'{wd}/{x}.v',int(m.group(1))) if m else 'timeout'))
                if x==f and m and 'Model' in x: print('   (model file itself fails: ',r.stderr[-300:],')')
            except Exception as e: failed.append(x+'.'+str(e))
            bad.add(x)
    return failed,blocked
if __name__=='__main__':
    spec=runpy.run_path(sys.argv[1])['M']; wd='/tmp/mut_'+os.path.basename(sys.argv[1])[:-3]
    for k,m in enumerate(spec[int(sys.argv[2]) if len(sys.argv)>2 else 0:]):
        f,defn,old,new,claim=m[:5]; tight=list(m[5]) if len(m)>5 else []
        r=run(f,defn,old,new,claim,tight,wd)
        if r is None: continue
        failed,blocked=r
        tag='KILLED' if failed else '*** SURVIVED'
        print(tag,f,defn,'|',old.strip(),'->',new.strip(),'|',failed,flush=True)
        with open(LOG,'a') as g:
            g.write(json.dumps({"definition":f"{f}.{defn}","edit":f"{old.strip()}  =>  {new.strip()}","claim_broken":claim,
              "theorems_failed":failed,"theorems_blocked_by_failure":blocked[:12],"survived":not failed,"theorems_tightened":tight})+'\n')
