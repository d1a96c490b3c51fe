#!/usr/bin/env python3
"""mut.py spec.json : apply each mutation to a scratch copy of the model and
report the theorems whose proofs no longer go through."""
import json, os, re, shutil, subprocess, sys
SRC=os.environ.get('SRC','/verif/rocq'); D=os.environ.get('DST','/tmp/mut/rocq')
specs=json.load(open(sys.argv[1]))
only=[int(x) for x in sys.argv[2:]] if len(sys.argv)>2 else None
log='/verif/seeded/LOG.jsonl'
START=re.compile(r'^\s*(?:Global |Local |#\[[^\]]*\] )?(Lemma|Theorem|Example|Corollary|Fact|Remark|Instance|Definition|Fixpoint|Program Definition)\s+([A-Za-z0-9_\']+)',re.M)
for k,m in enumerate(specs):
    if only is not None and k not in only: continue
    subprocess.run(f'rm -rf {D}; cp -a {SRC} {D}',shell=True,check=True)
    p=f'{D}/theories/{m["file"]}'
    s=open(p).read()
    if s.count(m['old'])<1: print('NOT FOUND',k,m['def']); continue
    n=m.get('nth',0); 
    idx=-1
    for _ in range(n+1): idx=s.index(m['old'],idx+1)
    s=s[:idx]+m['new']+s[idx+len(m['old']):]
    open(p,'w').write(s)
    admitted=[]; broken=None
    outs={}
    for it in range(150):
        r=subprocess.run(['timeout','850','make','-j4'],cwd=D,stdout=subprocess.PIPE,stderr=subprocess.STDOUT,text=True)
        if r.returncode==0: break
        es=re.findall(r'File "\./theories/([^"]+)", line (\d+), characters [^\n]*\nError',r.stdout)
        if not es: broken=r.stdout[-400:]; break
        progressed=False
        for f,ln in es:
            q=f'{D}/theories/{f}'; t=open(q).read(); ln=int(ln)
            lines=t.split('\n'); off=sum(len(x)+1 for x in lines[:ln-1])+1
            best=None
            for mm in START.finditer(t):
                if mm.start()<=off: best=mm
            if best is None: broken=f'{f}:{ln}'; break
            a=t.find('Proof',best.start())
            e=re.compile(r'\b(Qed|Defined)\.').search(t,a) if a>=0 else None
            nxt=START.search(t,best.end())
            if a<0 or e is None or (nxt and nxt.start()<a): broken=f'{f}:{ln} in {best.group(2)} (definition)\n'+r.stdout[-600:]; break
            t=t[:a]+'Proof. Admitted.'+t[e.end():]
            open(q,'w').write(t); admitted.append(best.group(2)); progressed=True
        if broken: break
    failed=[]
    if not broken:
        aset=set(admitted)
        for f in sorted(os.listdir(D+'/theories')):
            if not f.endswith('_Thms.v'): continue
            t=open(f'{D}/theories/{f}').read()
            if not any((D,)) : continue
            names=re.findall(r'^Print Assumptions ([A-Za-z0-9_\']+)\.',t,re.M)
            vo=f'{D}/theories/{f}o'
            # only if rebuilt relative to source
            if os.path.getmtime(vo)<=os.path.getmtime(p)-0.0 : continue
            r=subprocess.run(['coqc','-Q','theories','Verif',f'theories/{f}'],cwd=D,stdout=subprocess.PIPE,stderr=subprocess.STDOUT,text=True)
            parts=re.findall(r'^(Closed under the global context|Axioms:)',r.stdout,re.M)
            if len(parts)!=len(names): print('  ?? count mismatch',f,len(parts),len(names))
            failed+= [n for n,x in zip(names,parts) if x=='Axioms:' or n in aset]
    print(f'[{k}] {m["def"]}: {m["edit"]}')
    if broken: print('   BROKEN',broken)
    else: print('   lemmas:',admitted[:8],'\n   theorems failed:',failed)
    if not failed and not broken: print('   !!!!!! SURVIVED')
    if m.get('log',True) and (failed) and '--nolog' not in sys.argv:
        with open(log,'a') as fh:
            fh.write(json.dumps({"definition":m['def'],"edit":m['edit'],"claim":m['claim'],"failed":failed,"tightened":m.get('tightened',[])})+'\n')
    sys.stdout.flush()
