#!/usr/bin/env python3
"""Seeded faults: apply one edit at a time to the model in a scratch copy, rebuild, record which theorems fail.
Usage: mutate.py FILE.json   (list of {file, definition, old, new, claim, props})"""
import json, os, re, subprocess, sys, shutil
SRC='/verif/rocq'; W=os.environ.get('MUTDIR','/tmp/mut')
LOG='/verif/seeded/LOG.jsonl'
def sh(c,t=1500): return subprocess.run(c,shell=True,capture_output=True,text=True,timeout=t)
def decls(path):
    out=[]
    for i,l in enumerate(open(path),1):
        m=re.match(r'\s*(?:Local )?(Lemma|Theorem|Example|Definition|Fixpoint|Corollary|Record|Inductive|Ltac)\s+([\w\']+)',l)
        if m: out.append((i,m.group(1),m.group(2)))
    return out
def graph(th):
    """(file, name) -> (kind, (file, name) of the lemmas its text mentions, found in its file or in required files)."""
    raw={}; req={}
    for f in os.listdir(th):
        if not f.endswith('.v'): continue
        t=open(th+'/'+f).read(); L=t.split('\n'); D=decls(th+'/'+f); b=f[:-2]
        req[b]={x for m in re.findall(r'From Verif Require (?:Import|Export)?\s*([^.]*)\.',t) for x in m.split()}
        for k,(i,kind,n) in enumerate(D):
            e=D[k+1][0]-1 if k+1<len(D) else len(L)
            raw[(b,n)]=(kind,set(re.findall(r"[A-Za-z_][\w']*",re.sub(r'Print Assumptions [^.]*\.','','\n'.join(L[i-1:e])))))
    def clo(b,seen):
        for x in req.get(b,()):
            if x not in seen: seen.add(x); clo(x,seen)
        return seen
    cl={b:clo(b,set()) for b in req}
    byname={}
    for (b,n) in raw: byname.setdefault(n,[]).append(b)
    body={}
    for (b,n),(kind,u) in raw.items():
        s=set()
        for x in u:
            bs=byname.get(x,[])
            if b in bs: s.add((b,x))
            else: s|={(c,x) for c in bs if c in cl[b]}
        body[(b,n)]=(kind,s-{(b,n)})
    return body
def main():
    muts=json.load(open(sys.argv[1]))
    done=set()
    if os.path.exists(LOG):
        for l in open(LOG):
            d=json.loads(l); done.add((d['definition'],d['edit']))
    sh(f'rm -rf {W} && mkdir -p {W} && git -C /verif archive HEAD rocq | tar -x -C {W} && mv {W}/rocq {W}/snap'); r=sh(f'cd {W}/snap && coq_makefile -f _CoqProject -o Makefile && make -j3')
    if r.returncode: sys.exit('the unchanged model does not build: '+r.stderr[-500:])
    for m in muts:
        edit='%s  ==>  %s'%(m['old'],m['new'])
        if (m['definition'],edit) in done: continue
        sh(f'rm -rf {W}/rocq && cp -a {W}/snap {W}/rocq')
        p=f"{W}/rocq/theories/{m['file']}.v"; s=open(p).read()
        if s.count(m['old'])!=1: print('BAD',m['definition'],s.count(m['old'])); continue
        open(p,'w').write(s.replace(m['old'],m['new']))
        try: r=sh(f'cd {W}/rocq && (test -f Makefile || coq_makefile -f _CoqProject -o Makefile) && timeout 1400 make -k -j3 2>&1')
        except Exception as e: print('TIMEOUT',m['definition']); sh('pkill -f %s'%W); continue
        out=r.stdout
        fails=[]
        for mm in re.finditer(r'File "\./?(?:theories/)?(\w+)\.v", line (\d+), characters [\d-]+:\nError',out):
            f,l=mm.group(1),int(mm.group(2)); n='?';k='?'
            for (i,kind,nm) in decls(f'{W}/rocq/theories/{f}.v'):
                if i<=l: n=nm;k=kind
            fails.append((f,n,k))
        B=graph(f'{W}/rocq/theories'); K=('Lemma','Theorem','Corollary','Example','Ltac')
        ch=True
        reach={(f,n) for f,n,_ in fails}
        while ch:
            ch=False
            for n,(k,u) in B.items():
                if n not in reach and k in K and any(x in reach and x in B and B[x][0] in K for x in u):
                    reach.add(n); ch=True
        props=sorted(n for _,n in reach if re.match(r'c\d\d',n))
        rec={'definition':m['file']+'.'+m['definition'],'edit':edit,'claim_broken':m['claim'],
             'theorems_failed':props,'failing_proofs':sorted(f'{f}.{n}' for f,n,_ in fails),'theorems_tightened':m.get('tightened',[])}
        key={'definition':m['definition'],'edit':edit}
        rec['definition']=m['definition']; rec['file']=m['file']+'.v'
        if fails or m.get('keep'):
            open(LOG,'a').write(json.dumps(rec)+'\n')
        print('OK' if props else 'SURVIVED',m['definition'],m['claim'],props[:8],[n for _,n,_ in fails],flush=True)
main()
