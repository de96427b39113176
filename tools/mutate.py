#!/usr/bin/env python3
"""Seeded-bug harness.  usage: mutate.py MUTATIONS.py
MUTATIONS.py defines MODS = [(prefix modules in order...)] and MUTS = list of dicts
  file, defn, old, new, edit, claim.
Works in /tmp/mut (a scratch copy), appends to /verif/seeded/LOG.jsonl."""
import sys,os,re,subprocess,json,shutil
import tempfile
R=tempfile.mkdtemp(prefix='mutsrc')+'/t'; W=tempfile.mkdtemp(prefix='mut'); shutil.copytree('/verif/rocq/theories',R)
ns={}; exec(open(sys.argv[1]).read(),ns)
dry=len(sys.argv)>2
def closure(f):
    # modules depending (transitively) on f, in dependency order
    deps={}
    for v in os.listdir(R):
        if v.endswith('.v'):
            t=open(f'{R}/{v}').read(); d=set()
            for m in re.findall(r'From Verif Require (?:Import |Export |)([^.]*)\.',t): d|=set(m.split())
            deps[v[:-2]]=d
    need={f}; ch=True
    while ch:
        ch=False
        for m,d in deps.items():
            if m not in need and d&need: need.add(m); ch=True
    order=[];
    def visit(m):
        if m in order: return
        for d in deps.get(m,()):
            if d in need: visit(d)
        order.append(m)
    for m in sorted(need): visit(m)
    return order
def compile1(m):
    try:
        p=subprocess.run(['coqc','-Q','.','Verif',m+'.v'],cwd=W,capture_output=True,text=True,timeout=int(os.environ.get('T','300')))
        return p.returncode,p.stdout+p.stderr
    except subprocess.TimeoutExpired: return 99,'TIMEOUT'
def run(mu):
    shutil.rmtree(W,ignore_errors=True); shutil.copytree(R,W)
    p=f"{W}/{mu['file']}.v"; s=open(p).read()
    if s.count(mu['old'])<1: return None,'pattern not found'
    s=s.replace(mu['old'],mu['new'],1); open(p,'w').write(s)
    failed=[]
    mods=closure(mu['file'])
    only=mu.get('only')
    for m in mods:
        if only and not any(m.startswith(x) for x in only): continue
        for _ in range(80):
            rc,out=compile1(m)
            if rc==0: break
            g=re.search(r'line (\d+), characters',out)
            if not g: return failed+['?'],out[-300:]
            ln=int(g.group(1)); L=open(f'{W}/{m}.v').read().split('\n')
            i=ln-1; 
            # a failing Qed, or inside proof
            while i>=0 and not re.match(r'\s*(Theorem|Lemma|Corollary|Example|Fact|Remark)\s',L[i]): i-=1
            if i<0: return failed+['?'],out[-300:]
            # Is ln inside this proof?
            j=i
            while j<len(L) and not re.search(r'(Qed|Defined)\.',L[j]): j+=1
            nm=re.match(r'\s*\w+\s+(\w+)',L[i]).group(1)
            if j<ln-1: return failed+['definition:'+L[ln-1].strip()[:60]],out[-300:]
            failed.append(nm)
            k=i
            while k<=j and not re.search(r'\bProof\b',L[k]): k+=1
            if k>j: k=i
            head=L[k][:L[k].index('Proof')] if 'Proof' in L[k] else L[k]
            tail=L[j][re.search(r'(Qed|Defined)\.',L[j]).end():]
            new=[head+'Proof. Admitted.'+tail]+['']*(j-k)
            L[k:j+1]=new
            open(f'{W}/{m}.v','w').write('\n'.join(L))
    return failed,''
for mu in ns['MUTS']:
    f,msg=run(mu)
    print(mu['defn'],'|',mu['edit'],'->',f,msg[:300].replace('\n',' '),flush=True)
    if f is None or dry: continue
    with open('/verif/seeded/LOG.jsonl','a') as h:
        h.write(json.dumps({'definition':mu['defn'],'file':f"rocq/theories/{mu['file']}.v",'edit':mu['edit'],'claim':mu['claim'],'theorems_failed':f,'theorems_tightened':mu.get('tightened',[])})+'\n')
