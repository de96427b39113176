#!/usr/bin/env python3
"""Print Assumptions for every theorem named in MANIFEST.json (needs a finished build).
Writes tools/assumptions.txt."""
import json,re,os,subprocess,tempfile
T='/verif/rocq/theories'
where={}
for f in sorted(os.listdir(T)):
    if f.endswith('.v'):
        for n in re.findall(r'^\s*(?:Theorem|Lemma|Corollary|Example|Fact|Remark)\s+(\w+)',open(f'{T}/{f}').read(),re.M):
            where.setdefault(n,[]).append(f[:-2])
names=[]
for c in json.load(open('/verif/MANIFEST.json'))['claims']:
    for t in c['theorems']:
        if t not in names: names.append(t)
L=[];mods=[]
for t in names:
    n=t.split('.')[-1]
    for m in where[n]:
        if m not in mods: mods.append(m); L.append(f'From Verif Require {m}.')
d=tempfile.mkdtemp()
body='\n'.join(L)+'\n'
for t in names:
    for m in where[t.split('.')[-1]]:
        body+=f'Fail Fail Check Verif.{m}.{t.split(".")[-1]}.\nPrint Assumptions Verif.{m}.{t.split(".")[-1]}.\n'
open(d+'/A.v','w').write(body)
p=subprocess.run(['coqc','-Q',T,'Verif','A.v'],cwd=d,capture_output=True,text=True)
out=p.stdout
closed=out.count('Closed under the global context')
axioms=re.findall(r'^Axioms:\n((?:.+\n)+)',out,re.M)
q=[(m,t) for t in names for m in where[t.split('.')[-1]]]
with open('/verif/tools/assumptions.txt','w') as f:
    f.write(f'{len(q)} theorems named in MANIFEST.json; "Closed under the global context": {closed}; with axioms: {len(axioms)}\n')
    for a in axioms: f.write(a)
    for m,t in q: f.write(f'{m}.{t}\n')
print(p.returncode,p.stderr[-500:],len(q),closed,axioms[:2])
