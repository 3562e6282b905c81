import json,subprocess,re,os
m=json.load(open('/verif/MANIFEST.json'))
th={}
for f in sorted(os.listdir('/verif/rocq/theories')):
    if f.startswith('P_') and f.endswith('.v'):
        for n in re.findall(r'^\s*(?:Local |Global )?(?:Theorem|Lemma|Corollary)\s+(C\d+_\w+)',open('/verif/rocq/theories/'+f).read(),re.M): th[n]=f[:-2]
names=[t for c in m['claims'] for t in c['theorems']]
src='From Coq Require Import String. Open Scope string_scope.\nFrom Verif Require '+' '.join(sorted(set(th.values())))+'.\n'
for n in names: src+='Eval compute in "MARK_%s".\nPrint Assumptions %s.%s.\n'%(n,th[n],n)
os.makedirs('/tmp/ax',exist_ok=True); open('/tmp/ax/Ax.v','w').write(src)
out=subprocess.run(['coqc','-Q','/verif/rocq/theories','Verif','/tmp/ax/Ax.v'],capture_output=True,text=True)
txt=out.stdout; open('/tmp/ax/out.txt','w').write(txt+out.stderr)
parts=re.split(r'= "MARK_(\w+)"\s*: string',txt)
res={}
for i in range(1,len(parts),2):
    body=parts[i+1]
    ax=tuple(sorted(set(re.findall(r'^([\w.]+)\s*(?::|$)',body,re.M))-{'Axioms'}))
    res[parts[i]]=ax
json.dump(res,open('/tmp/ax/ax.json','w')); json.dump(res,open('/verif/tools/axioms.json','w'),indent=0,sort_keys=True)
from collections import Counter
for k,v in Counter(res.values()).items(): print(v,k)
print(len(names),len(res),set(names)-set(res)); print(txt[-300:] if out.returncode else '')
