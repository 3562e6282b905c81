"""DESIGN.md = tools/design_head.md + sections 4-6, from properties.jsonl, MANIFEST.json, the headers of M_*.v,
tools/areas.json (area -> model files, shape of proof) and tools/axioms.json (tools/axioms.py)."""
import json,re,os
V='/verif/'; T=V+'rocq/theories/'
head=open(V+'tools/design_head.md').read()
props=[json.loads(l) for l in open(V+'properties.jsonl') if l.strip()]
man={c['property']:c for c in json.load(open(V+'MANIFEST.json'))['claims']}
areas=json.load(open(V+'tools/areas.json')); ax=json.load(open(V+'tools/axioms.json'))
th={}
for f in sorted(os.listdir(T)):
    if f.startswith('P_') and f.endswith('.v'):
        for n in re.findall(r'^\s*(?:Local |Global )?(?:Theorem|Lemma|Corollary)\s+(C\d\d+_\w+)',open(T+f).read(),re.M): th[n]=f[:-2]
o=[head.rstrip(),'','## 4. Properties, models, proofs','','### 4.1 By area','','| Theorems | Model | What is modelled and how it is proved |','|---|---|---|']
for p in sorted({*th.values()}):
    a=areas.get(p,{'model':'?','how':'?'}); o.append(f"| {p}.v | {a['model']} | {a['how']} |")
o+=['','### 4.2 By property','','| Property | Title | Status | Area | Theorems |','|---|---|---|---|---|']
for p in props:
    c=man[p['id']]; ts=c['theorems']
    o.append(f"| {p['id']} | {p['title']} | {c['status']} | {', '.join(sorted({th[t] for t in ts}))} | {', '.join('`'+t+'`' for t in ts)} |")
o+=['','## 5. Which code is modelled','','Every definition of an `M_*.v` file carries the lines it models. By file:','']
for f in sorted(os.listdir(T)):
    if f.startswith('M_') and f.endswith('.v'):
        s=open(T+f).read(); h=s[s.index('(**')+3:s.index('*)')]
        o.append(f"* `{f}`: "+' '.join(h.split()))
o+=['',open(V+'tools/design_not.md').read().rstrip(),'','## 6. Print Assumptions of each theorem','',
'Abbreviations: S = `ClassicalDedekindReals.sig_forall_dec`, N = `ClassicalDedekindReals.sig_not_dec`, C = `Classical_Prop.classic`,',
'F = `FunctionalExtensionality.functional_extensionality_dep`; "closed" = closed under the global context. All four are axioms of',
'the standard library; S, N, F come with its real numbers, C with some of its lemmas about them. Nothing else appears.','']
short={'ClassicalDedekindReals.sig_forall_dec':'S','ClassicalDedekindReals.sig_not_dec':'N','Classical_Prop.classic':'C','FunctionalExtensionality.functional_extensionality_dep':'F'}
g={}
for p in props:
    for t in man[p['id']]['theorems']:
        k=' '.join(x for x in 'SNCF' if x in [short[a] for a in ax[t]]) or 'closed'
        g.setdefault(k,[]).append(t)
for k in sorted(g,key=len): o+=[f"* **{k}** ({len(g[k])}): "+', '.join(f'`{t}`' for t in g[k])+'.']
open(V+'DESIGN.md','w').write('\n'.join(o)+'\n')
