#!/usr/bin/env python3
"""Builds MANIFEST.json from tools/claims.txt: lines 'Cnn | status | thm thm ... | note'."""
import json,os,re
here=os.path.dirname(os.path.abspath(__file__)); root=os.path.dirname(here)
claims={}
for l in open(os.path.join(here,'claims.txt')):
    l=l.strip()
    if not l or l.startswith('#'): continue
    pid,st,th,note=[x.strip() for x in l.split('|',3)]
    claims[pid]={"property":pid,"status":st,"theorems":th.split(),"note":note}
src="".join(open(os.path.join(root,'rocq/theories',f)).read() for f in os.listdir(os.path.join(root,'rocq/theories')) if f.endswith('.v'))
names=set(re.findall(r'^\s*(?:Theorem|Lemma|Example|Corollary)\s+(\w+)',src,re.M))
for c in claims.values():
    for t in c['theorems']:
        if t not in names: print("MISSING THEOREM",c['property'],t)
props=[json.loads(l)['id'] for l in open(os.path.join(root,'properties.jsonl'))]
for p in props:
    if p not in claims: print("no claim for",p)
json.dump({"claims":[claims[k] for k in sorted(claims,key=lambda s:int(s[1:]))]},open(os.path.join(root,'MANIFEST.json'),'w'),indent=1)
