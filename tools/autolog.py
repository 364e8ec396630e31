#!/usr/bin/env python3
"""Adds the results of the automatic mutation run (files res*.jsonl given as arguments) to seeded/LOG.jsonl: one line per mutant that compiles.
theorems_failed: the manifest theorems whose proofs (textually, transitively) use the first lemma that failed."""
import json,sys,os,re,glob
here=os.path.dirname(os.path.abspath(__file__)); root=os.path.dirname(here)
items={}; where={}
rx=re.compile(r"^\s*(?:Local |Global )?(?:Definition|Fixpoint|Theorem|Lemma|Example|Corollary|Remark|Fact|Inductive|Record|Instance)\s+([\w']+)",re.M)
for f in glob.glob(os.path.join(root,'rocq/theories/*.v')):
    s=re.sub(r"\(\*.*?\*\)","",open(f).read(),flags=re.S)
    ms=list(rx.finditer(s))
    for a,b in zip(ms,ms[1:]+[None]):
        body=s[a.end():b.start() if b else len(s)]
        items.setdefault(a.group(1),set()).update(re.findall(r"[A-Za-z_][\w']*",body)); where.setdefault(a.group(1),os.path.basename(f))
names=set(items)
for k in items: items[k]&=names
users={}
for k,v in items.items():
    for x in v: users.setdefault(x,set()).add(k)
man=json.load(open(os.path.join(root,'MANIFEST.json')))
thm={t:c['property'] for c in man['claims'] for t in c['theorems']}
title={json.loads(l)['id']:json.loads(l)['title'] for l in open(os.path.join(root,'properties.jsonl')) if l.strip()}
def up(l):
    seen={l}; st=[l]
    while st:
        for u in users.get(st.pop(),()):
            if u not in seen: seen.add(u); st.append(u)
    return sorted(t for t in seen if t in thm)
T=json.load(open(os.path.join(here,'tightened.json'))); N=json.load(open(os.path.join(here,'equivalent.json')))
res={}
for f in sys.argv[1:]:
    for l in open(f):
        o=json.loads(l)
        if o['v']=='stillborn': continue
        p=res.get(o['id'])
        # a later run (without the examples) replaces a kill that no manifest theorem depends on
        if p and p['v']=='killed' and up(p.get('by','').split(':')[-1]): continue
        res[o['id']]=o
out=[]
for i in sorted(res):
    o=res[i]; by=o.get('by','').split(':')[-1] if o['v']=='killed' else ''
    ts=up(by) if by else []
    if by in thm: ts=[by]
    cl=sorted({thm[t] for t in ts})
    claim=(cl[0]+': '+title[cl[0]]+(' (and others)' if len(cl)>1 else '')) if cl else ''
    r={"id":i,"file":o['file'],"definition":o['defn'],"edit":o['ctx'].replace('\n',' '),"claim":claim,"theorems_failed":ts[:12],"first_failures":[o['by']] if by else [],"tightened":[] if o['v']=='killed' else T.get(i,[])}
    r["verdict"]="rejected" if o['v']=='killed' else ("survived, equivalent: "+N[i] if i in N else ("survived, tightened since" if i in T else o['v']))
    if not r['claim'] and i in T: r['claim']=thm.get(T[i][0],T[i][0].split('_')[0])+': '+title[T[i][0].split('_')[0]]
    out.append(r)
open(os.path.join(root,'seeded/LOG.jsonl'),'a').write("".join(json.dumps(o)+"\n" for o in out))
print(len(out),[o['id'] for o in out if o['verdict'] in('SURVIVED','unclear')],sum(1 for o in out if not o['claim']))
