#!/usr/bin/env python3
"""Builds seeded/LOG.jsonl from result files of the mutation runs (arguments: results.jsonl ...). Later results of the same id replace 'failed' only if the first survived."""
import json,sys,os
here=os.path.dirname(os.path.abspath(__file__)); root=os.path.dirname(here)
T={'P23':['C08_access','C08_initialize_n'],'P33':['C08_access','C08_initialize_n'],'U9':['C19_context_applied'],'G21':['C19_contexts'],'G25':['C23_minimisation_refused'],
 'H1':['C45_explore','C45_result'],'H6':['C45_result'],'B1':['C46_bounds','C46_process'],'B2':['C46_bounds','C46_process'],'B13':['C46_process'],'B17':['C46_process']}
T.update(json.load(open(os.path.join(here,'tightened.json'))) if os.path.exists(os.path.join(here,'tightened.json')) else {})
N=json.load(open(os.path.join(here,'equivalent.json'))) if os.path.exists(os.path.join(here,'equivalent.json')) else {}
out=[]
for f in sys.argv[1:]:
    for l in open(f):
        o=json.loads(l); m=o['mu']
        r={"id":o['id'],"file":m['file'],"definition":m['defn'],"edit":m['old']+"  ==>  "+m['new'],"claim":m['claim'],
           "theorems_failed":[t for t in o["ctheorems"] if not (o["id"].startswith("AN") and t=="C65_haar" and "haar" not in m["defn"].lower())],"first_failures":o['failed'],"tightened":T.get(o['id'],[]) if not o['ctheorems'] else []}
        if not o['ctheorems'] and not o['failed']:
            r["verdict"]="survived" if o['id'] not in N else "survived, equivalent: "+N[o['id']]
        else: r["verdict"]="rejected"
        out.append(r)
open(os.path.join(root,'seeded/LOG.jsonl'),'w').write("".join(json.dumps(o)+"\n" for o in out))
