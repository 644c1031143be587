#!/usr/bin/env python3
"""Appends the results of the mutation harness (run outside /verif) to seeded/LOG.jsonl.
usage: gen_log.py results.jsonl [id=tightened theorem,...]"""
import sys,json,os
tight={}
for a in sys.argv[2:]:
    k,v=a.split('=',1); tight[k]=v.split(',')
path=os.path.join(os.path.dirname(__file__),'..','seeded','LOG.jsonl')
have=set()
if os.path.exists(path):
    for l in open(path):
        r=json.loads(l); have.add((r['id'],r['edit'],tuple(r['theorems_failed'])))
out=open(path,'a')
for l in open(sys.argv[1]):
    r=json.loads(l)
    if r.get('error') : continue
    rec={'id':r['id'],'definition':r['definition'],'edit':r['edit'],'claim_broken':r['claim_broken'],'claims':r['breaks'],
         'theorems_failed':r['theorems_failed'],'first_failing_lemmas':r.get('first_lemmas',[]),'caught':bool(r['hit']),'theorems_tightened':tight.get(r['id'],[])}
    if r.get('note'): rec['note']=r['note']
    k=(rec['id'],rec['edit'],tuple(rec['theorems_failed']))
    if k in have: continue
    have.add(k); out.write(json.dumps(rec)+'\n')
