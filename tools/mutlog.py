#!/usr/bin/env python3
"""mutlog.py OUT...: append the results of mutate.py to seeded/LOG.jsonl.
   theorems_failed: the lemma whose proof script fails first in each file (theorems downstream of it are not reached)."""
import json,sys
log='/verif/seeded/LOG.jsonl'
seen={(json.loads(l)['definition'],json.loads(l)['edit']) for l in open(log) if l.strip()}
with open(log,'a') as o:
    for f in sys.argv[1:]:
        for l in open(f):
            r=json.loads(l)
            if (r['definition'],r['edit']) in seen: continue
            o.write(json.dumps({"definition":r['definition'],"edit":r['edit'],"claim":r['claim'],
              "theorems_failed":[f"{a}: {b}" for a,b,_ in r['failed']],"theorems_tightened":r.get('tightened',[])})+"\n")
