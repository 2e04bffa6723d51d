#!/usr/bin/env python3
"""mark a surviving LOG entry as tightened: tighten.py 'substring of edit' theorem [theorem...]"""
import sys,json
p="/verif/seeded/LOG.jsonl"; L=[json.loads(l) for l in open(p)]; k=0
for d in L:
    if sys.argv[1] in d["edit"] and not d["theorems_failed"]:
        d["theorems_tightened"]=sys.argv[2:]; d["note"]="survived the theorems of the time; the listed theorems were added and reject it"; k+=1
open(p,"w").write("".join(json.dumps(d)+"\n" for d in L)); print(k)
