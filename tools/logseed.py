#!/usr/bin/env python3
"""collect mutate.py logs into seeded/LOG.jsonl.  usage: logseed.py log [tightened.json]   (tightened: {index: [theorem names]})"""
import sys,json
out="/verif/seeded/LOG.jsonl"
try: have={(d["file"],d["definition"],d["edit"]) for d in map(json.loads,open(out))}
except FileNotFoundError: have=set()
n=0
with open(out,"a") as f:
    for l in open(sys.argv[1]):
        d=json.loads(l)
        if "error" in d: print("ERR",d["definition"],d["error"][:200])
        if (d["file"],d["definition"],d["edit"]) in have: continue
        if "error" in d and not d.get("killed"): continue
        f.write(json.dumps(dict(file=d["file"],definition=d["definition"],edit=d["edit"],claim_broken=d["claim"],theorems_failed=d["killed"],theorems_tightened=d.get("tightened",[]),note=d.get("note","killed" if d["killed"] else "survived")))+"\n"); n+=1
        if not d["killed"]: print("SURVIVED",d["definition"],d["edit"],d["claim"])
print(n)
