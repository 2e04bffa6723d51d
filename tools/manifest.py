#!/usr/bin/env python3
"""Regenerates /verif/MANIFEST.json from the theorem names cNN_* in rocq/theories/*Props.v and tools/notes.json."""
import json, re, os, glob
root=os.path.join(os.path.dirname(os.path.abspath(__file__)),"..")
notes=json.load(open(root+"/tools/notes.json"))
ids=[json.loads(l)["id"] for l in open(root+"/properties.jsonl")]
th={i:[] for i in ids}
for f in sorted(glob.glob(root+"/rocq/theories/*Props.v")):
    for m in re.finditer(r"^Theorem\s+(c(\d+)_\w+)",open(f).read(),re.M):
        th["C%02d"%int(m.group(2))].append(m.group(1))
claims=[]
for i in ids:
    t=th[i]; n=notes.get(i,"")
    if not t:
        if n.startswith("N/A"): claims.append(dict(property=i,status="not_applicable",theorems=[],note=n))
        continue
    bad=[x for x in t if x.endswith("_refuted") or x.endswith("_partial")]
    claims.append(dict(property=i,status="partial" if bad else "proved",theorems=t,note=n))
json.dump(dict(claims=claims),open(root+"/MANIFEST.json","w"),indent=1)
print(len(claims), sum(c["status"]=="proved" for c in claims), "missing:", [i for i in ids if not th[i] and not notes.get(i,"").startswith("N/A")])
print("partial without note:", [c["property"] for c in claims if c["status"]=="partial" and not c["note"]])
