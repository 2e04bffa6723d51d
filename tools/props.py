#!/usr/bin/env python3
"""Regenerates /verif/properties.jsonl from the list below (plain text generator, no checks)."""
import json, os
P=[]
def p(title, statement, quantifier, why, anchors):
    P.append(dict(id="C%02d"%(len(P)+1), title=title, statement=statement, quantifier=quantifier,
                  why_tests_cant=why, anchors=anchors))
S="ebsdtorch/s2_and_so3/"; U="ebsdtorch/utils/"; E="ebsdtorch/ebsd/"; R="ebsdtorch/utils/"; C="ebsdtorch/crystallography/"; PP="ebsdtorch/preprocessing/"
exec(open(os.path.join(os.path.dirname(__file__),"props_data.py")).read())
with open(os.path.join(os.path.dirname(__file__),"..","properties.jsonl"),"w") as f:
    for x in P: f.write(json.dumps(x)+"\n")
print(len(P))
