#!/usr/bin/env python3
"""Checks that every anchor in properties.jsonl names an existing file and symbol of /repo."""
import json,os
for l in open('/verif/properties.jsonl'):
    d=json.loads(l)
    for a in d['anchors']:
        f,_,sym=a.partition(':')
        if not os.path.exists('/repo/'+f): print(d['id'],a,'NOFILE'); continue
        t=open('/repo/'+f).read()
        for s in sym.split('.'):
            if s and s not in t: print(d['id'],a,'NOSYM')
