#!/usr/bin/env python3
"""moveaux.py Area: move every `Lemma .. Qed.` from AreaProps.v to the end of AreaProofs.v."""
import re,sys,os
a=sys.argv[1]; base=os.path.join(os.path.dirname(os.path.abspath(__file__)),"..","rocq","theories")
pp=os.path.join(base,a+"Props.v"); fp=os.path.join(base,a+"Proofs.v")
s=open(pp).read()
blocks=re.findall(r"^Lemma .*?^.*?Qed\.\n",s,re.S|re.M)
for b in blocks: s=s.replace(b,"")
open(pp,"w").write(s)
open(fp,"a").write("\n"+"".join(blocks))
print(len(blocks))
