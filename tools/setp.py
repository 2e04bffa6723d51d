"""Helper: replace or append property blocks in props_data.py and notes in notes.json."""
import re, json, os
D=os.path.dirname(os.path.abspath(__file__))
def setp(i,title,stmt,quant,why,anchors):
    s=open(D+"/props_data.py").read()
    blk='# %s\np(%s,\n  %s,\n  %s,\n  %s,\n  %s)\n'%(i,json.dumps(title),json.dumps(stmt),json.dumps(quant),json.dumps(why),json.dumps(anchors))
    m=re.search(r"^# %s\n.*?(?=^# C\d+\n|\Z)"%i,s,re.M|re.S)
    s=s[:m.start()]+blk+s[m.end():] if m else s.rstrip("\n")+"\n"+blk
    open(D+"/props_data.py","w").write(s)
def note(i,t):
    n=json.load(open(D+"/notes.json")); n[i]=t; json.dump(n,open(D+"/notes.json","w"),indent=1)
S="ebsdtorch/s2_and_so3/"; R="ebsdtorch/utils/"; E="ebsdtorch/ebsd/"; C="ebsdtorch/crystallography/"; P="ebsdtorch/preprocessing/"; H="ebsdtorch/harmonics/"
