#!/usr/bin/env python3
"""Seeded-bug runner.  usage: mutate.py mutants.json
For each mutant {file, old, new, def, claim}: copy rocq/ to a scratch directory, apply the textual edit to the model file,
recompile every dependent file; a failing proof is cut out (Admitted, in the scratch copy only) so that all failures are found;
the theorems of *Props.v that fail or depend on a cut-out lemma are the ones killed by the mutant."""
import sys, json, re, os, subprocess, shutil, tempfile, time
ROOT="/verif"
def deps(th):
    d={}
    for f in os.listdir(th):
        if f.endswith(".v"):
            t=open(th+"/"+f).read()
            m=re.findall(r"From Verif Require (?:Import |Export )?([^.]*)\.",t)
            d[f[:-2]]=[x for g in m for x in g.split()]
    return d
def order():
    return [l.strip()[9:-2] for l in open(ROOT+"/rocq/_CoqProject") if l.startswith("theories/")]
BLK=re.compile(r"^(?:Local |Global )?(?:Lemma|Theorem|Example|Corollary|Fact|Remark|Instance)\s+([\w']+)",re.M)
def cut(text,off):
    """admit the block containing char offset; returns new text, name"""
    st=None
    for m in BLK.finditer(text):
        if m.start()<=off: st=m
        else: break
    if st is None: return None,None
    end=re.compile(r"(Qed|Defined|Admitted)\.").search(text,st.start())
    pr=re.compile(r"\bProof\b").search(text,st.start(),end.end())
    if not pr: return None,None
    return text[:pr.start()]+"Admitted."+text[end.end():], st.group(1)
def run(mu,scratch):
    th=scratch+"/theories"
    src=th+"/"+mu["file"]
    t=open(src).read()
    if t.count(mu["old"])<1: return dict(error="pattern not found")
    n=mu.get("nth",0)
    parts=t.split(mu["old"])
    t=mu["old"].join(parts[:n+1])+mu["new"]+mu["old"].join(parts[n+1:])
    open(src,"w").write(t)
    d=deps(th); base=mu["file"][:-2]
    aff={base}; todo=[]
    for f in order():
        if f==base or any(x in aff for x in d.get(f,[])):
            aff.add(f); todo.append(f)
    # only the areas asked for (default: the area of the mutated file) and what they need
    areas=mu.get("areas",[re.match(r"[A-Z][a-z0-9]*",base).group(0)])
    need=set(); st=[f for f in order() if any(f.startswith(a) for a in areas)]
    while st:
        f=st.pop()
        if f not in need: need.add(f); st+=d.get(f,[])
    todo=[f for f in todo if f in need]
    admitted=[]; failed=[]
    for f in todo:
        p=th+"/"+f+".v"
        if f.endswith("Props"):
            s=open(p).read(); s=re.sub(r"^Print Assumptions.*$","",s,flags=re.M)
            names=re.findall(r"^Theorem\s+([\w']+)",s,re.M)
            s+="\n"+"\n".join('Print Assumptions %s. '%x for x in names)
            open(p,"w").write(s)
        for it in range(80):
            try:
                r=subprocess.run(["coqc","-Q","theories","Verif","theories/"+f+".v"],cwd=scratch,capture_output=True,text=True,timeout=mu.get("timeout",900))
            except subprocess.TimeoutExpired:
                return dict(killed=failed,admitted=admitted,error="timeout in "+f)
            if r.returncode==0: break
            m=re.search(r'line (\d+), characters (\d+)-(\d+):\s*\n\s*Error',r.stderr) or re.search(r'line (\d+), characters (\d+)-(\d+)',r.stderr)
            s=open(p).read(); ls=s.split("\n"); off=sum(len(x)+1 for x in ls[:int(m.group(1))-1])+int(m.group(2))
            s2,nm=cut(s,off)
            if s2 is None: return dict(killed=failed,admitted=admitted,error="compile error in %s: %s"%(f,r.stderr[:300]))
            admitted.append(nm)
            open(p,"w").write(s2)
        if f.endswith("Props"):
            out=r.stdout; 
            # split outputs per theorem in order
            chunks=re.split(r"(?=^Axioms:|^Closed under the global context)",out,flags=re.M)[1:]
            for nm,ch in zip(names,chunks):
                used=re.findall(r"^([\w'.]+)",ch,re.M)
                if nm in admitted or any(u.split(".")[-1] in admitted for u in used): failed.append(nm)
    return dict(killed=failed,admitted=admitted)
if __name__=="__main__":
    mus=json.load(open(sys.argv[1])); log=sys.argv[2] if len(sys.argv)>2 else "/tmp/mut.log"
    for i,mu in enumerate(mus):
        sc=tempfile.mkdtemp(prefix="mut",dir="/tmp"); shutil.copytree(ROOT+"/rocq/theories",sc+"/theories")
        t0=time.time(); r=run(mu,sc); shutil.rmtree(sc)
        r.update(file=mu["file"],definition=mu["def"],edit=mu["edit"] if "edit" in mu else "%s -> %s"%(mu["old"],mu["new"]),claim=mu["claim"],wall=round(time.time()-t0))
        open(log,"a").write(json.dumps(r)+"\n"); print(json.dumps(r)[:400],flush=True)
