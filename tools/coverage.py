#!/usr/bin/env python3
"""Which functions of /repo are cited (file.py:lines) by the comments of the model files."""
import ast,glob,os,re,sys,collections
def defs():
    out=[]
    for f in sorted(glob.glob('/repo/ebsdtorch/**/*.py',recursive=True)):
        try: t=ast.parse(open(f).read())
        except Exception as e: continue
        def walk(n,pre):
            for c in ast.iter_child_nodes(n):
                if isinstance(c,(ast.FunctionDef,ast.ClassDef)):
                    nm=pre+c.name
                    if isinstance(c,ast.FunctionDef): out.append((f,nm,min([c.lineno]+[d.lineno for d in c.decorator_list]),c.end_lineno))
                    walk(c,nm+'.')
                elif isinstance(c,(ast.If,ast.Try,ast.With)): walk(c,pre)
        walk(t,'')
    return out
def cites():
    c=collections.defaultdict(list)
    for m in glob.glob('/verif/rocq/theories/*.v'):
        b=os.path.basename(m)[:-2]
        txt=open(m).read()
        cur=None
        for com in re.findall(r'\(\*\*?(.*?)\*\)',txt,re.S):
            for mm in re.finditer(r'([\w]+\.py)?[: ,(]*\b(\d+)(?:\s*[-–]\s*(\d+))?',com):
                if mm.group(1): cur=mm.group(1)
                if cur: c[cur].append((int(mm.group(2)),int(mm.group(3) or mm.group(2)),b))
            
    return c
if __name__=='__main__':
    C=cites()
    for f,nm,a,b in defs():
        base=os.path.basename(f)
        hit=sorted({m for x,y,m in C.get(base,[]) if y>=a and x<=b and m.endswith('Model')})
        print(f.replace('/repo/',''),nm,f'{a}-{b}',','.join(hit) or 'NONE')
