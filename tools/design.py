#!/usr/bin/env python3
"""Generates DESIGN.md from properties.jsonl, MANIFEST.json, methods.py, the model comments and the recorded
Print Assumptions output (tools/assumptions.sh writes it, axioms.json keeps it)."""
import json,re,glob,os,sys,collections
sys.path.insert(0,'/verif/tools')
from methods import METHODS
import coverage
PAD=sys.argv[1] if len(sys.argv)>1 else '/tmp/pad'
AX='/verif/tools/axioms.json'
KNOWN=[('ClassicalDedekindReals.sig_not_dec','N'),('ClassicalDedekindReals.sig_forall_dec','D'),('FunctionalExtensionality.functional_extensionality_dep','F'),('Classical_Prop.classic','C')]
ax=json.load(open(AX)) if os.path.exists(AX) else {}
for f in sorted(glob.glob(PAD+'/*.out')):
    cur=None
    for line in open(f):
        m=re.match(r'@@ (\w+)',line)
        if m: cur=m.group(1); ax[cur]=[]; continue
        if line.startswith(' ') or not cur: continue
        m=re.match(r'([A-Z]\w*(?:\.\w+)+)',line)
        if m and m.group(1) not in ax[cur]: ax[cur].append(m.group(1))
json.dump(ax,open(AX,'w'),indent=0,sort_keys=True)
props=[json.loads(l) for l in open('/verif/properties.jsonl')]
man={c['property']:c for c in json.load(open('/verif/MANIFEST.json'))['claims']}
where={}; lemma={}
for f in sorted(glob.glob('/verif/rocq/theories/*Props.v')):
    for n in re.findall(r'^(?:Theorem|Lemma|Corollary) (c\d+_\w+)',open(f).read(),re.M): where[n]=os.path.basename(f)
letters=dict(KNOWN)
def axs(n):
    if n not in ax: return '?'
    s=''.join(sorted(letters.get(a,'['+a+']') for a in ax[n]))
    return s or '-'
unknown=sorted({a for v in ax.values() for a in v if a not in letters})
out=[]
w=out.append
w(open('/verif/tools/design_head.md').read())
w('### Assumptions of every theorem\n')
w('Letters: N = `ClassicalDedekindReals.sig_not_dec`, D = `ClassicalDedekindReals.sig_forall_dec`, F = `FunctionalExtensionality.functional_extensionality_dep`, C = `Classical_Prop.classic`; "-" = closed under the global context. Each theorem is followed by its letters, as printed by `Print Assumptions` (which also stands below the theorems in the sources; `tools/assumptions.sh` prints it again). All four are axioms of the Coq standard library; no other axiom occurs.\n')
if unknown: w('OTHER AXIOMS: '+', '.join(unknown)+'\n')
byf=collections.OrderedDict()
for n in where: byf.setdefault(where[n],collections.OrderedDict()).setdefault(axs(n),[]).append(n)
for f in byf:
    w(f'* `{f}`: '+'; '.join(f'**{k}**: '+', '.join(v) for k,v in sorted(byf[f].items())))
w('\n## What is modelled\n')
w('Per source file: functions whose lines are cited by a model file, then what is left out and why.\n')
C=coverage.cites()
files=collections.OrderedDict()
for f,nm,a,b in coverage.defs():
    base=os.path.basename(f)
    hit=sorted({m for x,y,m in C.get(base,[]) if y>=a and x<=b and (m.endswith('Model'))})
    files.setdefault(f.replace('/repo/',''),[]).append((nm,a,b,hit))
import design_cov
for f in files:
    by=collections.OrderedDict(); left=[]
    for nm,a,b,h in files[f]:
        o=design_cov.OVER.get((os.path.basename(f),nm))
        if o is None and not h: o=design_cov.OVER.get((os.path.basename(f),'*'))
        if o and o[0]=='in': by.setdefault(o[1],[]).append(nm)
        elif h and not o: by.setdefault(', '.join(h),[]).append(nm)
        else: left.append((nm,o[1] if o else 'NOT CLASSIFIED'))
    s=f'* `{f}`: '+'; '.join(f'in {k}: '+', '.join(v) for k,v in by.items())
    if left: s+=('. ' if by else '')+'Not modelled: '+'; '.join(f'{n} ({r})' for n,r in left)
    w(s+'.')
w('\n'+open('/verif/tools/design_areas.md').read())
w('\n## Properties\n')
w('For each property: what is modelled and how it is proved. Status "proved": the statement of properties.jsonl is a theorem; "partial": the code violates it (theorems with suffix `_refuted` exhibit the violation, the finding is given) or only part is proved.\n')
for p in props:
    k=p['id']; m=man[k]; th=m['theorems']
    fl=sorted({where[t] for t in th if t in where})
    mods=sorted({f.replace('Props','Model') for f in fl})
    note=m.get('note','') or ''
    line=f"* **{k}** {p['title']} — model: {', '.join('`'+x+'`' for x in mods)}; method: {METHODS[k]}. {m['status']}, {len(th)} theorem{'s' if len(th)!=1 else ''} in {', '.join('`'+x+'`' for x in fl)}."
    if m['status']!='proved' and note: line+=f" Finding: {note}"
    elif note: line+=f" {note}"
    w(line)
open('/verif/DESIGN.md','w').write('\n'.join(out)+'\n')
print(len(out),'lines; unknown axioms:',unknown,'; theorems without record:',[n for n in where if n not in ax][:10])
for f in files:
    for nm,a,b,h in files[f]:
        o=design_cov.OVER.get((os.path.basename(f),nm)) or (design_cov.OVER.get((os.path.basename(f),'*')) if not h else None)
        if not h and not o: print('unclassified',f,nm)
