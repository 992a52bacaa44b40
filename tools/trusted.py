# Regenerates the table of Print Assumptions in DESIGN.md (between the markers).
import re,glob,subprocess,os,collections
T='/verif/rocq/theories'
names=[]
for f in sorted(glob.glob(T+'/Prop_*.v')):
    b=os.path.basename(f)[:-2]
    for m in re.finditer(r'^Theorem (c\d+\w*)',open(f).read(),re.M): names.append((b,m.group(1)))
src=''
for b in sorted({b for b,_ in names}): src+=f'From Verif Require {b}.\n'
for b,n in names: src+=f'Goal True. idtac "@@ {n}". Abort.\nPrint Assumptions Verif.{b}.{n}.\n'
os.makedirs('/tmp/pa',exist_ok=True)
open('/tmp/pa/PA.v','w').write(src)
out=subprocess.run(['coqc','-Q',T,'Verif','/tmp/pa/PA.v'],capture_output=True,text=True)
if out.returncode: print(out.stderr[-2000:]); raise SystemExit(1)
groups=collections.OrderedDict()
for part in out.stdout.split('@@ ')[1:]:
    n,rest=part.split('\n',1)
    if 'Closed under the global context' in rest: ax=()
    else: ax=tuple(sorted(set(re.findall(r'^([A-Za-z_][\w.\']*)\s*(?::|$)',rest.replace('Axioms:',''),re.M))))
    groups.setdefault(ax,[]).append(n)
txt=''
for ax,ns in sorted(groups.items(),key=lambda x:len(x[0])):
    if ax==(): txt+=f'* **Closed under the global context** (no axiom): all {len(ns)} theorems not listed below.\n'
    else: txt+='* '+', '.join(f'`{a}`' for a in ax)+f' ({len(ns)} theorems): '+', '.join(ns)+'.\n'
d=open('/verif/DESIGN.md').read()
A='<!-- assumptions begin -->\n';B='<!-- assumptions end -->'
i=d.index(A)+len(A);j=d.index(B)
open('/verif/DESIGN.md','w').write(d[:i]+txt+d[j:])
print(len(names),[ (len(a),len(n)) for a,n in groups.items()])
