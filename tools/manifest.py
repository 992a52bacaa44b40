import json,re,glob
props=[json.loads(l) for l in open('/verif/properties.jsonl')]
th={}
for f in sorted(glob.glob('/verif/rocq/theories/Prop_*.v')):
    for m in re.finditer(r'^Theorem (c(\d+)_\w+)',open(f).read(),re.M):
        th.setdefault('C'+m.group(2),[]).append(m.group(1))
exec(open('/verif/tools/notes.py').read())
claims=[]
for p in props:
    i=p['id']; t=th.get(i,[])
    if i in STATUS: st=STATUS[i]
    elif not t: st='partial' ; 
    elif any(x.endswith('_refuted') or x.endswith('_partial') for x in t): st='partial'
    else: st='proved'
    if not t and i not in STATUS:
        claims.append(dict(property=i,status='partial',theorems=[],note='not yet modelled')); continue
    claims.append(dict(property=i,status=st,theorems=t,note=NOTES.get(i,'')))
json.dump({"claims":claims},open('/verif/MANIFEST.json','w'),indent=1)
ids={p['id'] for p in props}
for k in th:
    if k not in ids: print('unknown property',k)
from collections import Counter
print(Counter((c['status'],bool(c['theorems'])) for c in claims))
