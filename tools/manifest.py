import json,re,glob,os
# collects theorems named Cxx_* from Properties files
th={}
for f in sorted(glob.glob('/verif/rocq/theories/Properties_*.v')):
    for m in re.finditer(r'^(?:Theorem)\s+(C\d+)_(\w+)',open(f).read(),re.M):
        th.setdefault(m.group(1),[]).append(m.group(1)+'_'+m.group(2))
notes=json.load(open(os.path.join(os.path.dirname(os.path.abspath(__file__)),'notes.json')))
claims=[]
for l in open('/verif/properties.jsonl'):
    d=json.loads(l); i=d['id']; t=th.get(i,[])
    n=notes.get(i,{}); t=t+n.get('extra',[])
    st=n.get('status') or ('proved' if t else None)
    if any(x.endswith('_partial') for x in t) and not n.get('status'): st='partial'
    if not st: continue
    claims.append({'property':i,'status':st,'theorems':t,'note':n.get('note','')})
json.dump({'claims':claims},open('/verif/MANIFEST.json','w'),indent=1)
print(len(claims),[d for d in th if d not in [c['property'] for c in claims]])
