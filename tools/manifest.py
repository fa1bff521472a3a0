import re,json,glob
names=[]
for f in sorted(glob.glob('/verif/rocq/theories/Prop*.v')):
    names+=re.findall(r'^Theorem (\w+)',open(f).read(),re.M)
props=[json.loads(l)['id'] for l in open('/verif/properties.jsonl')]
notes=json.load(open('/verif/tools/notes.json'))
claims=[]
for p in props:
    ths=[n for n in names if re.search(r'(?:^|_)'+p+r'_',n)]
    if p in ('C01','C02','C03','C04'): ths=[n for n in names if n.startswith(p+'_')]+['C01_C04_orders_complete']; ths=list(dict.fromkeys(ths))
    nt=notes.get(p,{})
    st=nt.get('status') or ('proved' if ths else None)
    if any(n.endswith('_partial') or n.endswith('_refuted') for n in ths) and st=='proved' and 'status' not in nt: st='partial'
    if not ths: 
        continue
    claims.append(dict(property=p,status=st,theorems=ths,note=nt.get('note','')))
json.dump({"claims":claims},open('/verif/MANIFEST.json','w'),indent=1)
print([(c['property'],c['status'],len(c['theorems'])) for c in claims])
