import re,json,glob,os
status={}
exec(open('/tmp/w/status.py').read())
names={}
for f in sorted(glob.glob('/verif/rocq/theories/Prop_*.v')):
    for m in re.finditer(r'^Theorem (C\d+)_(\w+)',open(f).read(),re.M):
        names.setdefault(m.group(1),[]).append(m.group(1)+'_'+m.group(2))
claims=[]
for l in open('/verif/properties.jsonl'):
    d=json.loads(l); i=d['id']
    if i in status and i in names:
        st,note=status[i]
        claims.append(dict(property=i,status=st,theorems=names[i],note=note))
    else: print('no claim',i, names.get(i))
json.dump(dict(claims=claims),open('/verif/MANIFEST.json','w'),indent=1)
