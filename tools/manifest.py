#!/usr/bin/env python3
"""Regenerate MANIFEST.json from the Cnn_* theorems of theories/Prop*.v."""
import re,glob,json
props=[json.loads(l)['id'] for l in open('/verif/properties.jsonl')]
th={}
for f in sorted(glob.glob('/verif/rocq/theories/Prop*.v')):
    for n in re.findall(r'^Theorem (\w+)',open(f).read(),re.M):
        th.setdefault(n.split('_')[0],[]).append(n)
notes=json.load(open('/verif/tools/notes.json'))
claims=[]
for p in props:
    st,note=notes.get(p,['partial','not yet modelled'])
    t=th.get(p,[])
    if not t: st='partial'; note='Model and proofs for this property are not written yet.'
    claims.append(dict(property=p,status=st,theorems=t,note=note))
extra=set(th)-set(props)
assert not extra,extra
json.dump({"claims":claims},open('/verif/MANIFEST.json','w'),indent=1)
print({c['property']:(c['status'],len(c['theorems'])) for c in claims})
