#!/usr/bin/env python3
"""Write /verif/MANIFEST.json; check that every theorem named exists and every property is covered once."""
import json,re,glob
claims=[]
def c(prop,status,theorems,note=""):
    claims.append({"property":prop,"status":status,"theorems":theorems.split(),"note":note})
exec(open('/verif/tools/claims.py').read())
names=set()
for f in glob.glob('/verif/rocq/theories/Prop*.v'):
    names|=set(re.findall(r'^Theorem (\w+)',open(f).read(),re.M))
used=set(t for x in claims for t in x['theorems'])
print('missing:',used-names,'unused:',names-used)
props=[json.loads(l)['id'] for l in open('/verif/properties.jsonl')]
print('uncovered:',[p for p in props if p not in [x['property'] for x in claims]])
open('/verif/MANIFEST.json','w').write('{"claims": [\n'+',\n'.join(' '+json.dumps(x) for x in claims)+'\n]}\n')
