import json,sys
def edit(id,**kw):
    ls=[json.loads(l) for l in open('/verif/properties.jsonl')]
    for d in ls:
        if d['id']==id: d.update(kw)
    open('/verif/properties.jsonl','w').write(''.join(json.dumps(d,ensure_ascii=False)+'\n' for d in ls))
def add(**kw):
    open('/verif/properties.jsonl','a').write(json.dumps(kw,ensure_ascii=False)+'\n')
