#!/usr/bin/env python3
"""Translate the interval tables of /repo/terminal/runes/{runes_tables,lookup}.go to Coq (Tables.v)."""
import re
out=['(** Width tables, transcribed from the Go source by tools/gen_tables.py. *)','From Verif Require Import Base.','',
'(** Models [interval] and [table] (terminal/runes/lookup.go:8-13). *)','Definition interval := (Z * Z)%type.','Definition table := list interval.','']
def emit(name, path, rel):
    src=open(path).read()
    m=re.search(r'\b(?:var )?%s\s*= table\{(.*?)\n\s*\}'%name, src, re.S)
    line=src[:m.start()].count('\n')+1; end=src[:m.end()].count('\n')+1
    ivs=re.findall(r'\{(0x[0-9A-Fa-f]+), (0x[0-9A-Fa-f]+)\}', m.group(1))
    # every brace of the source must be accounted for
    assert m.group(1).count('{')==len(ivs)
    body=[]
    for k in range(0,len(ivs),4):
        body.append('   '+' '.join('(%s,%s);'%(a.lower(),b.lower()) for a,b in ivs[k:k+4]))
    t='\n'.join(body).rstrip(';')
    out.append('(** Models [%s] (%s:%d-%d). *)'%(name,rel,line,end))
    out.append('Definition %s : table :=\n  [\n%s\n  ].\n'%(name,t))
emit('nonprint','/repo/terminal/runes/lookup.go','terminal/runes/lookup.go')
for n in ['combining','doublewidth','ambiguous','narrow','neutral','emoji']:
    emit(n,'/repo/terminal/runes/runes_tables.go','terminal/runes/runes_tables.go')
open('/verif/rocq/theories/Tables.v','w').write('\n'.join(out))
