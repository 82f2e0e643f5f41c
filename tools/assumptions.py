"""Compiles the Prop*.v files of a built tree again and writes the summary of Print Assumptions into DESIGN.md."""
import glob,re,subprocess,os,sys
from concurrent.futures import ThreadPoolExecutor
rocq='/verif/rocq'
def run(f):
    names=re.findall(r'^Print Assumptions (\w+)\.',open(f).read(),re.M)
    out=subprocess.run(['timeout','3000','coqc','-Q','theories','Verif',f],cwd=rocq,capture_output=True,text=True)
    assert out.returncode==0,out.stderr
    blocks=re.findall(r'(Closed under the global context|Axioms:\n(?:(?!Closed under|Axioms:).*\n?)*)',out.stdout)
    assert len(blocks)==len(names),(f,len(blocks),len(names))
    res={}
    for n,b in zip(names,blocks):
        res[n]=tuple(sorted(re.findall(r'^(\S+)\s*(?::|$)',b[8:],re.M))) if b.startswith('Axioms') else ()
    return os.path.basename(f),res
files=sorted(glob.glob(rocq+'/theories/Prop*.v'))
with ThreadPoolExecutor(4) as ex: results=list(ex.map(run,files))
groups={}
for f,res in results:
    for n,ax in res.items(): groups.setdefault(ax,{}).setdefault(f,[]).append(n)
lines=['## Print Assumptions','',
 'Obtained with `tools/assumptions.py`, which compiles every `Prop*.v` and reads the output of `Print Assumptions`.','']
total=sum(len(r) for _,r in results)
closed=groups.get((),{})
lines.append('%d theorems, of which %d are "Closed under the global context".'%(total,sum(map(len,closed.values()))))
lines.append('')
for ax,fs in sorted(groups.items()):
    if not ax: continue
    lines.append('With '+', '.join('`%s`'%a for a in ax)+' (standard library):')
    lines.append('')
    for f,ns in sorted(fs.items()): lines.append('* `%s`: %s'%(f,', '.join(ns)))
    lines.append('')
p='/verif/DESIGN.md'
s=open(p).read()
i=s.find('## Print Assumptions')
if i>=0: s=s[:i]
s=s.rstrip()+'\n\n'+'\n'.join(lines).rstrip()+'\n'
open(p,'w').write(s)
print(total,{k:sum(map(len,v.values())) for k,v in groups.items()})
