"""Print Assumptions for every theorem of MANIFEST.json -> /verif/AXIOMS.md"""
import json,subprocess,re,os,glob,sys
V='/verif'; M=json.load(open(V+'/MANIFEST.json'))
thms=[t for c in M['claims'] for t in c['theorems']]
mods={}
for f in glob.glob(V+'/rocq/theories/*.v'):
    m=os.path.basename(f)[:-2]
    for l in open(f):
        k=re.match(r'\s*(?:Theorem|Example|Lemma|Corollary) (\w+)',l)
        if k: mods.setdefault(k.group(1),m)
use=sorted({mods[t.split('.')[-1]] for t in thms})
src='From Verif Require '+' '.join(use)+'.\nSet Printing Width 2000.\n'
for t in thms:
    b=t.split('.')[-1]
    src+='Redirect "/tmp/w/ax/%s" Print Assumptions Verif.%s.%s.\n'%(b,mods[b],b)
os.makedirs('/tmp/w/ax',exist_ok=True)
open('/tmp/w/ax.v','w').write(src)
subprocess.run(['coqc','-Q',V+'/rocq/theories','Verif','/tmp/w/ax.v'],check=True)
groups={}
for t in thms:
    b=t.split('.')[-1]; s=open('/tmp/w/ax/%s.out'%b).read()
    ax=tuple(sorted(set(re.findall(r'^([\w.]+)\s*:',s,re.M))-{'Axioms'}))
    if 'Closed under' in s: ax=()
    groups.setdefault(ax,[]).append(b)
out='# What `Print Assumptions` lists\n\nGenerated by tools/axioms.py from the compiled development; %d theorems.\n'%len(thms)
for ax,l in sorted(groups.items()):
    out+='\n## '+(', '.join('`%s`'%a for a in ax) or 'nothing (closed under the global context)')+' — %d theorems\n\n'%len(l)
    out+=', '.join(l)+'\n'
open(V+'/AXIOMS.md','w').write(out)
print({k:len(v) for k,v in groups.items()})
