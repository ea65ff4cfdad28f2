import json,re
V='/verif/'
head=open(V+'tools/design_head.md').read()
I=json.load(open(V+'tools/ideas.json'))
M={c['property']:c for c in json.load(open(V+'MANIFEST.json'))['claims']}
try: extra=open(V+'tools/design_extra.md').read()
except FileNotFoundError: extra=''
out=head.replace('@EXTRA@',extra).rstrip()+'\n\n## 5. Properties: approach and outcome\n\n'
out+='| id | property | model and proof idea | outcome | theorems | what is proved, what is missing or refuted |\n|---|---|---|---|---|---|\n'
for l in open(V+'properties.jsonl'):
    p=json.loads(l); c=M.get(p['id'])
    st=c['status'] if c else 'not claimed'
    out+='| %s | %s | %s | %s | %d | %s |\n'%(p['id'],p['title'].replace('|','/'),I.get(p['id'],'').replace('|','/'),st,len(c['theorems']) if c else 0,(c['note'] if c else p.get('note','')).replace('|','/'))
ax=open(V+'AXIOMS.md').read().split('\n',2)[2]
out+='\n## 6. Print Assumptions\n'+re.sub(r'^## ','### ',ax,flags=re.M)
open(V+'DESIGN.md','w').write(out)
