import re,json,glob,sys
sys.path.insert(0,'/verif/tools')
from notes import STATUS, NOTES
th={}
for f in sorted(glob.glob('/verif/rocq/theories/*_props.v')):
    for m in re.finditer(r'^\s*(?:Theorem|Corollary)\s+(C\d+)_(\w+)',open(f).read(),re.M):
        th.setdefault(m.group(1),[]).append(m.group(1)+'_'+m.group(2))
claims=[]
for l in open('/verif/properties.jsonl'):
    i=json.loads(l)['id']
    if i in th or i in STATUS:
        claims.append(dict(property=i,status=STATUS.get(i,'proved'),theorems=th.get(i,[]),note=NOTES.get(i,'')))
json.dump(dict(claims=claims),open('/verif/MANIFEST.json','w'),indent=1)
print(len(claims),sum(len(c['theorems']) for c in claims))
