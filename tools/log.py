import json,sys
# turn mut_results into LOG lines: python3 log.py results.jsonl ; uses fix dict for tightened notes
T=json.load(open('/tmp/w/tight.json')) if len(sys.argv)>2 else {}
out=open('/verif/seeded/LOG.jsonl','a')
for l in open(sys.argv[1]):
    r=json.loads(l)
    if r.get('err') or r.get('broken'): continue
    out.write(json.dumps({"definition":r['file']+'.v',"edit":r['desc'],"claim_broken":r['claim'],"theorems_failed":sorted(r.get('bad',{})),"lemmas_failed":sorted(k for k in r['failed'] if k not in r.get('bad',{})),"theorems_tightened":T.get(r['id'],[])})+'\n')
