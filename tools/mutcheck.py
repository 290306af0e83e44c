import json,re
for i,l in enumerate(open('/verif/seeded/LOG.jsonl')):
    d=json.loads(l)
    ids=re.findall(r'C\d\d+',d['claim'].split(':')[0])
    f={t.split("_")[0] for t in d['theorems_failed']}
    if not any(c in f for c in ids): print(i,d['definition'],'|',d['edit'],'|',d['claim'],'|',sorted(f))
