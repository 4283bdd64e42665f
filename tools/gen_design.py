import json
M=json.load(open('MANIFEST.json'))['claims']
P={json.loads(l)['id']:json.loads(l)['title'] for l in open('properties.jsonl')}
import os,re
where={}
d='rocq/theories'
for f in sorted(os.listdir(d)):
    if f.startswith('Props') and f.endswith('.v'):
        for t in re.findall(r'Theorem (C\d\d)_',open(d+'/'+f).read()):
            where.setdefault(t,[])
            if f[:-2] not in where[t]: where[t].append(f[:-2])
o=open('tools/design_head.md').read()
o+='| id | property | status | file | what is proved |\n|---|---|---|---|---|\n'
for c in M:
    i=c['property']
    o+='| %s | %s | %s | %s | %s |\n'%(i,P[i],c['status'],', '.join(where.get(i,[])),c.get('note','').replace('|','\\|').replace('\n',' '))
open('DESIGN.md','w').write(o)
