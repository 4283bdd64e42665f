#!/usr/bin/env python3
"""Writes /verif/MANIFEST.json from the theorem names (Cnn_...) in rocq/theories/Props*.v.
A property is 'proved' when none of its theorems is named _partial or _refuted."""
import json,re,glob,os
V=os.path.dirname(os.path.dirname(os.path.abspath(__file__)))
NOTES=json.load(open(V+'/tools/notes.json'))
ids=[json.loads(l)['id'] for l in open(V+'/properties.jsonl')]
th={i:[] for i in ids}
for f in sorted(glob.glob(V+'/rocq/theories/Props*.v')):
    s=open(f).read()
    for n in re.findall(r'^\s*(?:Theorem|Corollary) (\w+)',s,re.M):
        m=re.match(r'(C\d\d+)_',n)
        if m: th[m.group(1)].append(n)
claims=[]
for i in ids:
    if not th[i]:
        if i in NOTES: claims.append(dict(property=i,status='not_applicable',theorems=[],note=NOTES[i]))
        continue
    part=any('_partial' in n or '_refuted' in n for n in th[i])
    claims.append(dict(property=i,status='partial' if part else 'proved',theorems=th[i],note=NOTES.get(i,'')))
    if i not in NOTES: print('no note for',i)
json.dump({'claims':claims},open(V+'/MANIFEST.json','w'),indent=1)
print(len(claims),'claims',sum(c['status']=='proved' for c in claims),'proved; missing:',[i for i in ids if not th[i] and i not in NOTES])
