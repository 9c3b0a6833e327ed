#!/usr/bin/env python3
"""Regenerate MANIFEST.json from the theorem names in rocq/theories/Props*.v and tools/notes.json.
notes.json: {"C01": {"status": "...", "note": "..."}}; default status is proved if the property has
theorems and none is _partial/_refuted."""
import re,json,glob,os
root=os.path.dirname(os.path.dirname(os.path.abspath(__file__)))
th={}
for f in sorted(glob.glob(root+'/rocq/theories/Props*.v')):
    for m in re.finditer(r'^Theorem (C\d\d)(_\w+)',open(f).read(),re.M):
        th.setdefault(m.group(1),[]).append(m.group(1)+m.group(2))
notes=json.load(open(root+'/tools/notes.json'))
claims=[]
for line in open(root+'/properties.jsonl'):
    p=json.loads(line)['id']
    n=notes.get(p,{})
    if p not in th and n.get('status')!='not_applicable': continue
    ts=th.get(p,[])
    st=n.get('status')
    if not st:
        st='partial' if any(t.endswith('_partial') or t.endswith('_refuted') for t in ts) else 'proved'
    claims.append({"property":p,"status":st,"theorems":ts,"note":n.get('note','')})
json.dump({"claims":claims},open(root+'/MANIFEST.json','w'),indent=1)
print(len(claims),'claims',sum(len(c['theorems']) for c in claims),'theorems')
