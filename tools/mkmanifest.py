#!/usr/bin/env python3
"""MANIFEST.json from the Prop_*.v files (every Theorem Cnn_... is listed) and the status table below."""
import json,re,glob,os
ROOT=os.path.join(os.path.dirname(__file__),'..')
exec(open(os.path.join(ROOT,'tools','status.py')).read())   # STATUS: id -> (status, note)
thms={}
for f in sorted(glob.glob(os.path.join(ROOT,'rocq/theories/Prop_*.v'))):
    for m in re.finditer(r'^Theorem\s+((C\d+)_\w+)',open(f).read(),re.M):
        thms.setdefault(m.group(2),[]).append(m.group(1))
claims=[]
for l in open(os.path.join(ROOT,'properties.jsonl')):
    i=json.loads(l)['id']
    if i in STATUS:
        s,n=STATUS[i]; claims.append({"property":i,"status":s,"theorems":thms.get(i,[]),"note":n})
        if not thms.get(i) and s!='not_applicable': print('no theorem for',i)
    elif i in thms: print('theorems but no status:',i)
json.dump({"claims":claims},open(os.path.join(ROOT,'MANIFEST.json'),'w'),indent=1)
print(len(claims),'claims')
