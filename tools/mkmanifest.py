#!/usr/bin/env python3
"""Regenerates /verif/MANIFEST.json: theorems are collected from rocq/theories/Props_*.v by their Cnn_ prefix."""
import json,re,glob,os
root=os.path.dirname(os.path.dirname(os.path.abspath(__file__)))
thms={}
for f in sorted(glob.glob(root+'/rocq/theories/Props_*.v')):
    for m in re.finditer(r'^Theorem (C\d\d)(_\w+)',open(f).read(),re.M):
        thms.setdefault(m[1],[]).append(m[1]+m[2])
notes=json.load(open(root+'/tools/notes.json'))
claims=[]
for l in open(root+'/properties.jsonl'):
    i=json.loads(l)['id']
    n=notes.get(i,{})
    if i in thms:
        st=n.get('status','proved')
        claims.append(dict(property=i,status=st,theorems=thms[i],note=n.get('note','')))
    else:
        claims.append(dict(property=i,status='partial',theorems=[],note=n.get('note','not yet proved')) if n.get('status')!='not_applicable' else dict(property=i,status='not_applicable',theorems=[],note=n.get('note','')))
json.dump(dict(claims=claims),open(root+'/MANIFEST.json','w'),indent=1)
