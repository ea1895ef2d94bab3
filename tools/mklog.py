#!/usr/bin/env python3
"""Merges /tmp/mut/out.jsonl (results of tools/mutate.py) into seeded/results.jsonl
and rewrites seeded/LOG.jsonl.  Later results of the same mutant are added as a
further line (a rerun after tightening)."""
import json,os
S='/verif/seeded/'
mus={m['id']:m for m in json.load(open(S+'mutants.json'))}
res=[json.loads(l) for l in open(S+'results.jsonl')] if os.path.exists(S+'results.jsonl') else []
if os.path.exists('/tmp/mut/out.jsonl'):
    for l in open('/tmp/mut/out.jsonl'):
        r=json.loads(l)
        if r.get('error'): print(r['id'],r['error']); continue
        res.append(dict(id=r['id'],failed=r['failed'],admitted=r['admitted'],broken=r['broken']))
    os.remove('/tmp/mut/out.jsonl')
tight=json.load(open(S+'tightened.json')) if os.path.exists(S+'tightened.json') else {}
with open(S+'results.jsonl','w') as f:
    for r in res: f.write(json.dumps(r)+'\n')
seen=set()
with open(S+'LOG.jsonl','w') as f:
    for r in res:
        m=mus[r['id']]
        t=tight.get(r['id'],{})
        fails=r['failed'] or (['(a statement no longer type-checks: '+'; '.join(r['broken'])[:200]+')'] if r['broken'] else [])
        d=dict(id=r['id'],definition=m['edits'][0]['file']+':'+m['definition'],edit=m['edit'],claim_broken=m['claim'],theorems_failed=fails,
               theorems_tightened=t.get('theorems',[]) if not fails else [])
        if not fails: d['note']=t.get('note','survived')
        elif r['id'] in seen: d['note']='rerun after tightening'
        seen.add(r['id'])
        f.write(json.dumps(d)+'\n')
        if not fails and r['id'] not in tight: print('SURVIVOR',r['id'],m['edit'],'|',m['claim'])
        if fails and m.get('expect') and not any(x.startswith(e) for e in m['expect'] for x in fails): print('UNEXPECTED',r['id'],m['expect'],fails)
