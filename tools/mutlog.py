#!/usr/bin/env python3
"""Convert /tmp/mutres.jsonl (tools/mutate.py) to seeded/LOG.jsonl, keeping hand-written lines.
tightened notes come from tools/tightened.json: {mutant name: [theorems] }."""
import json,os,re
tight=json.load(open('/verif/tools/tightened.json')) if os.path.exists('/verif/tools/tightened.json') else {}
out={}
p='/verif/seeded/LOG.jsonl'
for l in open(p):
    if l.strip():
        x=json.loads(l); out[x['name']]=x
for l in open('/tmp/mutres.jsonl'):
    r=json.loads(l); m=r['mutant']
    if r.get('error'): continue
    edits=m['edits'] if 'edits' in m else [[m['file'],m['old'],m['new']]]
    x=dict(name=m['name'],definition=m.get('definition') or '',file=','.join(sorted({e[0] for e in edits})),
      edit=[dict(old=e[1],new=e[2]) for e in edits],claim=m.get('claim'),theorems_failed=r['failed'],lemmas_broken=r['broken'],
      theorems_tightened=tight.get(m['name'],[]))
    if m.get('note'): x['note']=m['note']
    out[m['name']]=x
open(p,'w').write(''.join(json.dumps(x,ensure_ascii=False)+'\n' for x in out.values()))
for x in out.values():
    c=re.findall(r'C\d{2,3}',x['claim'] or '')
    if not any(t.startswith(k) for k in c for t in x['theorems_failed']): print('SURVIVES',x['name'],x['claim'],x['theorems_failed'])
print(len(out))
