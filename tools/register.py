#!/usr/bin/env python3
"""Registers a property: register.py FILE.json with the keys prop (a line of
properties.jsonl), row (its row in DESIGN.md), note ({"status","note"})."""
import json,sys,subprocess,re
r=json.load(open(sys.argv[1])); i=r['prop']['id']
ls=[l for l in open('/verif/properties.jsonl') if l.strip() and json.loads(l)['id']!=i]
open('/verif/properties.jsonl','w').write(''.join(ls)+json.dumps(r['prop'],ensure_ascii=False)+'\n')
s=open('/verif/DESIGN.md').read().split('\n')
s=[l for l in s if not l.startswith(f'| {i} |')]
k=max(n for n,l in enumerate(s) if re.match(r'\| C\d+ \|',l))
s.insert(k+1,f'| {i} | '+r['row']+' |')
open('/verif/DESIGN.md','w').write('\n'.join(s))
n=json.load(open('/verif/tools/notes.json')); n[i]=r['note']
json.dump(n,open('/verif/tools/notes.json','w'),indent=1,ensure_ascii=False)
print(subprocess.run(['python3','/verif/tools/manifest.py'],text=True,stdout=subprocess.PIPE).stdout[-300:])
