#!/usr/bin/env python3
"""addclaim.py FILE.json: register a claim: properties, status, DESIGN.md rows.
{id,title,statement,quantifier,why,anchors,status,note,plan,[findings],[modelled]}"""
import json,sys,subprocess
c=json.load(open(sys.argv[1]))
g='/verif/tools/gen_properties.py'; s=open(g).read()
line='p(%s)\n'%','.join(json.dumps(c[k],ensure_ascii=False) for k in ('id','title','statement','quantifier','why','anchors'))
if 'p("%s"'%c['id'] not in s:
    s=s.replace("with open('properties.jsonl'",line+"with open('properties.jsonl'",1); open(g,'w').write(s)
subprocess.check_call(['python3','/verif/tools/setstatus.py',c['id'],c['status'],c['note']])
d=open('/verif/DESIGN.md').read().split('\n')
rows=[i for i,l in enumerate(d) if l.startswith('| C') and l.split('|')[1].strip()[1:].isdigit()]
d.insert(rows[-1]+1,'| %s | %s |'%(c['id'],c['plan']))
i5=next(i for i,l in enumerate(d) if l.startswith('## 5')); i6=next(i for i,l in enumerate(d) if l.startswith('## 6'))
for f in c.get('findings',[]):
    last=max(i for i in range(i5,next(i for i,l in enumerate(d) if l.startswith('## 6'))) if d[i].startswith('|'))
    d.insert(last+1,'| %s |'%f)
for f in c.get('modelled',[]):
    last=max(i for i,l in enumerate(d) if l.startswith('* ') and 'Model' in l.split(':')[0])
    d.insert(last+1,'* '+f)
open('/verif/DESIGN.md','w').write('\n'.join(d))
subprocess.check_call(['python3','tools/gen_properties.py'],cwd='/verif'); subprocess.check_call(['python3','tools/sync.py'],cwd='/verif')
