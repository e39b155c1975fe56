#!/usr/bin/env python3
"""Regenerates rocq/_CoqProject file list and MANIFEST.json.
Theorem names starting with Cnn_ in *Props.v files are attached to property Cnn.
Status and notes come from tools/status.json."""
import re,glob,json,os
root=os.path.dirname(os.path.dirname(os.path.abspath(__file__)))
os.chdir(root)
vs=sorted(os.path.basename(f) for f in glob.glob('rocq/theories/*.v'))
open('rocq/_CoqProject','w').write('-Q theories Verif\n'+''.join('theories/%s\n'%v for v in vs))
thms={}
for f in sorted(glob.glob('rocq/theories/*Props.v')):
    for m in re.finditer(r'^(?:Theorem|Corollary|Lemma)\s+((C\d\d\d?)_\w+)',open(f).read(),re.M):
        thms.setdefault(m.group(2),[]).append(m.group(1))
st=json.load(open('tools/status.json'))
claims=[]
for l in open('properties.jsonl'):
    p=json.loads(l)['id']
    s=st.get(p,{})
    if p in thms:
        claims.append(dict(property=p,status=s.get('status','proved'),theorems=thms[p],note=s.get('note','')))
    elif s.get('status')=='not_applicable':
        claims.append(dict(property=p,status='not_applicable',theorems=[],note=s.get('note','')))
json.dump({'claims':claims},open('MANIFEST.json','w'),indent=1)
print(len(claims),'claims',sum(len(c['theorems']) for c in claims),'theorems', 'missing:',[json.loads(l)['id'] for l in open('properties.jsonl') if json.loads(l)['id'] not in thms])
