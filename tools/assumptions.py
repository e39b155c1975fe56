#!/usr/bin/env python3
"""Prints, per theorem of MANIFEST.json, what Print Assumptions lists (needs a finished build in rocq/).
With --design, rewrites the table between the markers in DESIGN.md."""
import json,os,re,subprocess,sys,glob,tempfile
root=os.path.dirname(os.path.dirname(os.path.abspath(__file__)))
os.chdir(root)
ths=[(c['property'],t) for c in json.load(open('MANIFEST.json'))['claims'] for t in c['theorems']]
where={}
for f in glob.glob('rocq/theories/*Props.v'):
    for m in re.finditer(r'^(?:Theorem|Corollary|Lemma)\s+(C\d\d\d?_\w+)',open(f).read(),re.M): where[m.group(1)]=os.path.basename(f)[:-2]
d=tempfile.mkdtemp()
src='From Verif Require %s.\n'%' '.join(sorted(set(where.values())))
for p,t in ths: src+='Check %s.%s.\nPrint Assumptions %s.%s.\n'%(where[t],t,where[t],t)
open(d+'/a.v','w').write(src)
out=subprocess.run(['coqc','-Q',root+'/rocq/theories','Verif',d+'/a.v'],capture_output=True,text=True)
if out.returncode: print(out.stderr); sys.exit(1)
text=out.stdout
res={};cur=None
for line in text.split('\n'):
    m=re.match(r'^(?:\w+\.)?(C\d+_\w+)$',line.strip()) or re.match(r'^(?:\w+\.)?(C\d+_\w+)\s*:',line)
    if m: cur=m.group(1); res[cur]=[]; seen=False; continue
    if line.startswith('Axioms:'): seen=True
    m=re.match(r'^([\w.]+) ?(?::|$)',line)
    if cur and seen and m and m.group(1) not in('Axioms','The','Closed','In'): res[cur].append(m.group(1).split('.')[-1])
groups={}
for p,t in ths: groups.setdefault(tuple(sorted(set(res[t]))),{}).setdefault(p,[]).append(t)
s=''
for g in sorted(groups,key=len):
    s+='\n**%s**\n\n'%(', '.join('`%s`'%x for x in g) if g else 'Closed under the global context (no axioms)')
    for p in sorted(groups[g]): s+='* %s: %s\n'%(p,', '.join('`%s`'%t for t in groups[g][p]))
if '--design' in sys.argv:
    D=open('DESIGN.md').read()
    a='<!-- assumptions begin -->';b='<!-- assumptions end -->'
    D=D[:D.index(a)+len(a)]+'\n'+s+'\n'+D[D.index(b):]
    open('DESIGN.md','w').write(D)
else: print(s)
