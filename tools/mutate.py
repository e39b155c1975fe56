#!/usr/bin/env python3
"""Seed realistic bugs into a scratch copy of the model and see which theorems notice.

usage: mutate.py MUTATIONS.json [--log]
Each mutation: {"file","def","old","new","claim","edit"}.  The edit is applied to a
copy in /tmp/mut; lemmas that no longer check are replaced by Admitted and the build is
repeated; finally Print Assumptions tells which property theorems rest on them.
"""
import sys,json,re,subprocess,os,shutil
SRC=os.environ.get('MUTSRC','/verif/rocq'); M=os.environ.get('MUTDIR','/tmp/mut')
HEAD=re.compile(r'^\s*(?:Local |Global |#\[[^\]]*\]\s*)*(Lemma|Theorem|Example|Corollary|Fact|Remark|Instance|Definition|Fixpoint|Program)\s+([\w\']+)',re.M)
def sh(c,**k): return subprocess.run(c,shell=True,capture_output=True,text=True,**k)
def base():
    sh(f'rm -rf {M}; cp -a {SRC} {M}')
def strip_lemma(path,line):
    s=open(path).read(); lines=s.split('\n')
    off=sum(len(l)+1 for l in lines[:line-1])+1
    ms=[m for m in HEAD.finditer(s) if m.start()<=off+200 and s.count('\n',0,m.start())<line]
    if not ms: return None
    m=ms[-1]; name=m.group(2)
    p=re.compile(r'\bProof\b[^.]*\.').search(s,m.start())
    if not p: return None
    q=re.compile(r'\b(Qed|Defined)\.').search(s,p.start())
    nxt=HEAD.search(s,m.end())
    if nxt and p.start()>nxt.start(): return None
    if m.group(1) in('Definition','Fixpoint') and not p: return None
    s=s[:p.start()]+'Admitted.'+s[q.end():]
    # a term proof or Print Assumptions after it is harmless
    open(path,'w').write(s); return name
def run(mu):
    base()
    f=f'{M}/theories/{mu["file"]}'; s=open(f).read()
    n=s.count(mu['old'])
    if n!=1: return {'error':f'pattern occurs {n} times'}
    open(f,'w').write(s.replace(mu['old'],mu['new']))
    admitted=[]
    for it in range(80):
        r=sh(f'cd {M} && make -k -j4 TIMECMD="timeout 900"',timeout=3600); out=r.stdout+r.stderr
        if r.returncode==0: break
        errs={}
        for m in re.finditer(r'File "\./theories/(\w+\.v)", line (\d+), characters (\d+)-(\d+):\n(Error.*)?',out):
            if m.group(1) not in errs and m.group(5): errs[m.group(1)]=(int(m.group(2)),m.group(5))
        if not errs: return {'error':'build: '+out[-800:],'admitted':admitted}
        for g,(l,e) in errs.items():
            nm=strip_lemma(f'{M}/theories/{g}',l)
            if nm is None: return {'error':f'{g}:{l} not in a proof {e}','admitted':admitted}
            admitted.append(nm)
    fails=[]
    if admitted:
        props=[x for x in sorted(os.listdir(f'{M}/theories')) if x.endswith('Props.v')]
        names=[]; mods=[]
        for x in props:
            t=open(f'{M}/theories/{x}').read()
            th=re.findall(r'^Theorem (C\d+\w*)',t,re.M)
            if x[:-7] and any(True for _ in th): names+=[(x[:-2],y) for y in th]; mods.append(x[:-2])
        if mu.get('area'):
            names=[a for a in names if a[0] in mu['area']]; mods=[m for m in mods if m in mu['area']]
        c=''.join(f'From Verif Require {m}.\n' for m in mods)
        for mo,y in names: c+=f'Goal True. idtac "@@ {y}". exact I. Qed.\nPrint Assumptions {mo}.{y}.\n'
        os.makedirs('/tmp/scratch',exist_ok=True)
        open('/tmp/scratch/mutchk.v','w').write(c)
        o=sh(f'cd {M}/theories && coqc -Q . Verif -w -all /tmp/scratch/mutchk.v',timeout=3600)
        cur=None
        for ln in (o.stdout+o.stderr).split('\n'):
            if ln.startswith('@@'): cur=ln[3:].strip()
            else:
                w=re.match(r'([\w.\']+)',ln)
                if w and w.group(1).split('.')[-1] in admitted and cur not in fails: fails.append(cur)
        if 'Error' in o.stderr: return {'error':o.stderr[-500:],'admitted':admitted}
    return {'failed':fails,'broken_lemmas':admitted}
if __name__=='__main__':
    mus=json.load(open(sys.argv[1])); log='--log' in sys.argv
    for mu in mus:
        r=run(mu)
        print(mu['def'],'|',mu['edit'],'->',json.dumps(r),flush=True)
        if log and 'error' not in r:
            with open('/verif/seeded/LOG.jsonl','a') as fo:
                fo.write(json.dumps({'definition':mu['file']+':'+mu['def'],'edit':mu['edit'],'claim':mu['claim'],
                  'theorems_failed':r['failed'],'lemmas_broken':r['broken_lemmas'],'theorems_tightened':mu.get('tightened',[]),
                  **({'note':mu['note']} if 'note' in mu else {})})+'\n')
