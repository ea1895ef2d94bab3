#!/usr/bin/env python3
"""Seed one wrong edit into a scratch copy of the model and report which
property theorems no longer have a proof.

usage: mutate.py ID            run mutant ID of /verif/seeded/mutants.json
Proofs that fail are replaced by Admitted in the scratch copy (never in
/verif), so that the build goes on; a property theorem counts as failed when it,
or a lemma it uses, had to be admitted."""
import sys,json,os,re,subprocess,shutil
BASE=os.environ.get('MUTBASE','/tmp/mut/base')
def sh(c,cwd,t=3600):
    try:
        r=subprocess.run(c,shell=True,cwd=cwd,stdout=subprocess.PIPE,stderr=subprocess.STDOUT,timeout=t)
        return r.returncode,r.stdout.decode(errors='replace')
    except subprocess.TimeoutExpired: return 124,'TIMEOUT'
HEAD=re.compile(r'^\s*(Local\s+|Global\s+)?(Lemma|Theorem|Corollary|Example|Remark|Fact)\s+(\w+)')
DEFN=re.compile(r'^\s*(Definition|Fixpoint|Inductive|Record|Instance|Notation|Global Instance)\b')
def admit(path,line):
    L=open(path).read().split('\n')
    i=line-1
    while i>=0 and not HEAD.match(L[i]) and not DEFN.match(L[i]): i-=1
    if i<0 or not HEAD.match(L[i]): return None
    name=HEAD.match(L[i]).group(3)
    txt='\n'.join(L[i:])
    m=re.search(r'\bProof\b[^.]*\.(.*?)\b(Qed|Defined)\.',txt,re.S)
    if not m: return None
    # the error must not be in the statement
    pre=txt[:m.start()].count('\n')
    if line-1 < i+pre: return None
    new=txt[:m.start()]+'Admitted.'+txt[m.end():]
    # keep the number of lines
    open(path,'w').write('\n'.join(L[:i])+'\n'+new if i else new)
    return name
def run(mu):
    d='/tmp/mut/w_'+mu['id']
    shutil.rmtree(d,ignore_errors=True); shutil.copytree(BASE,d,symlinks=True)
    for e in mu['edits']:
        p=f"{d}/theories/{e['file']}"; s=open(p).read()
        if s.count(e['old'])<1: return {'id':mu['id'],'error':'pattern not found: '+e['old']}
        k=e.get('nth',0)
        parts=s.split(e['old'])
        if e.get('all'): s=s.replace(e['old'],e['new'])
        else:
            s=e['old'].join(parts[:k+1])+e['new']+e['old'].join(parts[k+1:])
        open(p,'w').write(s)
    admitted=[]; broken=[]
    for it in range(400):
        rc,out=sh("make COQEXTRAFLAGS='-set \"Default Timeout=240\"' 2>&1",d,3000)
        if rc==0: break
        m=None
        for m in re.finditer(r'File "\./theories/(\w+\.v)", line (\d+), characters [\d-]+:\nError',out): break
        if not m: broken.append(out[-400:]); break
        n=admit(f"{d}/theories/{m.group(1)}",int(m.group(2)))
        if n is None:
            broken.append(f"{m.group(1)}:{m.group(2)} "+out[m.end()-5:m.end()+200].replace('\n',' ')); break
        admitted.append(m.group(1)[:-2]+'.'+n)
    thms=[]; mods=[]
    for f in sorted(os.listdir(d+'/theories')):
        if re.match(r'Props_\w+\.v$',f) and os.path.exists(d+'/theories/'+f+'o'):
            if os.path.getmtime(d+'/theories/'+f+'o')<=os.path.getmtime(BASE+'/theories/'+f+'o')+1: continue  # not rebuilt, so unaffected
            mods.append(f[:-2]); thms+=re.findall(r'^Theorem (\w+)',open(d+'/theories/'+f).read(),re.M)
    failed=[];ok=[]
    if not broken:
        names={a.split('.')[-1] for a in admitted}
        with open(d+'/chk.v','w') as f:
            f.write('From Verif Require Import '+' '.join(mods)+'.\n')
            for t in thms: f.write(f'Goal True. idtac "==={t}". Abort.\nPrint Assumptions {t}.\n')
        rc,out=sh('coqc -Q theories Verif chk.v',d,3000)
        cur=None
        hit={}
        for l in out.split('\n'):
            if l.startswith('==='): cur=l[3:].strip(); hit[cur]=False
            else:
                w=re.match(r'^([\w.]+)',l)
                if cur and w and w.group(1).split('.')[-1] in names: hit[cur]=True
        for t in thms: (failed if hit.get(t) or t in names else ok).append(t)
    shutil.rmtree(d,ignore_errors=True)
    return {'id':mu['id'],'admitted':admitted,'broken':broken,'failed':failed,'survive':ok}
if __name__=='__main__':
    mus={m['id']:m for m in json.load(open('/verif/seeded/mutants.json'))}
    for i in sys.argv[1:]:  # 240 s per proof step; slower ones count as failed
        r=run(mus[i])
        with open('/tmp/mut/out.jsonl','a') as f: f.write(json.dumps(r)+'\n')
        print(i,'failed:',r.get('failed'),'admitted:',r.get('admitted'),'broken:',r.get('broken'),r.get('error'))
