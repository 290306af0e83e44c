#!/usr/bin/env python3
"""Mutation testing of the theorems.  usage: mutate.py batch.py
batch.py defines MUT = [(model file, definition, old text, new text, claim (English, which property id breaks), tightened), ...].
Each mutation is applied to a scratch copy of /verif/rocq; lemmas whose proofs break are admitted there one by one and Print
Assumptions then tells which of the property theorems depend on a broken proof.  One JSON line per mutation goes to
/verif/seeded/LOG.jsonl.  Only the property files of the claim's
properties are rebuilt (all of them with MUT_ALL=1)."""
import sys,os,re,subprocess,json,shutil,runpy
MD=os.environ.get('MUT_DIR','/tmp/mut'); SRC=MD+'src/rocq'; S=MD+'/rocq'; LOG='/verif/seeded/LOG.jsonl'
def sh(c,t=3000):
    try: return subprocess.run(c,shell=True,cwd=S,capture_output=True,text=True,timeout=t)
    except subprocess.TimeoutExpired as e:
        class R: stdout='';stderr='TIMEOUT';returncode=124
        return R
def sync():
    os.makedirs(MD,exist_ok=True)
    subprocess.run(['rsync','-a','--delete',SRC+'/',S+'/'],check=False) if shutil.which('rsync') else subprocess.run(f'rm -rf {S}; cp -a {SRC} {S}',shell=True)
HEAD=re.compile(r'^\s*(?:Local\s+|Global\s+)?(Lemma|Theorem|Example|Corollary|Fact|Remark|Definition|Fixpoint|Let)\s+([A-Za-z0-9_\']+)',re.M)
def admit(path,line):
    s=open(path).read(); lines=s.split('\n'); pos=sum(len(l)+1 for l in lines[:line-1])
    end=pos+len(lines[line-1])
    ms=[m for m in HEAD.finditer(s) if m.start()<=end]
    if not ms: return None
    m=ms[-1]; nxt=HEAD.search(s,m.end()); lim=len(s)
    pf=s.find('Proof',m.start())
    q=re.compile(r'\b(Qed|Defined)\.').search(s,m.start())
    if pf<0 or not q or pf>q.start(): return None
    if end>q.end()+5 and line>s[:q.end()].count('\n')+1: return None
    body=s[pf:q.end()]
    # keep the line count
    s=s[:pf]+'Admitted.'+'\n'*body.count('\n')+s[q.end():]
    open(path,'w').write(s); return m.group(2)
def run(mut):
    f,defn,old,new,claim,tight=mut
    sync(); p=f'{S}/theories/{f}'; s=open(p).read()
    if s.count(old)!=1: return dict(error=f'pattern occurs {s.count(old)} times',definition=defn)
    open(p,'w').write(s.replace(old,new))
    admitted=[]; hard=[]
    ids=set(re.findall(r'C\d\d+',claim)); props=sorted(os.listdir(S+'/theories/Props'))
    props=[x for x in props if x.endswith('.v')]
    mine=[x for x in props if ids & set(re.findall(r'^Theorem (C\d\d+)_',open(f'{S}/theories/Props/{x}').read(),re.M))]
    if os.environ.get('MUT_ALL') or not mine: mine=props
    targets=' '.join(f'theories/Props/{x}o' for x in mine)
    for it in range(60):
        r=sh('make -k -j3 '+targets+' 2>&1',4000); out=r.stdout
        errs=re.findall(r'File "\./(theories/[^"]+)", line (\d+)[^\n]*\n(?:(?!File ")[^\n]*\n)*?Error',out)
        if 'Error' not in out: break
        seen=set(); prog=False
        for ff,ln in errs:
            if ff in seen: continue
            seen.add(ff); n=admit(f'{S}/{ff}',int(ln))
            if n: admitted.append(n); prog=True
            else: hard.append(f'{ff}:{ln}')
        if not prog: break
    failed=[]; examples=[a for a in admitted if '_case' in a]
    aset=set(admitted); broken_props=[]
    for pf in mine:
        vo=f'{S}/theories/Props/{pf}o'
        src=open(f'{S}/theories/Props/{pf}').read(); names=re.findall(r'^Print Assumptions ([A-Za-z0-9_]+)\.',src,re.M)
        failed+= [a for a in admitted if re.match(r'C\d\d',a) and a in src and a not in failed and '_case' not in a]
        if not os.path.exists(vo) or hard and os.path.getmtime(vo)<os.path.getmtime(p):
            broken_props.append(pf); continue
        if os.path.getmtime(vo)<os.path.getmtime(p): continue
        o=sh(f'coqc -Q theories Verif theories/Props/{pf}').stdout
        blocks=re.split(r'^(?=Axioms:|Closed under the global context)',o,flags=re.M)[1:]
        for n,b in zip(names,blocks):
            ax=set(re.findall(r'^([A-Za-z0-9_\'.]+)\s*(?::|$)',b,re.M)); ax={a.split('.')[-1] for a in ax}
            if ax&aset: failed.append(n)
    d=dict(definition=f'{f}: {defn}',edit=f'{old.strip()}  ==>  {new.strip()}',claim=claim,theorems_failed=sorted(set(failed)),lemmas_failed=admitted,tightened=tight)
    if len(mine)<len(props): d['checked']=mine   # only the files with the theorems of the claim were rebuilt
    if hard: d['does_not_typecheck_after']=hard; d['props_files_not_built']=broken_props
    return d
if __name__=='__main__':
    # snapshot, so that work in progress does not disturb a running batch
    # (/tmp/mutsnap, if there, is a built copy to use instead of the working tree)
    src='/tmp/mutsnap/rocq' if os.path.isdir('/tmp/mutsnap/rocq') else '/verif/rocq'
    subprocess.run(f'rm -rf {MD}src; mkdir -p {MD}src; cp -a {src} {MD}src/',shell=True)
    M=runpy.run_path(sys.argv[1])['MUT']
    only=set(map(int,sys.argv[2:]))
    for k,m in enumerate(M):
        if only and k not in only: continue
        d=run(m)
        print(k,json.dumps(d)[:1500],flush=True)
        if 'error' not in d:
            with open(LOG,'a') as h: h.write(json.dumps(d)+'\n')
