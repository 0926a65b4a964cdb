#!/usr/bin/env python3
"""Seeded-bug experiments.  For each mutant (file, old text, new text) rebuild a
scratch copy of the development; a lemma whose proof breaks is recorded and
replaced by a cheat (an axiom of the scratch copy only), until everything
builds.  A property theorem has FAILED when its own proof broke or when its
Print Assumptions lists the cheat.
usage: mutate.py base            build the scratch base /tmp/mutbase
       mutate.py run FILE.json   run the mutants, append results to /tmp/mutres.jsonl
"""
import sys,os,re,json,subprocess,shutil,time
BASE='/tmp/mutbase'; W=os.environ.get('MUTW','/tmp/mutwork')
def sh(c,**k): return subprocess.run(c,shell=True,text=True,stdout=subprocess.PIPE,stderr=subprocess.STDOUT,**k).stdout
def base():
    shutil.rmtree(BASE,ignore_errors=True)
    os.makedirs(BASE+'/theories')
    sh(f'cp /verif/rocq/_CoqProject {BASE}/; cp /verif/rocq/theories/*.v {BASE}/theories/')
    for f in os.listdir(BASE+'/theories'):
        p=f'{BASE}/theories/{f}'; s=open(p).read()
        if f.startswith('Prop'): s=s  # keep
        open(p,'w').write(s)
    p=BASE+'/theories/Chars.v'; s=open(p).read()
    open(p,'w').write(s+'\nAxiom mut_cheat : forall P : Prop, P.\n')
    sh(f'cd {BASE} && coq_makefile -f _CoqProject -o Makefile')
    out=sh(f'cd {BASE} && make -j4 --output-sync=target COQEXTRAFLAGS=\'-set "Suggest Proof Using"\'')
    us={}
    # "The proof of X\nshould start with one of the following commands:\nProof using a b.\n..."
    cur=None
    for blk in re.split(r'(?m)^(?=COQC )',out):
        m=re.match(r'COQC theories/(\w+)\.v',blk)
        if not m: continue
        for l,u in re.findall(r'The proof of (\S+)\s+should start with one of the following commands:\s+Proof using([^.]*)\.',blk):
            us[m.group(1)+'.'+l]=u.strip()
    json.dump(us,open(BASE+'/using.json','w'))
    print(len(us),'using clauses'); print(out[-400:])
STMT=re.compile(r'(?m)^\s*(?:Local |Global )?(Lemma|Theorem|Example|Corollary|Fact|Remark|Proposition)\s+(\w+)')
def run_one(m,using):
    shutil.rmtree(W,ignore_errors=True); sh(f'cp -a {BASE} {W}')
    edits=m['edits'] if 'edits' in m else [(m['file'],m['old'],m['new'])]
    for f,o,n in edits:
        p=f'{W}/theories/{f}'; s=open(p).read()
        if s.count(o)!=1: return dict(error=f'{f}: old text occurs {s.count(o)} times')
        open(p,'w').write(s.replace(o,n))
    broken=[]; t0=time.time(); logs={}
    for it in range(60):
        out=sh(f'cd {W} && make -k -j2 --output-sync=target COQEXTRAFLAGS=\'-set "Default Timeout=400"\' 2>&1')
        for blk in re.split(r'(?m)^(?=COQC )',out):
            mm=re.match(r'COQC theories/(\w+)\.v',blk)
            if mm: logs[mm.group(1)]=blk
        errs=re.findall(r'File "\./theories/(\w+)\.v", line (\d+), characters (\d+)-\d+:\s*\n?Error',out)
        if not errs:
            if 'Error' in out and 'make' in out and 'Error 1' in out: return dict(error=out[-800:],broken=broken)
            break
        for f,l,c in errs:
            p=f'{W}/theories/{f}.v'; s=open(p).read(); lines=s.split('\n')
            off=sum(len(x)+1 for x in lines[:int(l)-1])+int(c)
            ms=[x for x in STMT.finditer(s) if x.start()<=off]
            if not ms: return dict(error=f'{f}:{l} not in a lemma',broken=broken,out=out[-600:])
            x=ms[-1]; name=x.group(2)
            pi=s.find('Proof',x.start()); q=re.compile(r'(Qed|Defined)\.').search(s,pi)
            if off>q.end(): return dict(error=f'{f}:{l} definition fails after {name}: '+out[out.find('Error'):][:300],broken=broken)
            if off<pi: return dict(error=f'{f}:{l} statement of {name} fails: '+out[out.find('Error'):][:300],broken=broken)
            u=using.get(f'{f}.{name}')
            prf='Proof'+(f' using {u}' if u is not None else '')+'. apply mut_cheat. Qed.'
            s=s[:pi]+prf+s[q.end():]
            open(p,'w').write(s); broken.append(f'{f}.{name}')
    else: return dict(error='too many iterations',broken=broken)
    failed=[]
    for f in sorted(os.listdir(W+'/theories')):
        if not f.startswith('Prop') or not f.endswith('.v'): continue
        names=re.findall(r'(?m)^Print Assumptions (\w+)\.',open(W+'/theories/'+f).read())
        b=logs.get(f[:-2])
        if b is None: continue
        parts=re.findall(r'Closed under the global context|Axioms:\n(?:(?!Closed under|Axioms:)(?:.|\n))*',b)
        if len(parts)!=len(names): failed.append(f'?{f} {len(parts)} {len(names)}'); continue
        for n,pz in zip(names,parts):
            if 'mut_cheat' in pz: failed.append(n)
    return dict(broken=broken,failed=failed,secs=round(time.time()-t0))
def main():
    if sys.argv[1]=='base': return base()
    using=json.load(open(BASE+'/using.json'))
    for m in json.load(open(sys.argv[2])):
        r=run_one(m,using); r['mutant']=m
        open('/tmp/mutres.jsonl','a').write(json.dumps(r)+'\n')
        print(m.get('name'),'|',m.get('claim'),'|',r.get('error'),'| broken',len(r.get('broken',[])),'| failed',r.get('failed'),flush=True)
main()
