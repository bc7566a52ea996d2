#!/usr/bin/env python3
"""Seed a wrong program: edit the model in a scratch copy, rebuild, admit what fails, report which C-theorems rest on a failed proof."""
import subprocess,re,os,sys,shutil,json,glob,time
BASE='/tmp/mut/base'; W='/tmp/mut/work'
def sh(c,t=3000): return subprocess.run(c,shell=True,capture_output=True,text=True,timeout=t)
def prep():
    os.makedirs(BASE,exist_ok=True)
    sh(f'rm -rf {BASE} && cp -a /verif/rocq {BASE}')
    sh(f'cd {BASE} && coq_makefile -f _CoqProject -o Makefile && make -j4')
HEAD=re.compile(r'^\s*(Local |Global |#\[.*\] )?(Lemma|Theorem|Example|Corollary|Fact|Definition|Fixpoint|Inductive|Record|Instance)\s+(\w+)')
def enclosing(lines,n):
    for i in range(n-1,-1,-1):
        m=HEAD.match(lines[i])
        if m: return i,m.group(2),m.group(3)
    return None
def admit(path,n):
    lines=open(path).read().split('\n')
    e=enclosing(lines,n)
    if not e: return None
    i,kind,name=e
    if kind in('Definition','Fixpoint','Inductive','Record','Instance'):
        # maybe a "Print Assumptions"/statement error
        return kind,name,False
    txt='\n'.join(lines[i:])
    m=re.search(r'\bProof\b[^.]*\.',txt); q=re.search(r'\b(Qed|Defined)\.',txt)
    if not m or not q: return kind,name,False
    if m.start()>q.start(): return kind,name,False
    # keep line count
    body=txt[m.start():q.end()]
    new='Admitted.'+'\n'*body.count('\n')
    txt=txt[:m.start()]+new+txt[q.end():]
    open(path,'w').write('\n'.join(lines[:i])+('\n' if i else '')+txt)
    return kind,name,True
def run(mid,edits,verbose=False):
    """edits: list of (file, old, new)"""
    sh(f'rm -rf {W} && cp -a {BASE} {W}')
    for f,o,nw in edits:
        p=f'{W}/theories/{f}'; s=open(p).read()
        if s.count(o)!=1: return dict(id=mid,error=f'pattern occurs {s.count(o)} times in {f}: {o[:60]}')
        open(p,'w').write(s.replace(o,nw))
    failed=[];examples=[];ill=[]
    t0=time.time()
    outp={}
    for it in range(60):
        if time.time()-t0> 3600: return dict(id=mid,error='time',failed=failed,examples=examples)
        r=sh(f"cd {W} && make -k -j4 COQC='timeout 400 coqc' 2>&1")
        out=r.stdout
        # collect print assumptions per file is hard with -j; done at the end
        errs=re.findall(r'File "\./theories/(\w+\.v)", line (\d+), characters[^\n]*\n(?:Error|.*\nError)',out)
        errs=[(a,int(b)) for a,b in errs]
        tmo=re.findall(r'\[Makefile:\d+: theories/(\w+)\.vo\] Error 124',out)
        if not errs and not tmo:
            if r.returncode==0: break
            return dict(id=mid,error='?'+out[-500:],failed=failed)
        if tmo and not errs:
            # a slow file: find the sentence that does not end, and count its lemma as failed
            for f in tmo:
                o=sh(f"cd {W} && timeout 300 coqc -time -Q theories Verif theories/{f}.v 2>&1")
                if o.returncode!=124: continue
                cs=re.findall(r'^Chars (\d+) - (\d+) ',o.stdout,re.M)
                txt=open(f'{W}/theories/{f}.v','rb').read()
                pos=int(cs[-1][1]) if cs else 0
                n=txt[:pos].count(b'\n')+1
                a=admit(f'{W}/theories/{f}.v',n)
                if a is None or not a[2]: return dict(id=mid,error=f'timeout in {f}:{n} {a}',failed=failed,examples=examples)
                (examples if a[0]=='Example' or a[1].endswith('_refuted') else failed).append(a[1])
            continue
        seen=set()
        for f,n in errs:
            if f in seen: continue
            seen.add(f)
            a=admit(f'{W}/theories/{f}',n)
            if a is None or not a[2]:
                return dict(id=mid,error=f'ill-formed at {f}:{n} {a}',failed=failed,examples=examples,out=out[-800:])
            kind,name,_=a
            if kind=='Example' or name.endswith('_refuted') : examples.append(name)
            else: failed.append(name)
    # which C theorems rest on failed lemmas
    hit=[]
    if failed or examples:
        fs=sorted(glob.glob(f'{W}/theories/Prop_*.v'))
        thms=[];mods=[]
        for f in fs:
            mods.append(os.path.basename(f)[:-2])
            for m in re.finditer(r'^Theorem (C\d\d\w*)',open(f).read(),re.M): thms.append((os.path.basename(f)[:-2],m.group(1)))
        open(f'{W}/Q.v','w').write('From Verif Require '+' '.join(mods)+'.\n'+''.join(f'Goal True. idtac "@@{m}.{t}". Abort.\nPrint Assumptions Verif.{m}.{t}.\n' for m,t in thms))
        o=sh(f'cd {W} && coqc -Q theories Verif Q.v').stdout
        cur=None;names=set(failed)
        for l in o.split('\n'):
            if l.startswith('@@'): cur=l[2:].split('.')[1]
            else:
                m=re.match(r'^([\w.]+)( |$)',l)
                if m and m.group(1).split('.')[-1] in names and cur not in hit: hit.append(cur)
    hit=[h for h in hit if not h.endswith('_refuted')]
    return dict(id=mid,failed=failed,examples=examples,theorems=hit,secs=int(time.time()-t0))
if __name__=='__main__':
    if sys.argv[1]=='prep': prep(); sys.exit()
    import importlib.util
    spec=importlib.util.spec_from_file_location('muts',sys.argv[1]); M=importlib.util.module_from_spec(spec); spec.loader.exec_module(M)
    done=set()
    outf=sys.argv[2]
    if os.path.exists(outf): done={json.loads(l)['id'] for l in open(outf)}
    for m in M.MUTS:
        if m['id'] in done: continue
        try: r=run(m['id'],m['edits'])
        except Exception as e: r=dict(id=m['id'],error=repr(e))
        with open(outf,'a') as g: g.write(json.dumps(r)+'\n')
        print(r['id'],r.get('error'),'failed',r.get('failed'),'ex',len(r.get('examples',[])),'thms',len(r.get('theorems',[])),r.get('secs'),flush=True)
