#!/usr/bin/env python3
"""mutate.py LIST.json: apply each model edit to a scratch copy of rocq/, rebuild, report which proofs break.
LIST: [{"file","old","new","def","claim"}]; old must occur exactly once (or give "nth").  Results: JSON lines on stdout file."""
import json,os,re,subprocess,sys,shutil
SRC='/verif/rocq'; W='/tmp/mut/rocq'
lst=json.load(open(sys.argv[1])); outp=sys.argv[2]
jobs=sys.argv[3] if len(sys.argv)>3 else '2'
def fresh():
    subprocess.run(['rsync','-a','--delete',SRC+'/',W+'/'],check=True) if shutil.which('rsync') else (shutil.rmtree(W,ignore_errors=True),subprocess.run(['cp','-a',SRC,W],check=True))
def lemma_at(f,line):
    last='?'
    for i,l in enumerate(open(f),1):
        if i>line: break
        m=re.match(r'\s*(?:Lemma|Theorem|Example|Corollary|Definition|Fixpoint|Fact)\s+(\S+)',l)
        if m: last=m.group(1)
    return last
for k,mu in enumerate(lst):
    os.makedirs('/tmp/mut',exist_ok=True); fresh()
    p=f'{W}/theories/{mu["file"]}'
    s=open(p).read(); n=s.count(mu['old'])
    if n==0 or (n>1 and 'nth' not in mu): print(k,'BAD EDIT',n,mu['old'],flush=True); continue
    if 'nth' in mu:
        parts=s.split(mu['old']); i=mu['nth']+1
        s=mu['old'].join(parts[:i])+mu['new']+mu['old'].join(parts[i:])
    else: s=s.replace(mu['old'],mu['new'])
    open(p,'w').write(s)
    subprocess.run('coq_makefile -f _CoqProject -o Makefile',shell=True,cwd=W,stdout=subprocess.DEVNULL)
    r=subprocess.run(f'timeout 2400 make -k -j{jobs} COQC="timeout 600 coqc"',shell=True,cwd=W,stdout=subprocess.PIPE,stderr=subprocess.STDOUT,text=True)
    fails=[]
    for m in re.finditer(r'File "\./(theories/\S+\.v)", line (\d+), characters [^\n]*\n(Error[^\n]*)',r.stdout):
        f=m.group(1); fails.append([os.path.basename(f),lemma_at(f'{W}/{f}',int(m.group(2))),m.group(3)[:120]])
    for m in re.finditer(r'Error 124',r.stdout): fails.append(['timeout','timeout',''])
    blocked=sorted(f for f in os.listdir(W+'/theories') if f.startswith('P_') and f.endswith('.v') and (not os.path.exists(f'{W}/theories/{f}o') or os.path.getmtime(f'{W}/theories/{f}o')<os.path.getmtime(p)))
    rec={'definition':mu['file']+': '+mu['def'],'edit':mu.get('edit',mu['old']+'  -->  '+mu['new']),'claim':mu['claim'],'failed':fails,'blocked':blocked,'rc':r.returncode}
    open(outp,'a').write(json.dumps(rec)+'\n')
    print(k,mu['def'],'SURVIVED' if not fails else [x[:2] for x in fails],flush=True)
