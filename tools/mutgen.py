#!/usr/bin/env python3
"""mutgen.py BASE OUT SEED PERDEF FILE...: random one-token edits of the model's definitions.
BASE is a built copy of rocq/.  Each edit is applied in a scratch copy; an edit that does not typecheck is dropped; otherwise the
development is rebuilt until the first proof fails.  Results (JSON lines) go to OUT; already tested edits are skipped."""
import json,os,re,subprocess,sys,random,glob,shutil
BASE,OUT,seed,per=sys.argv[1],sys.argv[2],int(sys.argv[3]),int(sys.argv[4]); files=sys.argv[5:]
W='/tmp/mut/gen'; os.makedirs(W,exist_ok=True)
OPS=[(r'\bfadd F\b','fsub F'),(r'\bfsub F\b','fadd F'),(r'\bfmul F\b','fdiv F'),(r'\bfdiv F\b','fmul F'),(r'<\?','<=?'),(r'<=\?','<?'),(r'(?<!<)=\?','<=?'),
 (r'\bf0 F\b','f1 F'),(r'\bf1 F\b','f0 F'),(r'\bmrows\b','mcols'),(r'\bmcols\b','mrows'),(r'&&','||'),(r'\|\|','&&'),(r'\bnegb \(','id ('),(r'\btrue\b','false'),(r'\bfalse\b','true'),
 (r'(?<=[ (])0(?=[ )])','1'),(r'(?<=[ (])1(?=[ )])','2'),(r'(?<=[ (])2(?=[ )])','3'),(r'\bflt F\b','fle F'),(r'\bfle F\b','flt F'),(r'\bflt F (\w+) (\w+)',r'flt F \2 \1'),
 (r'assert_ \([^()]*(\([^()]*\))?[^()]*\) ;;;',''),(r'\bfopp F\b','id'),(r' \+ ',' - '),(r' - ',' + '),(r' \* ',' + '),(r'\bS (\w)\b',r'\1'),(r'\bfst\b','snd'),(r'\bsnd\b','fst'),(r'\bLexp\b','Llog'),(r'\bLlog\b','Lexp'),(r'\bLsqrt\b','Lexp')]
def defs(s):
    out=[]
    for m in re.finditer(r'^(?:Definition|Fixpoint)\s+(\w+)(.*?)(?=\n\s*\n|\n\(\*|\n(?:Definition|Fixpoint|Section|End|Record|Inductive|Notation|Lemma|Variable)\b|\Z)',s,re.S|re.M):
        out.append((m.group(1),m.start(),m.end()))
    return out
alld={}
for f in glob.glob(BASE+'/theories/*.v'):
    s=open(f).read()
    for n,a,b in defs(s): alld[n]=set(re.findall(r'\w+',s[a:b]))-{n}
pth={}
for f in glob.glob(BASE+'/theories/P_*.v'):
    for m in re.finditer(r'^Theorem (C\d+)\w* :(.*?)\nProof',open(f).read(),re.S|re.M):
        pth.setdefault(m.group(1),set()).update(re.findall(r'\w+',m.group(2)))
def claims(d):
    front={d}; seen={d}
    for _ in range(8):
        hit=sorted(c for c,w in pth.items() if w&seen)
        if hit: return hit
        front={n for n,w in alld.items() if w&front}-seen; seen|=front
        if not front: break
    return []
done=set()
if os.path.exists(OUT):
    for l in open(OUT): r=json.loads(l); done.add((r['definition'],r['edit']))
rnd=random.Random(seed); todo=[]
for f in files:
    s=open(f'{BASE}/theories/{f}').read()
    for n,a,b in defs(s):
        body=s[a:b]; c=[]
        hd=body.find(':=')
        for pat,rep in OPS:
            for m in re.finditer(pat,body):
                if m.start()>hd: c.append((m.start(),m.end(),m.expand(rep)))
        rnd.shuffle(c)
        todo+= [(f,n,a,x) for x in c[:per]]
rnd.shuffle(todo)
print(len(todo),'edits',flush=True)
def sync():
    for sub in ('.','theories'):
        os.makedirs(f'{W}/{sub}',exist_ok=True); b=set(os.listdir(f'{BASE}/{sub}'))
        for x in os.listdir(f'{W}/{sub}'):
            if x not in b and os.path.isfile(f'{W}/{sub}/{x}'): os.remove(f'{W}/{sub}/{x}')
        for x in b:
            a,c=f'{BASE}/{sub}/{x}',f'{W}/{sub}/{x}'
            if not os.path.isfile(a): continue
            if not os.path.exists(c) or os.stat(a).st_mtime_ns!=os.stat(c).st_mtime_ns or os.stat(a).st_size!=os.stat(c).st_size: shutil.copy2(a,c)
for k,(f,n,a,(i,j,rep)) in enumerate(todo):
    s=open(f'{BASE}/theories/{f}').read(); p=f'{W}/theories/{f}'
    lo=s.rfind('\n',0,a+i)+1; hi=s.find('\n',a+j); old=s[lo:hi].strip(); ns=s[:a+i]+rep+s[a+j:]; new=ns[lo:hi+len(rep)-(j-i)].strip()
    key=(f'{f}: {n}',f'{old}  -->  {new}')
    if key in done: continue
    sync(); open(p,'w').write(ns)
    if subprocess.run(['timeout','300','coqc','-Q','theories','Verif','-w','none',f'theories/{f}'],cwd=W,stdout=subprocess.DEVNULL,stderr=subprocess.DEVNULL).returncode: continue
    os.utime(p)
    r=subprocess.run('timeout 3600 make -j2 COQC="timeout 900 coqc"',shell=True,cwd=W,stdout=subprocess.PIPE,stderr=subprocess.STDOUT,text=True)
    fails=[]
    for m in re.finditer(r'File "\./(theories/\S+\.v)", line (\d+), characters [^\n]*\n(Error[^\n]*)',r.stdout):
        last='?'
        for q,l in enumerate(open(f'{W}/{m.group(1)}'),1):
            if q>int(m.group(2)): break
            z=re.match(r'\s*(?:Lemma|Theorem|Example|Corollary|Definition|Fixpoint)\s+(\S+)',l)
            if z: last=z.group(1)
        fails.append([os.path.basename(m.group(1)),last,''])
    if 'Error 124' in r.stdout: fails.append(['timeout','timeout',''])
    rec={'definition':key[0],'edit':key[1],'claim':', '.join(claims(n)) or 'not observable in a property','failed':fails,'rc':r.returncode}
    open(OUT,'a').write(json.dumps(rec)+'\n'); done.add(key)
    print(k,n,'|',key[1][:150],'|','SURVIVED' if not fails and r.returncode==0 else [x[:2] for x in fails],flush=True)
