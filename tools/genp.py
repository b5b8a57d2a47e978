#!/usr/bin/env python3
"""genp.py P_X.tmpl L files...: expand '@thm NAME = lemma' lines with the lemma's statement."""
import re,sys
def lemmas(files):
    d={}
    for f in files:
        s=open(f).read()
        for m in re.finditer(r'^(?:Lemma|Theorem|Corollary)\s+(\S+?)\s*:\s*(.*?)\.\s*\nProof',s,re.S|re.M):
            d[m.group(1)]=m.group(2)
        for m in re.finditer(r'^(?:Lemma|Theorem|Corollary)\s+(\S+?)\s*:\s*(.*?)\.\s+Proof',s,re.S|re.M):
            d.setdefault(m.group(1),m.group(2))
    return d
def pre(x): return (x.strip()+' ') if x else ''
def sub(s): return re.sub(r'\bregulariser\b','regulariser jk',re.sub(r'\bRF\b','(ROps jk)',s))
tm=sys.argv[1]; out=sys.argv[2]; d=lemmas(sys.argv[3:])
o=[]
for line in open(tm):
    m=re.match(r'@thm[nr]? (\S+) = (\S+)(?: \| ([^|]*))?(?: \| (.*))?\s*$',line)
    if m:
        if m.group(2) not in d: print("missing",m.group(2)); sys.exit(1)
        st=sub(d[m.group(2)])
        for r in (m.group(4) or '').split(';'):
            if '=' in r:
                a,b=r.split('=',1); st=re.sub(r'\b'+a.strip()+r'\b(?! F\b)',b.strip(),st)
        if line.startswith('@thmn'): st='('+st+')%nat'
        if line.startswith('@thmr'): st='('+st+')%R'
        o.append(f"Theorem {m.group(1)} : {pre(m.group(3))}{st}.\nProof. exact {m.group(2)}. Qed.\nPrint Assumptions {m.group(1)}.\n\n")
    else: o.append(line)
open(out,'w').write(''.join(o))
