import json
props=[json.loads(l) for l in open('/verif/properties.jsonl')]
m={c['property']:c for c in json.load(open('/verif/MANIFEST.json'))['claims']}
head=open('/verif/tools/design_head.md').read()
tail=open('/verif/tools/design_tail.md').read()
rows=[]
import re,glob
where={}
for f in glob.glob('/verif/rocq/theories/P_*.v'):
    for t in re.findall(r'^Theorem (C\d\d\w*)',open(f).read(),re.M): where[t]=f.split('/')[-1]
for p in props:
    c=m.get(p['id']); 
    fs=sorted({where.get(t,'') for t in c['theorems']}-{''}) if c else []
    rows.append('| %s | %s | %s | %d, %s | %s |'%(p['id'],p['title'],c['status'] if c else '-',len(c['theorems']) if c else 0,', '.join('`%s`'%x for x in fs),(c.get('note','') if c else '').replace('|','\\|')))
tab='| id | property | status | theorems | what is and is not proved |\n|---|---|---|---|---|\n'+'\n'.join(rows)+'\n'
open('/verif/DESIGN.md','w').write(head+'\n'+tab+'\n'+tail)
