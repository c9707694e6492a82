"""Fills sections 6 and 7 of DESIGN.md from tools/findings.txt and Props/*.v."""
import re,os,json
root=os.path.dirname(os.path.dirname(os.path.abspath(__file__)))
s=open(root+'/DESIGN.md').read()
f=[l.strip().split(' | ',1) for l in open(root+'/tools/findings.txt') if l.strip()]
find='\n| property | finding |\n|---|---|\n'+''.join('| %s | %s |\n'%(a,b) for a,b in f)+'\n'
th={}
for n in sorted(os.listdir(root+'/rocq/theories/Props')):
    if not n.endswith('.v'): continue
    t=open(root+'/rocq/theories/Props/'+n).read()
    for m in re.finditer(r'^Print Assumptions (\S+)\.',t,re.M):
        th.setdefault(m.group(1).split('_')[0],[]).append((m.group(1),n))
man={c['property']:c for c in json.load(open(root+'/MANIFEST.json'))['claims']}
rows='\n| property | status | theorems | file |\n|---|---|---|---|\n'
for p in sorted(th):
    rows+='| %s | %s | %s | %s |\n'%(p,man.get(p,{}).get('status','-'),', '.join('`%s`'%x for x,_ in th[p]),', '.join(sorted({y for _,y in th[p]})))
s=re.sub(r'<!-- findings -->.*?(?=\n## 7)',lambda m:'<!-- findings -->\n'+find,s,flags=re.S)
s=re.sub(r'<!-- theorems -->.*',lambda m:'<!-- theorems -->\n'+rows,s,flags=re.S)
open(root+'/DESIGN.md','w').write(s)
