#!/usr/bin/env python3
# Regenerates rocq/_CoqProject from theories/*.v and MANIFEST.json from the theorem names
# Cxx_... in theories/Prop_*.v and the status/notes in tools/status.json.
import json,os,re
root='/verif/rocq/theories'
fs=sorted(f for f in os.listdir(root) if f.endswith('.v'))
open('/verif/rocq/_CoqProject','w').write('-Q theories Verif\n'+''.join('theories/%s\n'%f for f in fs))
st=json.load(open('/verif/tools/status.json'))
thms={}
for f in fs:
    if f.startswith('Prop_'):
        s=open(root+'/'+f).read()
        for x in re.finditer(r'^Theorem\s+(\w+)',s,re.M):
            n=x.group(1); c=n[:3]
            thms.setdefault(c,[]).append(n)
            if not re.search(r'Print Assumptions %s\.'%n,s): print('no Print Assumptions',f,n)
ids=[json.loads(l)['id'] for l in open('/verif/properties.jsonl')]
claims=[]
for i in ids:
    if i in st:
        claims.append({'property':i,'status':st[i][0],'theorems':thms.get(i,[]),'note':st[i][1]})
        if i not in thms and st[i][0]!='not_applicable': print('claim without theorem',i)
    elif i in thms: print('no status for',i,thms[i])
json.dump({'claims':claims},open('/verif/MANIFEST.json','w'),indent=1)
print('no claim for',[i for i in ids if i not in st])
print('theorems',sum(map(len,thms.values())))
