#!/usr/bin/env python3
"""Write MANIFEST.json: theorem names are collected from rocq/theories/Props*.v by prefix,
status and notes come from tools/manifest_notes.json."""
import json,glob,os,re
root=os.path.join(os.path.dirname(os.path.abspath(__file__)),'..')
notes=json.load(open(os.path.join(root,'tools','manifest_notes.json')))
ths={}
for f in sorted(glob.glob(os.path.join(root,'rocq/theories/Props*.v'))):
    for m in re.finditer(r'^Theorem\s+(C\d\d)(\w*)',open(f).read(),re.M):
        ths.setdefault(m.group(1),[]).append(m.group(1)+m.group(2))
claims=[]
for l in open(os.path.join(root,'properties.jsonl')):
    i=json.loads(l)['id']
    if i in notes:
        st,nt=notes[i]
        if st!='not_applicable': assert ths.get(i),i
        claims.append({"property":i,"status":st,"theorems":ths.get(i,[]),"note":nt})
    elif i in ths: print('no note for',i)
    else: print('missing',i)
json.dump({"claims":claims},open(os.path.join(root,'MANIFEST.json'),'w'),indent=1)
