# builds MANIFEST.json from theorem names Cxx_... in Prop*.v, with notes
import re,json,glob,os
notes=json.load(open('/verif/tools/notes.json')) if os.path.exists('/verif/tools/notes.json') else {}
th={}
for f in sorted(glob.glob('/verif/rocq/theories/Prop*.v')):
    for m in re.finditer(r'^(?:Theorem|Corollary) (C\d\d)(\w*)',open(f).read(),re.M):
        th.setdefault(m.group(1),[]).append(m.group(1)+m.group(2))
claims=[]
for l in open('/verif/properties.jsonl'):
    d=json.loads(l); i=d['id']
    t=th.get(i,[])
    if not t: st='partial' 
    elif any(x.endswith('_refuted') or x.endswith('_partial') for x in t): st='partial'
    else: st='proved'
    n=notes.get(i,'')
    if not t and not n: n='not yet proved'
    if isinstance(n,dict): st=n['status']; n=n['note']
    claims.append({"property":i,"status":st,"theorems":t,"note":n})
json.dump({"claims":claims},open('/verif/MANIFEST.json','w'),indent=1)
print({c['property']:c['status'][:4]+str(len(c['theorems'])) for c in claims})
