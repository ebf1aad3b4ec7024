import json
m={c['property']:c for c in json.load(open('/verif/MANIFEST.json'))['claims']}
head=open('/tmp/w/design_head.md').read()
plan=json.load(open('/tmp/w/design_plan.json'))
rows=[]
for l in open('/verif/properties.jsonl'):
    d=json.loads(l); i=d['id']
    c=m[i]
    rows.append(f"| {i} | {d['title']} | {plan.get(i,'')} | {c['status']} |")
tab="| id | property | what is modelled, how it is proved | status |\n|----|----|----|----|\n"+'\n'.join(rows)
open('/verif/DESIGN.md','w').write(head.replace('@@TABLE@@',tab))
