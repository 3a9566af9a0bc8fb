import json,sys,re,glob
P='/verif/MANIFEST.json'
# auto: collect theorem names from Prop_*.v
thms={}
for f in sorted(glob.glob('/verif/rocq/theories/Prop_*.v')):
    for m in re.finditer(r'^Theorem\s+((C\d\d)_\w+)',open(f).read(),re.M):
        thms.setdefault(m.group(2),[]).append(m.group(1))
notes=json.load(open('/verif/notes.json')) if glob.glob('/verif/notes.json') else {}
claims=[]
for l in open('/verif/properties.jsonl'):
    i=json.loads(l)['id']
    t=thms.get(i,[])
    if not t:
        st='partial'
        n=notes.get(i,'not yet modelled')
        claims.append({"property":i,"status":notes.get(i+':status','partial'),"theorems":[],"note":n}); continue
    weak=any(x.endswith('_partial') or x.endswith('_refuted') for x in t)
    st=notes.get(i+':status', 'partial' if weak else 'proved')
    claims.append({"property":i,"status":st,"theorems":t,"note":notes.get(i,'')})
json.dump({"claims":claims},open(P,'w'),indent=1)
print(sum(c['status']=='proved' for c in claims),sum(1 for c in claims if c['theorems']),len(claims))
