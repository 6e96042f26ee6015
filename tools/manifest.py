import json,re,sys,glob
# build MANIFEST from a table
props=[json.loads(l) for l in open('/verif/properties.jsonl')]
notes=json.load(open('/verif/tools/notes.json')) if glob.glob('/verif/tools/notes.json') else {}
thms={}
for f in sorted(glob.glob('/verif/rocq/theories/*.v')):
    for m in re.finditer(r'^ *(?:Theorem|Lemma|Corollary)\s+(C\d\d_\w+)',open(f).read(),re.M):
        thms.setdefault(m.group(1)[:3],[]).append(m.group(1))
claims=[]
for p in props:
    i=p['id']; n=notes.get(i,{})
    t=thms.get(i,[])
    if not t and n.get('status')!='not_applicable': 
        continue
    st=n.get('status') or ('partial' if any(x.endswith('_partial') for x in t) else 'proved')
    claims.append({'property':i,'status':st,'theorems':t,'note':n.get('note','')})
json.dump({'claims':claims},open('/verif/MANIFEST.json','w'),indent=1)
print(len(claims),'claims',sum(len(c['theorems']) for c in claims))
