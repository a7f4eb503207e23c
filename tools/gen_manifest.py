# generates MANIFEST.json from the theorem names in rocq/theories/Props_*.v
# run: python3 tools/gen_manifest.py
import json,re,glob,os
root=os.path.join(os.path.dirname(__file__),'..')
thms={}
for f in sorted(glob.glob(root+'/rocq/theories/Props_*.v')):
    for m in re.finditer(r'^[ \t]*(?:Theorem|Corollary)\s+((?:C\d{2,3}_)+\S+)',open(f).read(),re.M):
        nm=m.group(1).rstrip(':')
        for c in re.findall(r'C\d{2,3}(?=_)',nm):
            thms.setdefault(c,[]).append(nm)
notes=json.load(open(root+'/tools/manifest_notes.json'))
ids=[json.loads(l)['id'] for l in open(root+'/properties.jsonl')]
claims=[]
for i in ids:
    t=thms.get(i,[])
    n=notes.get(i,{})
    if not t and not n: continue
    st=n.get('status') or ('partial' if any('_partial' in x or '_refuted' in x for x in t) else 'proved')
    claims.append(dict(property=i,status=st,theorems=t,note=n.get('note','')))
json.dump(dict(claims=claims),open(root+'/MANIFEST.json','w'),indent=1)
print(len(claims),'claims; missing:',[i for i in ids if i not in [c['property'] for c in claims]])
