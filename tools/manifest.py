import json,re,glob
C={}
def m(pid,status,theorems,note): C[pid]=dict(property=pid,status=status,theorems=theorems,note=note)
exec(open('/verif/tools/claims.py').read())
allth=set()
for f in glob.glob('/verif/rocq/theories/Prop_*.v'):
    allth|=set(re.findall(r'^Theorem\s+(\w+)',open(f).read(),re.M))
used=set(t for c in C.values() for t in c['theorems'])
for t in used-allth: print("MISSING THEOREM",t)
for t in allth-used: print("UNCLAIMED THEOREM",t)
props=[json.loads(l)['id'] for l in open('/verif/properties.jsonl')]
for p in props:
    if p not in C:
        m(p,"partial",[],"not yet proved")
        print("todo",p)
json.dump({"claims":[C[p] for p in props]},open('/verif/MANIFEST.json','w'),indent=1)
