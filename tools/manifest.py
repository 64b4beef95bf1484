#!/usr/bin/env python3
"""Regenerates MANIFEST.json and checks that each named theorem exists."""
import json,re,glob,os
root=os.path.dirname(os.path.dirname(os.path.abspath(__file__)))
claims=[]
def c(p,st,th,note): claims.append(dict(property=p,status=st,theorems=th.split(),note=note))
exec(open(os.path.join(root,"tools/claims.py")).read())
names=set()
for f in glob.glob(root+"/rocq/theories/*.v"):
    names|=set(re.findall(r"^\s*(?:Theorem|Lemma)\s+(\w+)",open(f).read(),re.M))
for x in claims:
    for t in x["theorems"]:
        if t not in names: print("MISSING",x["property"],t)
props=[json.loads(l)["id"] for l in open(root+"/properties.jsonl")]
have={x["property"] for x in claims}
print("unclaimed:",[p for p in props if p not in have], "unknown:",[p for p in have if p not in props])
json.dump({"claims":claims},open(root+"/MANIFEST.json","w"),indent=1)
