#!/usr/bin/env python3
# Builds ../MANIFEST.json: theorems named Cnn_* in Props*.v are grouped by property;
# statuses and notes come from the table below.
import re,glob,json,os
R=os.path.dirname(os.path.abspath(__file__))+"/.."
th={}
for f in sorted(glob.glob(R+"/rocq/theories/Props*.v")):
    for m in re.finditer(r"^ *Theorem (C(\d+)_\w+)",open(f).read(),re.M):
        th.setdefault("C"+m.group(2),[]).append(m.group(1))
notes=json.load(open(R+"/tools/notes.json"))
claims=[]
for l in open(R+"/properties.jsonl"):
    p=json.loads(l); i=p["id"]
    if i not in th: continue
    st,note=notes.get(i,["proved",""])
    claims.append(dict(property=i,status=st,theorems=th[i],note=note))
json.dump({"claims":claims},open(R+"/MANIFEST.json","w"),indent=1)
print(len(claims),"claims",sum(len(c["theorems"]) for c in claims),"theorems")
