#!/usr/bin/env python3
# Builds MANIFEST.json: theorems are collected from Props_*.v by their C-number prefix;
# status/notes from the table below.
import json,re,glob,os
R=os.path.join(os.path.dirname(os.path.abspath(__file__)),"..")
ids=[json.loads(l)["id"] for l in open(R+"/properties.jsonl")]
T={}
for f in sorted(glob.glob(R+"/rocq/theories/Props_*.v")):
    for m in re.finditer(r"^Theorem\s+((C\d\d)_\w+)",open(f).read(),re.M):
        T.setdefault(m.group(2),[]).append(m.group(1))
exec(open(R+"/tools/status.py").read())
claims=[]
for i in ids:
    st,note=STATUS.get(i,(None,""))
    if st is None: continue
    claims.append(dict(property=i,status=st,theorems=T.get(i,[]),note=note))
json.dump({"claims":claims},open(R+"/MANIFEST.json","w"),indent=1)
print({i:len(T.get(i,[])) for i in ids}, "missing status:",[i for i in ids if i not in STATUS])
