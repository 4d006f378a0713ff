#!/usr/bin/env python3
# Collects theorem names cNN_* from Props_*.v and writes MANIFEST.json. Status/notes are in NOTES below.
import json,re,glob,os
root=os.path.join(os.path.dirname(os.path.abspath(__file__)),"..")
notes=json.load(open(os.path.join(root,"tools/notes.json")))
thms={}
for f in sorted(glob.glob(root+"/rocq/theories/Props_*.v")):
    for m in re.finditer(r"^Theorem\s+(c(\d{2,3})_\w+)",open(f).read(),re.M):
        thms.setdefault("C"+m.group(2),[]).append(m.group(1))
claims=[]
for line in open(root+"/properties.jsonl"):
    i=json.loads(line)["id"]
    n=notes.get(i)
    t=thms.get(i,[])
    if n is None:
        if t: print("no note for",i)
        continue
    claims.append(dict(property=i,status=n[0],theorems=t,note=n[1]))
for i in thms:
    if i not in notes: print("missing note",i)
json.dump({"claims":claims},open(root+"/MANIFEST.json","w"),indent=1)
print(len(claims),"claims")
