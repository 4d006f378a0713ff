#!/usr/bin/env python3
"""Generates DESIGN.md from tools/design_head.md, tools/design_plan.json (id -> [modelled, how proved]), tools/notes.json and properties.jsonl."""
import json,os
here=os.path.dirname(os.path.abspath(__file__)); root=os.path.join(here,"..")
P=[json.loads(l) for l in open(os.path.join(root,"properties.jsonl"))]
plan=json.load(open(os.path.join(here,"design_plan.json"))); notes=json.load(open(os.path.join(here,"notes.json")))
def expand(k):
    out=[]
    for part in k.split(","):
        part=part.strip()
        if "-" in part:
            a,b=part.split("-"); out+=["C%02d"%i for i in range(int(a[1:]),int(b[1:])+1)]
        else: out.append(part)
    return out
pl={}
for k,v in plan.items():
    for i in expand(k): pl[i]=v
missing=[p["id"] for p in P if p["id"] not in pl]
if missing: print("no plan for",missing)
head=open(os.path.join(here,"design_head.md")).read()
rows=["| id | property | what is modelled | how it is proved |","|----|----|----|----|"]
for p in P:
    m,h=pl.get(p["id"],["",""]); rows.append("| %s | %s | %s | %s |"%(p["id"],p["title"],m,h))
st=["| id | status | what is proved, what is not and why |","|----|----|----|"]
for p in P:
    s,n=notes.get(p["id"],["",""]); st.append("| %s | %s | %s |"%(p["id"],s,n.replace("|","\\|")))
open(os.path.join(root,"DESIGN.md"),"w").write(head.replace("@PLAN@","\n".join(rows)).replace("@STATUS@","\n".join(st)))
