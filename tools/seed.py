#!/usr/bin/env python3
"""Mutation runner.  usage: seed.py mutations.json   (list of {file, old, new, definition, edit, claim})
Works on a scratch copy in /tmp/seed; appends one JSON line per mutation to seeded/LOG.jsonl."""
import json,sys,subprocess,shutil,os,re,datetime
root=os.path.abspath(os.path.join(os.path.dirname(os.path.abspath(__file__)),".."))
scratch="/tmp/seed/rocq"
def sh(c,**k): return subprocess.run(c,shell=True,capture_output=True,text=True,**k)
os.makedirs("/tmp/seed",exist_ok=True)
sh(f"mkdir -p {scratch} && rsync -a --delete --exclude=Makefile --exclude=Makefile.conf {root}/rocq/ {scratch}/ || (rm -rf {scratch} && cp -a {root}/rocq {scratch})")
r=sh(f"cd {scratch} && coq_makefile -f _CoqProject -o Makefile && make -j4")
if r.returncode: print("BASE BUILD FAILS",r.stderr[-2000:]); sys.exit(1)
base="/tmp/seed/base"
sh(f"rm -rf {base} && cp -a {scratch} {base}")
def enclosing(path,line):
    name=None
    for i,l in enumerate(open(path).read().split("\n"),1):
        if i>line: break
        m=re.match(r"\s*(Theorem|Lemma|Example|Definition|Fixpoint|Corollary|Fact)\s+(\w+)",l)
        if m: name=m.group(2)
    return name
survivors=0
for m in json.load(open(sys.argv[1])):
    p=f"{scratch}/theories/{m['file']}.v"
    s=open(p).read()
    if s.count(m["old"])!=1:
        print("!! pattern count",s.count(m["old"]),m["definition"],m["edit"]); continue
    open(p,"w").write(s.replace(m["old"],m["new"]))
    r=sh(f"cd {scratch} && make -k -j4 TIMED=",timeout=3000)
    fails=[]
    for f,l in re.findall(r'File "\./theories/(\w+)\.v", line (\d+)[^\n]*\n(?=Error|[^\n]*\nError)',r.stderr): 
        fails.append((f,enclosing(f"{scratch}/theories/{f}.v",int(l))))
    # property files that no longer build
    vos={f[:-3] for f in os.listdir(f"{scratch}/theories") if f.endswith(".vo")}
    stale=[]
    q=sh(f"cd {scratch} && make -k -n 2>/dev/null | grep -o 'theories/Props_[A-Za-z_0-9]*' | sort -u").stdout.split()
    rec=dict(definition=m["definition"],edit=m["edit"],claim=m["claim"],
             failed=[f"{f}.{n}" for f,n in fails],props_not_rebuilt=[x.split('/')[1] for x in q],
             result="caught" if fails else "SURVIVED",tightened=m.get("tightened",[]))
    print(rec["result"],m["definition"],"|",m["edit"],"->",rec["failed"])
    if not fails: survivors+=1
    if "--nolog" not in sys.argv:
        open(root+"/seeded/LOG.jsonl","a").write(json.dumps(rec)+"\n")
    sh(f"rm -rf {scratch} && cp -a {base} {scratch}")
print("survivors:",survivors)
