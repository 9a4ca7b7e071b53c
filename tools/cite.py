#!/usr/bin/env python3
# Recomputes the line ranges of citations "file.c:NN-MM Func" (or "file.c:? Func")
# in theories/*.v from the sources in /repo.
import re,glob,sys,os
REPO="/repo"
idx={}
def load(base):
    if base in idx: return idx[base]
    c=[p for p in glob.glob(REPO+"/**/"+base,recursive=True)]
    d={}
    for path in c:
        L=open(path,errors="replace").read().split("\n")
        for i,l in enumerate(L):
            m=re.match(r"^[A-Za-z_#].*?\b([A-Za-z_]\w*)\s*\(",l)
            if m and not l.rstrip().endswith(";") and not l.startswith(("typedef","#")):
                # find body
                j=i
                while j<len(L) and not L[j].startswith("{") and not L[j].rstrip().endswith("{"):
                    if L[j].rstrip().endswith(";"): break
                    j+=1
                if j>=len(L) or L[j].rstrip().endswith(";"): continue
                k=j
                while k<len(L) and not L[k].startswith("}"): k+=1
                for n in re.findall(r"\b([A-Za-z_]\w*)\s*\(",l): d.setdefault(n,(i+1,k+1))
    idx[base]=d
    return d
bad=0
for f in sorted(glob.glob("/verif/rocq/theories/*.v")):
    t=open(f).read()
    def sub(m):
        global bad
        base,rng,name=m.group(1),m.group(2),m.group(3)
        d=load(base)
        if name in d: return "%s:%d-%d %s"%(base,d[name][0],d[name][1],name)
        if rng=="?": print("unresolved",f,m.group(0)); bad=1
        return m.group(0)
    t2=re.sub(r"([\w-]+\.[ch]):(\d+-\d+|\?) (\w+)",sub,t)
    if t2!=t: open(f,"w").write(t2); print("updated",f)
sys.exit(bad)
