#!/usr/bin/env python3
"""Seeded-bug runner.  usage: mut.py mutants.json
Each mutant: {"file": "MapModel", "def": name, "old": text, "new": text, "edit": english, "claim": "C06 ..."}
Copies /verif/rocq to a scratch directory, applies one edit, rebuilds what depends on it, finds the lemma at
which each file stops compiling, and the Cnn theorems that mention it transitively; appends to seeded/LOG.jsonl."""
import sys,os,re,json,subprocess,shutil,glob,tempfile
V="/verif"
def run(cmd,cwd): return subprocess.run(cmd,shell=True,cwd=cwd,capture_output=True,text=True)
def lemmas(path):
    out=[];s=open(path).read()
    for m in re.finditer(r"^\s*(?:Local |Global )?(?:Lemma|Theorem|Example|Corollary|Fact|Remark|Definition|Fixpoint|Inductive|Record)\s+(\w+)",s,re.M):
        out.append((s.count("\n",0,m.start()+len(m.group(0))-len(m.group(0).lstrip()))+1,m.group(1),m.start()))
    return s,out
def imports(s):
    out=[]
    for m in re.finditer(r"From Verif Require (?:Import|Export)\s+([^.]*)\.",s): out+=m.group(1).split()
    return out
def graph(d):
    """(file,name) -> set of (file,name) it mentions, names resolved like Coq does: own file, then imports (last first)"""
    src={os.path.basename(f)[:-2]:f for f in glob.glob(d+"/theories/*.v")}
    defs={};imp={};bodies={}
    for m,f in src.items():
        s,ls=lemmas(f); imp[m]=imports(s); defs[m]={n for _,n,_ in ls}
        for i,(ln,n,st) in enumerate(ls):
            en=ls[i+1][2] if i+1<len(ls) else len(s)
            bodies[(m,n)]=set(re.findall(r"[A-Za-z_]\w*'*",s[st:en]))-{n}
    g={}
    for (m,n),ws in bodies.items():
        r=set()
        for w in ws:
            if w in defs[m]: r.add((m,w)); continue
            for q in reversed(imp[m]):
                if q in defs and w in defs[q]: r.add((q,w)); break
        g[(m,n)]=r
    return g
def dependents(g,roots):
    dep=set(roots);ch=True
    while ch:
        ch=False
        for n,t in g.items():
            if n not in dep and t&dep: dep.add(n);ch=True
    return sorted(n for _,n in dep if re.match(r"C\d\d",n))
def main():
    muts=json.load(open(sys.argv[1]))
    d=tempfile.mkdtemp(prefix="mut",dir="/tmp"); w=d+"/rocq"
    shutil.copytree(V+"/rocq",w)
    run("coq_makefile -f _CoqProject -o Makefile && make -j2",w)
    g=graph(w)
    for m in muts:
        p=f"{w}/theories/{m['file']}.v"; src=open(p).read()
        if src.count(m["old"])<1: print("NOT FOUND",m["file"],m["old"][:60]); continue
        if src.count(m["old"])>1 and not m.get("first"): print("AMBIGUOUS",m["file"],m["old"][:60]); continue
        open(p,"w").write(src.replace(m["old"],m["new"],1))
        r=run("timeout 1500 make -k -j2",w)
        failed=[]
        for em in re.finditer(r'File "\./theories/(\w+)\.v", line (\d+)',r.stdout+r.stderr):
            _,ls=lemmas(f"{w}/theories/{em.group(1)}.v"); nm="?"
            for ln,n,_ in ls:
                if ln<=int(em.group(2)): nm=n
            if "Warning" in (r.stdout+r.stderr)[em.end():em.end()+60]: continue
            failed.append(em.group(1)+"."+nm)
        thms=dependents(g,{tuple(f.split(".")) for f in failed})
        e=dict(definition=m["file"]+"."+m["def"],edit=m["edit"],breaks=m["claim"],stops_at=failed,
               theorems_failed=thms,tightened=m.get("tightened",[]))
        print(json.dumps(e))
        if not failed: print("*** SURVIVED",m["edit"])
        if not m.get("nolog"):
            open(V+"/seeded/LOG.jsonl","a").write(json.dumps(e)+"\n")
        open(p,"w").write(src)
    shutil.rmtree(d)
def recompute():
    """re-derive theorems_failed from stops_at (after the dependency analysis changed)"""
    g=graph(V+"/rocq"); out=[]
    for l in open(V+"/seeded/LOG.jsonl"):
        e=json.loads(l); e["theorems_failed"]=dependents(g,{tuple(f.split(".")) for f in e["stops_at"]}); out.append(json.dumps(e))
    open(V+"/seeded/LOG.jsonl","w").write("\n".join(out)+"\n")
if __name__=="__main__":
    recompute() if sys.argv[1]=="--recompute" else main()
