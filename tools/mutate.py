#!/usr/bin/env python3
"""Test the theorems against wrong programs.

usage: mutate.py MUTANTS.json [first [last]]

A mutant: {"file": "StateModel.v", "definition": "...", "old": "...", "new": "...", "edit": "...", "claim": "Cxx: ...", "targets": ["PropState", ...]}.
The model is edited in a scratch copy; the files between the edited one and the targets are recompiled.  A proof that fails is cut off with Admitted
(only in the scratch copy) so that the rest can be checked; in the end Print Assumptions tells which theorems Cxx_* rest on a failed proof.
One line per mutant is appended to seeded/LOG.jsonl (or to the file in $MUTLOG)."""
import json,re,subprocess,os,sys,shutil,time
from concurrent.futures import ThreadPoolExecutor
SRC=os.environ.get("MUTSRC","/verif/rocq/theories"); W=os.environ.get("MUTDIR","/tmp/mut"); LOG=os.environ.get("MUTLOG","/verif/seeded/LOG.jsonl"); NW=int(os.environ.get("MUTJ","3")); TO=int(os.environ.get("MUTTO","300"))
files=[l.strip()[9:-2] for l in open(os.path.join(SRC,"..","_CoqProject")) if l.strip().endswith(".v")]
deps={}
for f in files:
    s=open(f"{SRC}/{f}.v").read(); d=set()
    for m in re.finditer(r"From Verif Require (?:Import |Export )?([^.]*)\.",s): d|=set(m.group(1).split())
    deps[f]=d&set(files)
def cone(f):
    r=set(); st=[f]
    while st:
        x=st.pop()
        if x not in r: r.add(x); st+=deps[x]
    return r
def fresh():
    subprocess.run(f"rm -rf {W}; mkdir -p {W}; cp {SRC}/*.v {SRC}/*.vo {W}/",shell=True,check=True)
def run(f):
    try:
        r=subprocess.run(f"ulimit -v 7000000; timeout {TO} coqc -noglob -w none -Q {W} Verif {W}/{f}.v",shell=True,capture_output=True,text=True)
        return r.returncode,r.stdout+r.stderr
    except Exception as e: return 1,str(e)
def cut(f,out):
    """Replace the failing proof; returns the name of the lemma or None."""
    m=list(re.finditer(r'File "[^"]*", line (\d+), characters (\d+)-(\d+):\s*\n(?:Error|.*\n.*Error)',out))
    if not m: m=list(re.finditer(r'File "[^"]*", line (\d+), characters (\d+)-(\d+)',out))
    if not m: return None
    ln,ch=int(m[-1].group(1)),int(m[-1].group(2))
    p=f"{W}/{f}.v"; s=open(p,encoding="utf8").read()
    lines=s.split("\n"); b=len("\n".join(lines[:ln-1]))+(1 if ln>1 else 0)
    # characters are bytes
    off=b+len(lines[ln-1].encode()[:ch].decode(errors="ignore"))
    heads=[h for h in re.finditer(r"^\s*(?:#\[[^\]]*\]\s*)?(?:Theorem|Lemma|Corollary|Example|Fact|Remark|Proposition|Definition|Fixpoint|Let|Goal|Local Lemma|Global Instance|Instance)\s+([\w']+)",s,flags=re.M) if h.start()<=off]
    if not heads: return None
    h=heads[-1]
    pr=re.compile(r"\bProof\b[^.]*\.").search(s,h.end())
    if not pr or pr.start()>off: return None
    end=re.compile(r"\b(Qed|Defined)\.").search(s,pr.end())
    if not end: return None
    pos=off
    head=s[pr.end():pos]
    k=max((x.end() for x in re.finditer(r"\.(?=\s)",head)),default=0)
    body=head[:k]
    new=s[:pr.end()]+body+" Admitted. (*CUT*)"+s[end.end():]
    if "(*CUT*)" in s[pr.end():end.end()]: return None
    open(p,"w",encoding="utf8").write(new)
    return h.group(1)
def process(f):
    failed=[]
    for k in range(25):
        rc,out=run(f)
        if rc==0: return f,True,failed,""
        if rc==124: return f,False,failed,"timeout"
        n=cut(f,out)
        if n is None: return f,False,failed,out[-300:]
        failed.append(f"{f}.{n}")
    return f,False,failed,"too many"
def mutant(mu):
    t0=time.time(); fresh()
    p=f"{W}/{mu['file']}"; s=open(p,encoding="utf8").read()
    c=s.count(mu["old"])
    if c!=1: return {"skip":f"old occurs {c} times"}
    open(p,"w",encoding="utf8").write(s.replace(mu["old"],mu["new"]))
    f0=mu["file"][:-2]; need=set()
    for t in mu["targets"]: need|=cone(t)
    todo=[f for f in files if f in need and (f==f0 or f0 in cone(f))]
    done=set(files)-set(todo); failed=[]; dead={}
    with ThreadPoolExecutor(NW) as ex:
        running={}
        while todo or running:
            for f in list(todo):
                if any(d in dead for d in deps[f]): dead[f]="depends on "+next(d for d in deps[f] if d in dead); todo.remove(f); continue
                if deps[f]<=done and len(running)<NW: running[f]=ex.submit(process,f); todo.remove(f)
            if not running: break
            time.sleep(0.2)
            for f,fu in list(running.items()):
                if fu.done():
                    del running[f]; _,ok,fl,why=fu.result(); failed+=fl
                    if ok: done.add(f)
                    else: dead[f]=why
    broken=[]; held=[]
    for t in mu["targets"]:
        names=[x.group(1) for x in re.finditer(r"^\s*(?:Theorem|Corollary)\s+(C\d+_\w+)",open(f"{W}/{t}.v").read(),flags=re.M)]
        if t in dead: broken+=[n+" (not reached)" for n in names]; continue
        q=f"{W}/zz_{t}.v"
        open(q,"w").write(f"From Verif Require {t}.\n"+"".join('Goal True. idtac "@@%s". exact I. Qed. Print Assumptions %s.%s.\n'%(n,t,n) for n in names))
        o=subprocess.run(f"coqc -noglob -w none -Q {W} Verif {q}",shell=True,capture_output=True,text=True).stdout
        axset={x.split(".")[-1] for x in failed}
        seen=set()
        for b in o.split("@@")[1:]:
            n,rest=b.split("\n",1); seen.add(n)
            ax=set(x.split(".")[-1] for x in re.findall(r"^(\S+)\s*(?::|$)",rest,flags=re.M))
            (broken if ax&axset else held).append(n)
        broken+=[n+" (?)" for n in names if n not in seen]
    return {"theorems_failed":broken,"proofs_failed":failed[:12],"held":held,"not_compiled":{k:v[-160:] for k,v in dead.items()},"seconds":int(time.time()-t0)}
if __name__=="__main__":
    ms=json.load(open(sys.argv[1])); a=int(sys.argv[2]) if len(sys.argv)>2 else 0; z=int(sys.argv[3]) if len(sys.argv)>3 else len(ms)
    for i,mu in enumerate(ms[a:z],a):
        r=mutant(mu)
        print(i,mu["definition"],"|",mu["edit"],"|",mu["claim"],"|",json.dumps({k:v for k,v in r.items() if k!="held"}),flush=True)
        if "skip" in r: continue
        own=[t for t in r["theorems_failed"] if t.split("_")[0]==mu["claim"].split(":")[0]]
        e={"definition":mu["file"]+": "+mu["definition"],"edit":mu["edit"],"claim":mu["claim"],"theorems_failed":r["theorems_failed"],"proofs_failed":r["proofs_failed"],
           "claim_detected":bool(own),"theorems_tightened":mu.get("tightened",[])}
        open(LOG,"a").write(json.dumps(e)+"\n")
        if not own: print("   SURVIVED",mu["claim"],flush=True)
