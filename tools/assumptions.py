#!/usr/bin/env python3
"""Run Print Assumptions for every theorem of MANIFEST.json (the library must be built) and write tools/assumptions.json."""
import json,re,subprocess,os,tempfile
th=[t for x in json.load(open('/verif/MANIFEST.json'))["claims"] for t in x["theorems"]]
mods=[l.strip()[9:-2] for l in open('/verif/rocq/_CoqProject') if l.strip().startswith("theories/Prop")]
loc={}
for m in mods:
    for x in re.finditer(r"^\s*(?:Theorem|Corollary)\s+(C\d+_\w+)",open('/verif/rocq/theories/%s.v'%m).read(),flags=re.M): loc[x.group(1)]=m
d=tempfile.mkdtemp(); f=os.path.join(d,"pa.v")
open(f,"w").write("From Verif Require "+" ".join(mods)+".\n"+"".join(
  'Goal True. idtac "@@%s". exact I. Qed. Print Assumptions %s.%s.\n'%(t,loc[t],t) for t in th))
o=subprocess.run(["coqc","-w","none","-Q","/verif/rocq/theories","Verif",f],capture_output=True,text=True).stdout
r={}
for b in o.split("@@")[1:]:
    n,rest=b.split("\n",1)
    r[n]=[] if "Closed under" in rest else sorted(set(re.findall(r"^(\S+)\s*(?::|$)",rest,flags=re.M))-{"Axioms:"})
json.dump(r,open('/verif/tools/assumptions.json','w'),indent=0)
print(len(th),len(r),sorted({x for a in r.values() for x in a}))
