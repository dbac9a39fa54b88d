#!/usr/bin/env python3
"""Write DESIGN.md: tools/design_head.md, then per property the plan, the theorems and the axioms they use (tools/assumptions.json
holds the output of Print Assumptions, see tools/assumptions.py)."""
import json,re
head=open("/verif/tools/design_head.md").read()
plan={}
for l in open("/verif/tools/design_plan.md"):
    m=re.match(r"- \*\*(C\d+)\*\* .*? — (.*)",l)
    if m: plan[m.group(1)]=m.group(2)
ass=json.load(open("/verif/tools/assumptions.json"))
props=[json.loads(l) for l in open("/verif/properties.jsonl")]
man={c["property"]:c for c in json.load(open("/verif/MANIFEST.json"))["claims"]}
codes={"ClassicalDedekindReals.sig_forall_dec":"R1","ClassicalDedekindReals.sig_not_dec":"R2",
 "FunctionalExtensionality.functional_extensionality_dep":"FE","Classical_Prop.classic":"CL"}
where={}
for l in open("/verif/rocq/_CoqProject"):
    l=l.strip()
    if l.endswith(".v"):
        for m in re.finditer(r"^\s*(?:Theorem|Corollary)\s+(C\d+_\w+)",open("/verif/rocq/"+l).read(),flags=re.M): where[m.group(1)]=l[9:]
out=[head,"\n## Properties\n\nFor each property: how it is modelled and proved, and the theorems with the axioms that `Print Assumptions` lists for them "
 "(none: closed under the global context; R1, R2, FE, CL: see the trusted base).\n"]
for p in props:
    i=p["id"]; c=man[i]
    out.append("- **%s** %s (%s). %s"%(i,p["title"],c["status"],plan.get(i,"")))
    ts=[]
    for t in c["theorems"]:
        if t not in ass: print("no assumptions recorded for",t)
        a=ass.get(t,["?"])
        ts.append("`%s` [%s]"%(t,", ".join(codes.get(x,x) for x in a) if a else "none"))
    fs=sorted(set(where[t] for t in c["theorems"]))
    out.append("  Theorems (%s): %s."%(", ".join(fs),"; ".join(ts)))
open("/verif/DESIGN.md","w").write("\n".join(out)+"\n")
