#!/usr/bin/env python3
"""Build /verif/MANIFEST.json: theorems are collected from P_*.v by their property prefix."""
import json, re, glob, os
root = os.path.dirname(os.path.dirname(os.path.abspath(__file__)))
props = [json.loads(l)["id"] for l in open(root + "/properties.jsonl") if l.strip()]
notes = json.load(open(root + "/tools/notes.json"))
thms = {}
for f in sorted(glob.glob(root + "/rocq/theories/P_*.v")):
    for m in re.finditer(r"^Theorem\s+((C\d\d)\w*)", open(f).read(), re.M):
        thms.setdefault(m.group(2), []).append(m.group(1))
claims = []
for p in props:
    n = notes.get(p, {})
    t = thms.get(p, [])
    if n.get("status") == "not_applicable":
        st = "not_applicable"
    elif t and n.get("status") == "proved":
        st = "proved"
    elif t:
        st = "partial"
    else:
        continue
    claims.append({"property": p, "status": st, "theorems": t, "note": n.get("note", "")})
json.dump({"claims": claims}, open(root + "/MANIFEST.json", "w"), indent=1)
missing = [p for p in props if p not in thms]
print("without theorem:", " ".join(missing))
