#!/usr/bin/env python3
"""Builds MANIFEST.json: theorems are collected by the id prefix of their names in theories/Props (C07_..., ),
status from tools/status.py."""
import json, re, glob, os
here = os.path.dirname(os.path.abspath(__file__))
ns = {}
exec(open(os.path.join(here, "status.py")).read(), ns)
ST = ns["STATUS"]
th = {}
for f in sorted(glob.glob("/verif/rocq/theories/Props/*.v")):
    src = re.sub(r"\(\*.*?\*\)", "", open(f).read(), flags=re.S)
    for m in re.finditer(r"^\s*Theorem\s+((C\d+)_\w+)", src, re.M):
        th.setdefault(m.group(2), []).append(m.group(1))
claims = []
for l in open("/verif/properties.jsonl"):
    p = json.loads(l)
    i = p["id"]
    st, note = ST.get(i, (None, ""))
    if st is None:
        if i in th: print("no status for", i)
        continue
    claims.append({"property": i, "status": st, "theorems": th.get(i, []), "note": note})
json.dump({"claims": claims}, open("/verif/MANIFEST.json", "w"), indent=1)
print(len(claims), "claims;", sum(len(c["theorems"]) for c in claims), "theorems")
