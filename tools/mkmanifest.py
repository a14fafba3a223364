#!/usr/bin/env python3
"""Regenerate MANIFEST.json: theorem names come from the *Props.v files, statuses and notes from STATUS below."""
import json, os, re, glob
here = os.path.dirname(os.path.abspath(__file__))
root = os.path.join(here, "..")
STATUS = json.load(open(os.path.join(here, "status.json")))
props = [json.loads(l) for l in open(os.path.join(root, "properties.jsonl"))]
thms = {}
for f in sorted(glob.glob(os.path.join(root, "rocq/theories/*Props.v"))):
    for m in re.finditer(r"^Theorem ((C\d\d+)_\w+)", open(f).read(), re.M):
        thms.setdefault(m[2], []).append(m[1])
claims = []
for p in props:
    t = thms.get(p["id"], [])
    st = STATUS.get(p["id"], {})
    if not t and not st:
        continue
    has_partial = any(x.endswith("_partial") or x.endswith("_refuted") for x in t)
    status = st.get("status", "partial" if has_partial else "proved")
    claims.append({"property": p["id"], "status": status, "theorems": t, "note": st.get("note", "")})
json.dump({"claims": claims}, open(os.path.join(root, "MANIFEST.json"), "w"), indent=1)
print(len(claims), "claims;", sum(len(c["theorems"]) for c in claims), "theorems;",
      "missing:", [p["id"] for p in props if p["id"] not in {c["property"] for c in claims}])
