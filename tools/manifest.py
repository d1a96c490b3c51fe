#!/usr/bin/env python3
"""Regenerate MANIFEST.json from the theorem names and tools/notes.json.

Theorems are named CXX_..., where CXX is the property they belong to."""
import json, re, glob, os
root = os.path.dirname(os.path.dirname(os.path.abspath(__file__)))
props = [json.loads(l) for l in open(os.path.join(root, "properties.jsonl")) if l.strip()]
notes = json.load(open(os.path.join(root, "tools", "notes.json")))
thms = {}
for f in sorted(glob.glob(os.path.join(root, "rocq/theories/*_Thms.v"))):
    for m in re.finditer(r"^Theorem\s+((C\d\d+)_\w+)", open(f).read(), re.M):
        thms.setdefault(m.group(2), []).append(m.group(1))
claims = []
for p in props:
    i = p["id"]
    n = notes.get(i, {})
    n = {"note": n} if isinstance(n, str) else n
    ts = thms.get(i, [])
    status = n.get("status")
    if status is None:
        status = "partial"
        if ts and not any(t.endswith(("_partial", "_refuted")) for t in ts):
            status = "proved"
    claims.append({"property": i, "status": status, "theorems": ts,
                   "note": n.get("note", "" if ts else "not proved yet")})
json.dump({"claims": claims}, open(os.path.join(root, "MANIFEST.json"), "w"), indent=1)
print({c["property"]: (c["status"], len(c["theorems"])) for c in claims})
