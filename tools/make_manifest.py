#!/usr/bin/env python3
"""Regenerates MANIFEST.json from the theorem names in rocq/theories/Properties*.v."""
import glob, json, os, re
root = os.path.dirname(os.path.dirname(os.path.abspath(__file__)))
notes = json.load(open(os.path.join(root, "tools", "notes.json")))
props = [json.loads(l)["id"] for l in open(os.path.join(root, "properties.jsonl"))]
thms = {}
for f in sorted(glob.glob(os.path.join(root, "rocq", "theories", "Properties*.v"))):
    for name in re.findall(r"^Theorem (C\d\d+_\w+)", open(f).read(), re.M):
        thms.setdefault(name.split("_")[0], []).append(name)
claims = []
for p in props:
    ts = thms.get(p, [])
    if not ts:
        continue
    partial = any(t.endswith("_partial") or t.endswith("_refuted") for t in ts)
    claims.append({"property": p, "status": "partial" if partial else "proved",
                   "theorems": ts, "note": notes.get(p, "")})
json.dump({"claims": claims}, open(os.path.join(root, "MANIFEST.json"), "w"), indent=1)
print(len(claims), "claims;", [p for p in props if p not in thms], "missing")
