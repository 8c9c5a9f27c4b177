#!/usr/bin/env python3
"""Appends results of mutate.py to seeded/LOG.jsonl.

usage: log_mutations.py out.jsonl [tightened.json]
tightened.json: {"edit text": ["theorems added or strengthened because of it"]}"""
import json, os, sys
root = os.path.dirname(os.path.dirname(os.path.abspath(__file__)))
logp = os.path.join(root, "seeded", "LOG.jsonl")
tight = json.load(open(sys.argv[2])) if len(sys.argv) > 2 else {}
recs = [json.loads(l) for l in open(logp)] if os.path.exists(logp) else []
seen = {(r["definition"], r["edit"]) for r in recs}
for l in open(sys.argv[1]):
    d = json.loads(l)
    name, edit = "%s.%s" % (d["file"][:-2], d["definition"]), d["edit"]
    if (name, edit) in seen:
        continue
    recs.append({"definition": name, "edit": edit, "claim": d["breaks"], "failed": d["failed"],
                 "broken_lemmas": d["broken"], "tightened": tight.get(edit, [])})
for r in recs:
    r["tightened"] = r["tightened"] or tight.get(r["edit"], [])
with open(logp, "w") as f:
    for r in recs:
        f.write(json.dumps(r) + "\n")
print(len(recs), "entries")
