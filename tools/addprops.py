#!/usr/bin/env python3
"""Appends properties (JSON lines) and notes read from stdin: each line {"prop": {...}} or {"note": [id, text]}."""
import json, sys, os
root = os.path.dirname(os.path.dirname(os.path.abspath(__file__)))
np = os.path.join(root, "tools", "notes.json")
notes = json.load(open(np))
pp = os.path.join(root, "properties.jsonl")
props = [json.loads(l) for l in open(pp)]
ids = {p["id"]: i for i, p in enumerate(props)}
for l in sys.stdin:
    l = l.strip()
    if not l: continue
    o = json.loads(l)
    if "prop" in o:
        p = o["prop"]
        if p["id"] in ids: props[ids[p["id"]]] = p
        else: ids[p["id"]] = len(props); props.append(p)
    if "note" in o: notes[o["note"][0]] = o["note"][1]
open(pp, "w").write("".join(json.dumps(p) + "\n" for p in props))
json.dump(notes, open(np, "w"), indent=0)
