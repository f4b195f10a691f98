#!/usr/bin/env python3
"""Writes /verif/MANIFEST.json; theorem names are collected from the Prop*.v files."""
import json, os, re, glob
root = os.path.join(os.path.dirname(os.path.abspath(__file__)), "..")
thms = {}
for f in sorted(glob.glob(os.path.join(root, "rocq/theories/*.v"))):
    for m in re.finditer(r"^(?:Theorem|Corollary) (C\d\d)_(\w+)", open(f).read(), re.M):
        thms.setdefault(m.group(1), []).append(f"{m.group(1)}_{m.group(2)}")
notes = json.load(open(os.path.join(root, "tools/notes.json")))
props = [json.loads(l)["id"] for l in open(os.path.join(root, "properties.jsonl"))]
claims = []
for p in props:
    t = thms.get(p, [])
    n = notes.get(p, {})
    status = n.get("status", "proved" if t else "partial")
    claims.append(dict(property=p, status=status, theorems=t, note=n.get("note", "")))
json.dump(dict(claims=claims), open(os.path.join(root, "MANIFEST.json"), "w"), indent=1)
for c in claims: print(c["property"], c["status"], len(c["theorems"]))
