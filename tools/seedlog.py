#!/usr/bin/env python3
"""Append the results of mutate.py that are not yet there to seeded/LOG.jsonl.
Usage: seedlog.py <results directory> [remarks.json]
An edit without a claim breaks the properties whose theorems fail; their titles are the claim.
remarks.json: {id: {"claim": ..., "tightened": [...], "skip": true}} for edits that no theorem noticed, or that were run badly."""
import json, glob, os, sys
LOG = "/verif/seeded/LOG.jsonl"
titles = {p["id"]: p["title"] for p in map(json.loads, open("/verif/properties.jsonl"))}
specs = {m["id"]: m for f in glob.glob(os.path.join(sys.argv[1], "*.json")) for m in [json.load(open(f))] if isinstance(m, list) for m in m if "id" in m}
remarks = json.load(open(sys.argv[2])) if len(sys.argv) > 2 else {}
seen = {json.loads(l)["id"] for l in open(LOG)} if os.path.exists(LOG) else set()
out = open(LOG, "a")
n = 0
for f in sorted(glob.glob(os.path.join(sys.argv[1], "*.json"))):
    d = json.load(open(f))
    if not isinstance(d, dict) or "theorems_failed" not in d or "claim" not in d: continue
    i = d.get("id", os.path.basename(f)[:-5])
    r = remarks.get(i, {})
    if i in seen or r.get("skip"): continue
    if not d["theorems_failed"] and not r:
        print("no theorem failed and no remark:", i)
        continue
    broken = sorted({t[:3] for t in d["theorems_failed"]})
    claim = r.get("claim") or d["claim"] or "; ".join("%s: %s" % (b, titles.get(b, "")) for b in broken)
    out.write(json.dumps({"id": i, "definition": d["file"] + "." + d["definition"], "edit": d["edit"], "old": specs.get(i, {}).get("old"), "new": specs.get(i, {}).get("new"),
        "claim": claim, "theorems_failed": d["theorems_failed"], "examples_and_lemmas_failed": d["failed_proofs"],
        "theorems_tightened": r.get("tightened", d.get("tightened", []))}, ensure_ascii=False) + "\n")
    n += 1
print(n, "logged")
