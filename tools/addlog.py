#!/usr/bin/env python3
"""Append results of tools/mutate.py batches (JSON lines) to seeded/LOG.jsonl,
once each.

usage: addlog.py RESULTS.jsonl"""
import json, os, sys
log = os.path.join(os.path.dirname(__file__), "..", "seeded", "LOG.jsonl")
os.makedirs(os.path.dirname(log), exist_ok=True)
seen = set()
if os.path.exists(log):
    for l in open(log):
        if l.strip():
            r = json.loads(l); seen.add((r["definition"], r["edit"]))
with open(log, "a") as f:
    for l in open(sys.argv[1]):
        r = json.loads(l)
        if (r["definition"], r["edit"]) in seen: continue
        keep = {k: r[k] for k in ("definition", "edit", "claim", "theorems_failed", "theorems_tightened")}
        keep["proofs_failed"] = r.get("lemmas_failed", [])
        if r.get("note"): keep["note"] = r["note"]
        f.write(json.dumps(keep) + "\n")
