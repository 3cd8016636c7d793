#!/usr/bin/env python3
"""usage: logmut.py muts.json results.out  -- append one line per mutant to seeded/LOG.jsonl"""
import json, sys
ms = {m["id"]: m for m in json.load(open(sys.argv[1]))}
have = set()
try:
    for l in open("/verif/seeded/LOG.jsonl"):
        if l.strip(): have.add(json.loads(l)["id"])
except FileNotFoundError: pass
with open("/verif/seeded/LOG.jsonl", "a") as o:
    for l in open(sys.argv[2]):
        if not l.startswith("{"): continue
        r = json.loads(l); m = ms[r["id"]]
        if r["id"] in have: continue
        o.write(json.dumps({"id": r["id"], "definition": m["definition"], "file": m["file"],
            "edit": m["old"] + "  ==>  " + m["new"], "claim": m["claim"],
            "theorems_failed": r["property_theorems_failed"], "lemmas_failed": r["failed_lemmas"],
            "theorems_tightened": m.get("tightened", []), **({"comment": m["comment"]} if "comment" in m else {})}) + "\n")
