#!/usr/bin/env python3
"""Rebuild MANIFEST.json from the theorem names in rocq/theories/Props*.v and tools/notes.json."""
import json, re, glob, os
root = os.path.dirname(os.path.dirname(os.path.abspath(__file__)))
notes = json.load(open(os.path.join(root, "tools/notes.json")))
th = {}
for f in sorted(glob.glob(os.path.join(root, "rocq/theories/Props*.v"))):
    for m in re.finditer(r"^(?:Theorem|Corollary) (C\d\d\d?)(_\w+)", open(f).read(), re.M):
        th.setdefault(m.group(1), []).append(m.group(1) + m.group(2))
claims = []
for line in open(os.path.join(root, "properties.jsonl")):
    pid = json.loads(line)["id"]
    names = th.get(pid, [])
    note = notes.get(pid, "")
    if not names:
        continue
    partial = any(n.endswith("_partial") or n.endswith("_refuted") for n in names)
    claims.append({"property": pid, "status": "partial" if partial else "proved",
                   "theorems": names, "note": note})
json.dump({"claims": claims}, open(os.path.join(root, "MANIFEST.json"), "w"), indent=1)
print(len(claims), "claims;", sum(c["status"] == "proved" for c in claims), "proved")
