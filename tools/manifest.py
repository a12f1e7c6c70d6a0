#!/usr/bin/env python3
"""Rebuild MANIFEST.json from the theorem names in rocq/theories/Props and tools/notes.json.

A property is "proved" when notes.json says so, otherwise "partial" when it has a theorem."""
import json, os, re, glob
root = os.path.join(os.path.dirname(__file__), "..")
notes = json.load(open(os.path.join(root, "tools", "notes.json")))
thms = {}
for f in sorted(glob.glob(os.path.join(root, "rocq/theories/Props/*.v"))):
    for m in re.finditer(r"^Theorem\s+((C\d+)_\w+)", open(f).read(), re.M):
        thms.setdefault(m.group(2), []).append(m.group(1))
claims = []
for line in open(os.path.join(root, "properties.jsonl")):
    p = json.loads(line)["id"]
    n = notes.get(p, {})
    t = thms.get(p, [])
    st = n.get("status", "partial" if t else None)
    if st is None:
        continue
    claims.append({"property": p, "status": st, "theorems": t, "note": n.get("note", "")})
json.dump({"claims": claims}, open(os.path.join(root, "MANIFEST.json"), "w"), indent=1)
print(len(claims), "claims;", sum(len(c["theorems"]) for c in claims), "theorems;",
      [c["property"] for c in claims if c["status"] != "proved"])
