#!/usr/bin/env python3
"""Writes MANIFEST.json from the table below (one entry per property)."""
import json, re, glob, os
root = os.path.dirname(os.path.dirname(os.path.abspath(__file__)))
props = [json.loads(l)["id"] for l in open(root + "/properties.jsonl")]
names = {}
for f in sorted(glob.glob(root + "/rocq/theories/T_*.v")):
    for m in re.finditer(r"^Theorem\s+(C\d\d)(\w*)", open(f).read(), re.M):
        names.setdefault(m.group(1), []).append(m.group(1) + m.group(2))
notes = json.load(open(root + "/tools/notes.json"))
claims = []
for p in props:
    n = notes.get(p, {})
    th = names.get(p, [])
    if n.get("status"): st = n["status"]
    elif not th: st = "partial"
    else: st = "proved"
    claims.append({"property": p, "status": st, "theorems": th, "note": n.get("note", "not yet proved" if not th else "")})
json.dump({"claims": claims}, open(root + "/MANIFEST.json", "w"), indent=1)
