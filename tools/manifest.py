#!/usr/bin/env python3
"""Rebuild MANIFEST.json from the theorem names in rocq/theories/Properties*.v.

A theorem belongs to property Cnn when its name starts with Cnn_.  STATUS gives
the status and note of each property; a property without theorems is left out.
"""
import glob, json, re, os
root = os.path.dirname(os.path.dirname(os.path.abspath(__file__)))
STATUS = json.load(open(os.path.join(root, "tools", "status.json")))
names = {}
for f in sorted(glob.glob(os.path.join(root, "rocq/theories/Properties*.v"))):
    if f.endswith("Proofs.v"):
        continue
    for m in re.finditer(r"^Theorem (C\d+)_(\w+)", open(f).read(), re.M):
        names.setdefault(m.group(1), []).append(m.group(1) + "_" + m.group(2))
claims = []
for line in open(os.path.join(root, "properties.jsonl")):
    pid = json.loads(line)["id"]
    if pid not in names and STATUS.get(pid, ["", ""])[0] != "not_applicable":
        continue
    st, note = STATUS.get(pid, ["partial", ""])
    claims.append({"property": pid, "status": st, "theorems": names.get(pid, []), "note": note})
json.dump({"claims": claims}, open(os.path.join(root, "MANIFEST.json"), "w"), indent=1)
print({c["property"]: (c["status"], len(c["theorems"])) for c in claims})
