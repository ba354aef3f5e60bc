#!/usr/bin/env python3
"""Regenerates /verif/MANIFEST.json from the theorem names found in the Props_*.v files.
NOTES maps a property to (status, note)."""
import json, os, re, glob
here = os.path.dirname(os.path.abspath(__file__))
root = os.path.join(here, "..")
exec(open(os.path.join(here, "notes.py")).read())
thms = {}
for f in sorted(glob.glob(os.path.join(root, "rocq/theories/Props_*.v"))):
    for m in re.finditer(r"^Theorem\s+((C\d\d+)_\w+)", open(f).read(), re.M):
        thms.setdefault(m.group(2), []).append(m.group(1))
claims = []
ids = [json.loads(l)["id"] for l in open(os.path.join(root, "properties.jsonl"))]
for i in ids:
    if i in NOTES:
        status, note = NOTES[i]
        claims.append(dict(property=i, status=status, theorems=thms.get(i, []), note=note))
        if status != "not_applicable" and not thms.get(i): print("no theorem for", i)
    else:
        print("no note for", i, thms.get(i))
for i in thms:
    if i not in ids: print("theorem for unknown property", i)
json.dump(dict(claims=claims), open(os.path.join(root, "MANIFEST.json"), "w"), indent=1)
print(len(claims), "claims", sum(len(c["theorems"]) for c in claims), "theorems")
