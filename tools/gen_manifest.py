#!/usr/bin/env python3
"""Writes MANIFEST.json; checks that every theorem named exists in rocq/theories."""
import json, re, glob, os
here = os.path.dirname(os.path.abspath(__file__))
root = os.path.dirname(here)
src = "".join(open(f).read() for f in glob.glob(root + "/rocq/theories/Properties*.v"))
have = re.findall(r"^\s*Theorem (\w+)", src, re.M)
NOTES = json.load(open(here + "/notes.json"))
ids = [json.loads(l)["id"] for l in open(root + "/properties.jsonl")]
claims = []
for i in ids:
    ths = [t for t in have if re.match(i.lower() + "_", t)]
    if not ths and i not in NOTES:
        continue
    status, note = NOTES.get(i, [None, ""])
    if status is None:
        status = "partial" if any(t.endswith("_partial") or t.endswith("_refuted") for t in ths) else "proved"
    claims.append({"property": i, "status": status, "theorems": ths, "note": note})
json.dump({"claims": claims}, open(root + "/MANIFEST.json", "w"), indent=1)
print("missing:", [i for i in ids if i not in [c["property"] for c in claims]])
bad = [t for t in have if not re.match(r"c\d\d_", t)]
print("unassigned theorems:", bad)
