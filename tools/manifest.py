#!/usr/bin/env python3
"""Regenerates MANIFEST.json: theorem names are taken from the Prop_*.v files by
their Cnn_ prefix; status and note from NOTES below."""
import json, re, glob, os
here = os.path.dirname(os.path.abspath(__file__))
root = os.path.dirname(here)
notes = json.load(open(os.path.join(here, "status.json")))
props = [json.loads(l)["id"] for l in open(os.path.join(root, "properties.jsonl"))]
thms = {}
for f in sorted(glob.glob(os.path.join(root, "rocq/theories/Prop_*.v"))):
    for m in re.finditer(r"^ *Theorem (C(\d\d)\w*)", open(f).read(), re.M):
        thms.setdefault("C" + m.group(2), []).append(m.group(1))
claims = []
for p in props:
    if p in thms and p in notes:
        st, note = notes[p]
        claims.append({"property": p, "status": st, "theorems": thms[p], "note": note})
    elif p in thms or p in notes:
        print("incomplete:", p)
json.dump({"claims": claims}, open(os.path.join(root, "MANIFEST.json"), "w"), indent=1)
print(len(claims), "claims; missing:", [p for p in props if p not in thms])
