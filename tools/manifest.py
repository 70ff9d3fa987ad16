#!/usr/bin/env python3
"""Generates MANIFEST.json.  The theorem names are collected from the Prop*.v files."""
import json, os, re, glob
ROOT = os.path.join(os.path.dirname(__file__), "..")
thms = {}
for f in sorted(glob.glob(os.path.join(ROOT, "rocq/theories/Prop*.v"))):
    for m in re.finditer(r"(?m)^Theorem (C\d\d)_(\w+)", open(f).read()):
        thms.setdefault(m.group(1), []).append(m.group(1) + "_" + m.group(2))
NOTES = json.load(open(os.path.join(ROOT, "tools/notes.json")))
ids = [json.loads(l)["id"] for l in open(os.path.join(ROOT, "properties.jsonl"))]
claims = []
for i in ids:
    if i not in thms: continue
    n = NOTES.get(i, "")
    status = "proved"
    if n.startswith("PARTIAL: "):
        status, n = "partial", n[len("PARTIAL: "):]
    claims.append(dict(property=i, status=status, theorems=thms[i], note=n))
json.dump({"claims": claims}, open(os.path.join(ROOT, "MANIFEST.json"), "w"), indent=1, ensure_ascii=False)
print(len(claims), "of", len(ids))
