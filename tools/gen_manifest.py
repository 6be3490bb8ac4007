#!/usr/bin/env python3
"""Regenerates /verif/MANIFEST.json from the P_*.v files and the notes below."""
import json, os, re, glob
root = os.path.join(os.path.dirname(os.path.abspath(__file__)), "..")
NOTES = json.load(open(os.path.join(root, "tools", "notes.json")))
thms = {}
for f in sorted(glob.glob(os.path.join(root, "rocq/theories/P_*.v"))):
    for m in re.finditer(r"^Theorem (C\d\d+)(_\w+)", open(f).read(), re.M):
        thms.setdefault(m.group(1), []).append(m.group(1) + m.group(2))
claims = []
for line in open(os.path.join(root, "properties.jsonl")):
    pid = json.loads(line)["id"]
    t = thms.pop(pid, [])
    if not t:
        continue
    status = "partial" if any(x.endswith("_partial") or x.endswith("_refuted") for x in t) else "proved"
    claims.append(dict(property=pid, status=status, theorems=t, note=NOTES.get(pid, "")))
assert not thms, thms
json.dump({"claims": claims}, open(os.path.join(root, "MANIFEST.json"), "w"), indent=1)
print(len(claims), "claims", sum(len(c["theorems"]) for c in claims), "theorems",
      sum(c["status"] == "proved" for c in claims), "proved")
