#!/usr/bin/env python3
"""Appends the results of tools/mutate.py (JSON lines) to seeded/LOG.jsonl."""
import json, sys, os
root = os.path.dirname(os.path.dirname(os.path.abspath(__file__)))
with open(os.path.join(root, "seeded", "LOG.jsonl"), "a") as out:
    for path in sys.argv[1:]:
        for l in open(path):
            d = json.loads(l)
            if d.get("count", 1) == 0: continue
            e = dict(definition="%s: %s" % (d["file"], d["definition"]),
                     edit="%s  ==>  %s" % (d["old"], d["new"]), claim=d["claim"],
                     theorems_failed=d.get("failed") or [], lemmas_failed=d.get("broken", [])[:8],
                     theorems_tightened=d.get("tightened", []))
            if d.get("error"): e["note"] = d["error"]
            if d.get("note"): e["note"] = d["note"]
            out.write(json.dumps(e) + "\n")
