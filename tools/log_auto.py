#!/usr/bin/env python3
"""log_auto.py VERDICTS.json OUT.jsonl...: appends the results of tools/automut.py (random one-token edits) to
seeded/LOG.jsonl.  VERDICTS maps "file|definition|old|new" of survivors to {"note":..., "tightened":[...]}."""
import json, sys, os
root = os.path.dirname(os.path.dirname(os.path.abspath(__file__)))
V = json.load(open(sys.argv[1]))
missing = 0
with open(os.path.join(root, "seeded", "LOG.jsonl"), "a") as out:
    for path in sys.argv[2:]:
        for l in open(path):
            d = json.loads(l)
            e = dict(definition="%s: %s" % (d["file"], d["definition"]),
                     edit="%s  ==>  %s  (random one-token edit, in: %s)" % (d["old"], d["new"], d["context"]),
                     claim="the claims resting on this definition", theorems_failed=[], lemmas_failed=[], theorems_tightened=[])
            k = d.get("killed_by")
            if k: e["lemmas_failed"] = [k]; e["note"] = "first failure only"
            else:
                v = V.get("%s|%s|%s|%s" % (d["file"], d["definition"], d["old"], d["new"])) or V.get("%s|%s" % (d["file"], d["definition"]))
                if v is None: missing += 1; print("no verdict:", d["file"], d["definition"], d["old"], d["new"]); v = {"note": "survived"}
                e["note"] = v["note"]; e["theorems_tightened"] = v.get("tightened", [])
            out.write(json.dumps(e) + "\n")
