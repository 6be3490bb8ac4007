#!/usr/bin/env python3
"""Runs Print Assumptions for every property theorem (needs a finished build) and writes ASSUMPTIONS.md."""
import glob, os, re, subprocess, tempfile
root = os.path.abspath(os.path.join(os.path.dirname(os.path.abspath(__file__)), ".."))
th = os.path.join(root, "rocq/theories")
groups = {}
out = []
for f in sorted(glob.glob(th + "/P_*.v")):
    mod = os.path.basename(f)[:-2]
    names = re.findall(r"^Theorem (C\d\d+_\w+)", open(f).read(), re.M)
    with tempfile.TemporaryDirectory() as d:
        src = os.path.join(d, "A.v")
        with open(src, "w") as g:
            g.write("From Coq Require Import String.\nFrom Verif Require %s.\n" % mod)
            for n in names:
                g.write('Redirect "%s/%s" Print Assumptions %s.%s.\n' % (d, n, mod, n))
        subprocess.run(["coqc", "-Q", th, "Verif", src], check=True, cwd=d, stdout=subprocess.DEVNULL)
        for n in names:
            t = open(os.path.join(d, n + ".out")).read()
            if "Closed under the global context" in t:
                a = ()
            else:
                a = tuple(sorted(set(re.findall(r"^([A-Za-z_][\w.']*)\s*(?::|$)", t, re.M)) - {"Axioms"}))
            groups.setdefault(a, []).append(n)
with open(os.path.join(root, "ASSUMPTIONS.md"), "w") as g:
    g.write("# Print Assumptions, per theorem (written by tools/assumptions.py)\n")
    for a, ns in sorted(groups.items()):
        g.write("\n## %s\n\n" % ("Closed under the global context" if not a else ", ".join("`%s`" % x for x in a)))
        g.write(", ".join(sorted(ns)) + "\n")
print({a: len(n) for a, n in groups.items()})
