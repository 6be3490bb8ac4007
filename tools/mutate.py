#!/usr/bin/env python3
"""Seeded-bug check.  usage: mutate.py MUTANTS.json
Each mutant: {"file","old","new","definition","claim"}.  In a scratch copy the edit is applied and the
development rebuilt; proofs that no longer go through are replaced by Admitted so that the build can
continue, and the theorems of the P_*.v files that then rest on them are reported (one JSON line each)."""
import json, os, re, subprocess, sys, shutil
SRC0 = os.path.join(os.path.dirname(os.path.abspath(__file__)), "..", "rocq")
SRC = "/tmp/mutsrc%d" % os.getpid()   # snapshot taken at start
W = "/tmp/mutwork%d" % os.getpid()
subprocess.run(["cp", "-a", SRC0, SRC], check=True)
START = re.compile(r"^\s*(?:Local\s+)?(Lemma|Theorem|Example|Corollary|Fact|Remark)\s+(\w+)")
def run(cmd): return subprocess.run(cmd, shell=True, cwd=W, capture_output=True, text=True)
def sync():
    os.makedirs(W, exist_ok=True)
    subprocess.run(["rsync", "-a", "--delete", SRC + "/", W + "/"], check=True) if shutil.which("rsync") else (shutil.rmtree(W), shutil.copytree(SRC, W))
def admit(path, line):
    L = open(path).read().split("\n")
    i = line - 1
    while i >= 0 and not START.match(L[i]): i -= 1
    if i < 0: return None
    name = START.match(L[i]).group(2)
    j = i
    while j < len(L) and not re.search(r"\b(Qed|Defined|Admitted)\.", L[j]): j += 1
    if j < line - 1: return None
    body = "\n".join(L[i:j + 1])
    k = body.find("Proof")
    if k < 0: return None
    if re.match(r"\s*Example", body) : new = "(* removed *)"
    else: new = body[:k] + "Proof. Admitted."
    open(path, "w").write("\n".join(L[:i] + new.split("\n") + L[j + 1:]))
    return name
def one(m):
    sync()
    p = os.path.join(W, "theories", m["file"])
    s = open(p).read()
    if s.count(m["old"]) != m.get("count", 1): return dict(m, error="old text found %d times" % s.count(m["old"]))
    open(p, "w").write(s.replace(m["old"], m["new"]))
    broken = []; touched = set()
    for _ in range(60):
        r = run("coq_makefile -f _CoqProject -o Makefile >/dev/null; make -k -j4 2>&1")
        errs = re.findall(r'File "\./([^"]+)", line (\d+), characters [^\n]*\nError', r.stdout)
        if not errs: break
        done = set()
        for f, l in errs:
            if f in done: continue
            done.add(f)
            n = admit(os.path.join(W, f), int(l))
            if n is None: return dict(m, error="statement or definition no longer type-checks: %s:%s" % (f, l), broken=broken)
            broken.append(n); touched.add(os.path.basename(f))
    else: return dict(m, error="too many rounds", broken=broken)
    failed = []
    if not touched: return dict(m, broken=broken, failed=failed)
    deps = {}
    for f in os.listdir(os.path.join(W, "theories")):
        if f.endswith(".v"):
            t = " ".join(re.findall(r"From Verif Require (?:Import|Export)([^.]*)\.", open(os.path.join(W, "theories", f)).read()))
            deps[f] = {x + ".v" for x in t.split()}
    def reach(f, seen):
        if f in seen: return seen
        seen.add(f)
        for g in deps.get(f, ()): reach(g, seen)
        return seen
    for f in sorted(os.listdir(os.path.join(W, "theories"))):
        if not re.match(r"P_\w+\.v$", f) or not (reach(f, set()) & touched): continue
        path = os.path.join(W, "theories", f)
        names = re.findall(r"^Theorem (\w+)", open(path).read(), re.M)
        t = os.path.join(W, "chk.v")
        open(t, "w").write("From Verif Require Import %s.\n" % f[:-2] + "".join('Print Assumptions %s.\n' % n for n in names))
        out = run("coqc -Q theories Verif chk.v").stdout
        parts = re.split(r"(?=Closed under the global context|Axioms:)", out)[1:]
        for n, o in zip(names, parts):
            if o.startswith("Axioms") and any(re.search(r"^(?:\w+\.)*%s\b" % b, o, re.M) for b in broken): failed.append(n)
    return dict(m, broken=broken, failed=failed)
if __name__ == "__main__":
    for m in json.load(open(sys.argv[1])):
        print(json.dumps(one(m))); sys.stdout.flush()
