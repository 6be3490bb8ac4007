#!/usr/bin/env python3
"""Mechanical mutants.  usage: automut.py OUT SEED PER_DEFINITION FILE.v...
For each Definition/Fixpoint/Inductive of the given model files, PER_DEFINITION random one-token edits are tried in a
scratch copy; the build stops at the first file that fails.  Edits rejected inside the definition itself (type errors)
are skipped.  One JSON line per mutant; killed_by = first lemma or theorem that no longer checks, null = survived."""
import json, os, re, subprocess, sys, random, shutil
SRC0 = os.path.join(os.path.dirname(os.path.abspath(__file__)), "..", "rocq")
TAG = os.environ.get("AM_TAG", str(os.getpid()))
SRC, W = "/tmp/am/src" + TAG, "/tmp/am/work" + TAG
J = os.environ.get("AM_J", "4")
if not os.path.isdir(SRC):  # a copy without the examples: only lemmas and theorems may kill a mutant
    subprocess.run(["cp", "-a", SRC0, SRC], check=True)
    for f in os.listdir(SRC + "/theories"):
        if not f.endswith(".v"): continue
        p = SRC + "/theories/" + f; t = open(p).read()
        u = re.sub(r"(?ms)^Example\s(?:(?!^Proof|^Example|^Lemma|^Theorem|^Definition).)*?^Proof.*?(?:Qed|Defined)\.", "", t)
        u = re.sub(r"(?m)^Print Assumptions .*$", "", u)
        if u != t: open(p, "w").write(u)
def sh(cmd, t=None):
    try: return subprocess.run(cmd, shell=True, cwd=W, capture_output=True, text=True, timeout=t)
    except subprocess.TimeoutExpired: return None
def mirror(a, b):  # copy what differs (size or mtime), delete the rest
    for d, _, fs in os.walk(a):
        t = os.path.join(b, os.path.relpath(d, a)); os.makedirs(t, exist_ok=True)
        for f in fs:
            x, y = os.path.join(d, f), os.path.join(t, f); p = os.stat(x); q = os.stat(y) if os.path.exists(y) else None
            if q is None or (p.st_size, p.st_mtime_ns) != (q.st_size, q.st_mtime_ns): shutil.copy2(x, y)
        for f in os.listdir(t):
            if not os.path.exists(os.path.join(d, f)): os.remove(os.path.join(t, f))
def sync(): mirror(SRC, W)
RULES = [(r"<\?", "<=?"), (r"<=\?", "<?"), (r"=\?", "<=?"), (r"Nat\.ltb", "Nat.leb"), (r"Nat\.leb", "Nat.ltb"), (r"&&", "||"), (r"\|\|", "&&"),
  (r"\btrue\b", "false"), (r"\bfalse\b", "true"), (r"\bnegb \(", "("), (r"\bfst\b", "snd"), (r"\bsnd\b", "fst"),
  (r"Z\.min", "Z.max"), (r"Z\.max", "Z.min"), (r"Z\.quot", "Z.modulo"), (r"\bfirstn\b", "skipn"), (r"\bskipn\b", "firstn"),
  (r" \+ 1\b", ""), (r" - 1\b", ""), (r"\bS (\w+)", r"\1"), (r"\bTrue\b", "False"), (r" <= ", " < "), (r" < ", " <= "),
  (r"(?<![\w.])(\d+)(?![\w.])", lambda m: str(int(m.group(1)) + 1)), (r"(?<![\w.])([1-9]\d*)(?![\w.])", lambda m: str(int(m.group(1)) - 1)),
  (r'lit "([a-z]+)"', lambda m: 'lit "%sx"' % m.group(1)), (r" \+\+ \[nl\]", ""), (r"\brev\b", ""), (r"\(([a-z]\w*) \+ ([a-z]\w*)\)", r"(\1)"),
  (r"\bif ([^;:|]{1,60}?) then\b", r"if negb (\1) then"), (r"\b([a-z]\w*) ([a-z]\w*) ([a-z]\w*)\b", r"\1 \3 \2"), (r"\bSome (\w+)\b", "None"),
  (r"<> ", "= "), (r" - ", " + "), (r" \+ ", " - "), (r"\bfilter\b ", "filter "), (r" \+\+ (\w+)(?= |\))", ""), (r"(?<=[( ])(\w+) \+\+ ", ""), (r"\bisort\b", "id"), (r"\bnl\b", "sp"), (r"\bsp\b", "nl"), (r"\bcomma\b", "eqs"), (r"\beqs\b", "comma")]
DEF = re.compile(r"^\s*(?:Local )?(?:Program )?(Definition|Fixpoint|Inductive)\s+(\w+)")
def strip(s):  # blank out comments
    out, d, i = [], 0, 0
    while i < len(s):
        if s.startswith("(*", i): d += 1; out.append("  "); i += 2; continue
        if s.startswith("*)", i) and d: d -= 1; out.append("  "); i += 2; continue
        out.append(s[i] if d == 0 or s[i] == "\n" else " "); i += 1
    return "".join(out)
def defs(s):
    L = strip(s).split("\n"); pos = 0; offs = []
    for l in L: offs.append(pos); pos += len(l) + 1
    flat = "\n".join(L); res = []
    for i, l in enumerate(L):
        m = DEF.match(l)
        if not m: continue
        e = re.compile(r"\.(?=\s*(\n|$))").search(flat, offs[i] + len(m.group(0)))
        if e: res.append((m.group(2), offs[i], e.end(), flat[offs[i]:e.end()]))
    return res
def edits(text, kind_start):
    k = text.find(":="); 
    if k < 0: return []
    out = []
    for pat, rep in RULES:
        for m in re.compile(pat).finditer(text, k + 2):
            if text[m.start():m.end()] == "=?" and text[m.start() - 1] == "<": continue
            try: new = m.expand(rep) if isinstance(rep, str) else rep(m)
            except Exception: continue
            if new != m.group(0): out.append((m.start(), m.end(), m.group(0), new))
    return out
START = re.compile(r"^\s*(?:Local\s+)?(Lemma|Theorem|Example|Corollary|Fact|Remark|Definition|Fixpoint|Inductive)\s+(\w+)")
def main():
    out = open(sys.argv[1], "a"); rng = random.Random(int(sys.argv[2])); per = int(sys.argv[3])
    sync(); sh("coq_makefile -f _CoqProject -o Makefile; make -j4"); mirror(W, SRC)
    for f in sys.argv[4:]:
        src = open(os.path.join(SRC, "theories", f)).read()
        for name, a, b, text in defs(src):
            es = edits(text, 0); rng.shuffle(es); done = 0
            for (x, y, old, new) in es[:per * 6]:
                if done >= per: break
                sync()
                p = os.path.join(W, "theories", f); open(p, "w").write(src[:a + x] + new + src[a + y:])
                r = sh("timeout 600 coqc -Q theories Verif theories/%s" % f)
                ctx = src[max(a, a + x - 40):a + y + 40].replace("\n", " ")
                err = re.search(r'File "[^"]*?(\w+\.v)", line (\d+)', r.stderr + r.stdout) if r.returncode else None
                l1 = src.count("\n", 0, b) + 1; l0 = src.count("\n", 0, a) + 1
                if r.returncode:
                    if err is None: continue
                    ln = int(err.group(2))
                    if l0 <= ln <= l1: continue
                    L = open(p).read().split("\n"); i = ln - 1
                    while i >= 0 and not START.match(L[i]): i -= 1
                    st = START.match(L[i])
                    if st and st.group(1) in ("Definition", "Fixpoint", "Inductive"): continue
                    kill = f + ":" + (st.group(2) if st else str(ln))
                else:
                    r = sh("make -j%s 2>&1" % J, 3000); kill = None
                    if r is None: kill = "timeout"
                    elif r.returncode:
                        err = re.search(r'File "[^"]*?(\w+\.v)", line (\d+)[^\n]*\nError', r.stdout)
                        if err:
                            L = open(os.path.join(W, "theories", err.group(1))).read().split("\n"); i = int(err.group(2)) - 1
                            while i >= 0 and not START.match(L[i]): i -= 1
                            kill = err.group(1) + ":" + (START.match(L[i]).group(2) if i >= 0 else err.group(2))
                        else: kill = "build: " + r.stdout[-200:]
                done += 1
                out.write(json.dumps(dict(file=f, definition=name, old=old, new=new, context=ctx, killed_by=kill)) + "\n"); out.flush()
main()
