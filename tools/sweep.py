#!/usr/bin/env python3
"""Automatic mutation sweep: python3 tools/sweep.py SEED COUNT
Generates single-token mutants of the definitions in theories/*_Model.v, leaving out edits already in
seeded/LOG.jsonl and preferring definitions with few earlier attempts, and rebuilds a scratch copy in
/tmp/mut until the first failure. One line per well-typed mutant is appended to seeded/LOG.jsonl."""
import sys, os, re, json, random, subprocess, glob
ROOT = os.path.dirname(os.path.dirname(os.path.abspath(__file__)))
SRC = os.path.join(ROOT, "rocq"); DST = "/tmp/mut/rocq"
LOG = os.path.join(ROOT, "seeded", "LOG.jsonl")
def sh(c, **k): return subprocess.run(c, shell=True, stdout=subprocess.PIPE, stderr=subprocess.STDOUT, text=True, **k)
OPS = [(r"<=\?", ["<?"]), (r"<\?", ["<=?"]), (r" =\? ", [" <=? "]), (r"&&", ["||"]), (r"\|\|", ["&&"]),
       (r"(?<=\w|\)) \+ (?=\w|\()", [" - "]), (r"(?<=\w|\)) - (?=\w|\()", [" + "]), (r"(?<=\w|\)) \* (?=\w|\()", [" + "]), (r"(?<=\w|\)) / (?=\w|\()", [" * "]),
       (r"\bfst\b", ["snd"]), (r"\bsnd\b", ["fst"]), (r"\bnltb\b", ["nleb"]), (r"\bnleb\b", ["nltb"]), (r"\bnadd\b", ["nsub"]), (r"\bnsub\b", ["nadd"]),
       (r"\bnmul\b", ["nadd"]), (r"\bndiv\b", ["nmul"]), (r"\bfadd\b", ["fsub"]), (r"\bfsub\b", ["fadd"]), (r"\bfmul\b", ["fadd"]), (r"\bfdiv\b", ["fmul"]),
       (r"\bBltb\b", ["Bleb"]), (r"\bBleb\b", ["Bltb"]), (r"\bnegb \b", ["id "]), (r"\btrue\b", ["false"]), (r"\bfalse\b", ["true"]),
       (r"(?<![\w.\^\"])(\d{1,5})(?![\w.\"])", None), (r"\bwrap64\b", ["id"]), (r"\bu64\b", ["id"]), (r"\bu32\b", ["id"]), (r"\bPanic\b", None), (r"\brev\b", ["id"]),
       (r"\bZ\.max\b", ["Z.min"]), (r"\bZ\.min\b", ["Z.max"]), (r"\bErr\b", ["Crash"]), (r"\bCrash\b", ["Err"]), (r"\bZ\.quot\b", ["Z.div"]), (r"\bZ\.rem\b", ["Z.modulo"])]
def prep():
    os.makedirs("/tmp/mut", exist_ok=True)
    import fcntl
    global lock; lock = open("/tmp/mut.lock", "w")
    try: fcntl.flock(lock, fcntl.LOCK_EX | fcntl.LOCK_NB)
    except OSError: sys.exit("another sweep is using /tmp/mut")
    sh(f"rsync -a --delete {SRC}/ {DST}/ || (rm -rf {DST}; cp -a {SRC} {DST})")
    sh("coq_makefile -f _CoqProject -o Makefile", cwd=DST)
    r = sh("make -j4", cwd=DST)
    if r.returncode: print(r.stdout[-3000:]); sys.exit("base build fails")
def blank(s):
    """comments replaced by spaces"""
    out, d, i = [], 0, 0
    while i < len(s):
        if s.startswith("(*", i): d += 1; out.append("  "); i += 2; continue
        if d and s.startswith("*)", i): d -= 1; out.append("  "); i += 2; continue
        out.append(s[i] if d == 0 or s[i] == "\n" else " "); i += 1
    return "".join(out)
def gen():
    tried = {}; seen = set()
    for l in open(LOG):
        r = json.loads(l); k = (os.path.basename(r["file"]), r["definition"].split()[0]); tried[k] = tried.get(k, 0) + 1
        seen.add((k[0], r["edit"]["old"], r["edit"]["new"]))
    res = []
    for p in sorted(glob.glob(os.path.join(SRC, "theories", "*_Model.v"))):
        f = os.path.basename(p); s = open(p).read(); b = blank(s)
        for m in re.finditer(r"^\s*(?:Definition|Fixpoint|Function|with)\s+(\w+)(.*?)\.\s*(?=\n|$)", b, re.S | re.M):
            d = m.group(1); i0 = m.start(2); body = m.group(2); c = body.find(":="); 
            if c < 0: continue
            for (pat, news) in OPS:
                for o in re.finditer(pat, body):
                    if o.start() < c: continue
                    ns = news
                    if ns is None:
                        if o.group(0).isdigit(): ns = [str(int(o.group(0)) + 1)] + ([str(int(o.group(0)) - 1)] if int(o.group(0)) > 0 else [])
                        else: continue
                    for n in ns:
                        a, e = i0 + o.start(), i0 + o.end(); x, y = a, e
                        while s.count(s[x:y]) > 1 and (x > i0 - 40 or y < m.end()):
                            x = max(0, x - 6); y = min(len(s), y + 6)
                        if s.count(s[x:y]) != 1: continue
                        old, new = s[x:y], s[x:a] + n + s[e:y]
                        if (f, old, new) in seen: continue
                        res.append((tried.get((f, d), 0), f, d, old, new))
    return res
def name_at(p, line):
    nm = None
    for i, l in enumerate(open(p)):
        if i >= line: break
        m = re.match(r"\s*(?:Theorem|Lemma|Corollary|Example|Definition|Fixpoint|Remark|Instance|Program Definition)\s+(\w+)", l)
        if m: nm = m.group(1)
    return nm
def main():
    random.seed(int(sys.argv[1])); count = int(sys.argv[2]); c = gen(); random.shuffle(c)
    only = sys.argv[3:]
    if only: c = [r for r in c if any(o in r[1] for o in only)]
    print(len(c), "candidates", flush=True)
    if count == 0: return
    per = {}; pick = []
    for r in sorted(c, key=lambda r: r[0]):
        k = (r[1], r[2])
        if per.get(k, 0) >= 3: continue
        per[k] = per.get(k, 0) + 1; pick.append((r[0] + per[k], random.random(), r))
    pick = [r for (_, _, r) in sorted(pick)][:count]; random.shuffle(pick)
    prep()
    for (_, f, d, old, new) in pick:
        p = os.path.join(DST, "theories", f); s0 = open(p).read()
        sh("rm -rf /tmp/mut/save; cp -a /tmp/mut/rocq /tmp/mut/save")
        open(p, "w").write(s0.replace(old, new))
        r0 = sh(f"timeout 300 coqc -Q theories Verif theories/{f}", cwd=DST)
        if r0.returncode: print("ILL-TYPED", f, d, repr(old), repr(new), flush=True)
        else:
            r = sh("ulimit -v 9000000; timeout 1500 make -j4", cwd=DST)
            fails = sorted(set(m.group(1)[9:-2] + "." + str(name_at(os.path.join(DST, m.group(1)), int(m.group(2)))) for m in re.finditer(r'File "\./(theories/\w+\.v)", line (\d+)[^\n]*\n(?!Warning)', r.stdout)))
            rec = {"file": "rocq/theories/" + f, "definition": d, "edit": {"old": old, "new": new}, "claim_broken": "automatic sweep", "killed": r.returncode != 0, "failed": fails, "property_files_not_rebuilt": [], "tightened": []}
            if r.returncode == 124: rec["note"] = "a proof script no longer finishes (1500 s)"
            if r.returncode == 0 or fails or r.returncode == 124:
                with open(LOG, "a") as o: o.write(json.dumps(rec) + "\n")
            print("KILLED  " if r.returncode else "SURVIVED", f, d, "|", repr(old), "->", repr(new), "|", fails, flush=True)
        sh("rm -rf /tmp/mut/rocq; mv /tmp/mut/save /tmp/mut/rocq")
if __name__ == "__main__": main()
