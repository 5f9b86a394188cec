#!/usr/bin/env python3
"""Mutation runner: python3 tools/mutate.py MUTANTS.py
MUTANTS.py defines M = [(file, definition, old, new, claim), ...]. Every mutant is applied to a
scratch copy of theories/ in /tmp/mut, rebuilt with make -k, and one line is appended to
seeded/LOG.jsonl with the lemmas and theorems that no longer check. TARGETS restricts the
rebuild to some .vo files (a survivor then has to be run again without it)."""
import sys, os, re, json, subprocess, shutil, runpy
ROOT = os.path.dirname(os.path.dirname(os.path.abspath(__file__)))
SRC = os.path.join(ROOT, "rocq"); DST = "/tmp/mut/rocq"
LOG = os.path.join(ROOT, "seeded", "LOG.jsonl")
def sh(c, **k): return subprocess.run(c, shell=True, stdout=subprocess.PIPE, stderr=subprocess.STDOUT, text=True, **k)
def prep():
    os.makedirs("/tmp/mut", exist_ok=True)
    sh(f"rsync -a --delete {SRC}/ {DST}/ || (rm -rf {DST}; cp -a {SRC} {DST})")
    sh("coq_makefile -f _CoqProject -o Makefile", cwd=DST)
    r = sh("make -j4 " + os.environ.get("TARGETS", ""), cwd=DST)
    if r.returncode: print(r.stdout[-3000:]); sys.exit("base build fails")
def name_at(f, line):
    nm = None
    for i, l in enumerate(open(os.path.join(DST, f))):
        if i >= line: break
        m = re.match(r"\s*(?:Theorem|Lemma|Corollary|Example|Definition|Fixpoint|Remark|Instance)\s+(\w+)", l)
        if m: nm = m.group(1)
    return nm
def main():
    M = runpy.run_path(sys.argv[1])["M"]
    prep()
    for (f, d, old, new, claim, *tight) in M:
        p = os.path.join(DST, "theories", f); s0 = open(p).read()
        if s0.count(old) < 1: print("NOT FOUND", f, d, old); continue
        if s0.count(old) > 1: print("AMBIGUOUS", f, d, old); continue
        sh("rm -rf /tmp/mut/save; cp -a /tmp/mut/rocq /tmp/mut/save")
        open(p, "w").write(s0.replace(old, new))
        r = sh("ulimit -v 9000000; timeout 700 make -k -j4 " + os.environ.get("TARGETS", ""), cwd=DST)
        fails = []
        for m in re.finditer(r'File "\./(theories/\w+\.v)", line (\d+)[^\n]*\n(?!Warning)', r.stdout):
            fails.append(m.group(1)[9:-2] + "." + str(name_at(m.group(1), int(m.group(2)))))
        fails = sorted(set(fails))
        blocked = sorted(set(re.findall(r"theories/(\w+_Props)\.vo", "\n".join(l for l in r.stdout.splitlines() if "not remade" in l))))
        killed = r.returncode != 0
        rec = {"file": "rocq/theories/" + f, "definition": d, "edit": {"old": old, "new": new}, "claim_broken": claim,
               "killed": killed, "failed": fails, "property_files_not_rebuilt": blocked, "tightened": tight[0] if tight else []}
        if r.returncode == 124: rec["note"] = "a proof script no longer finishes (700 s)"
        with open(LOG, "a") as o: o.write(json.dumps(rec) + "\n")
        print("KILLED " if killed else "SURVIVED", d, "|", old.strip()[:50], "->", new.strip()[:50], "|", fails, flush=True)
        sh("rm -rf /tmp/mut/rocq; mv /tmp/mut/save /tmp/mut/rocq")
main()
