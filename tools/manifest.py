#!/usr/bin/env python3
"""Regenerates MANIFEST.json and rocq/_CoqProject from the theory files.
Claims are collected from 'Theorem Cnn_...' in *_Props.v; notes come from tools/notes.json."""
import json, os, re, glob
root = os.path.dirname(os.path.dirname(os.path.abspath(__file__)))
notes = json.load(open(os.path.join(root, "tools/notes.json")))
props = [json.loads(l) for l in open(os.path.join(root, "properties.jsonl"))]
ths = {}
for f in sorted(glob.glob(os.path.join(root, "rocq/theories/*_Props.v"))):
    for m in re.finditer(r"^(?:Theorem|Corollary)\s+((C\d+)_\w+)", open(f).read(), re.M):
        ths.setdefault(m.group(2), []).append(m.group(1))
claims = []
for p in props:
    i = p["id"]; n = notes.get(i, {})
    t = ths.get(i, [])
    if not t and "status" not in n: continue
    status = n.get("status") or ("partial" if any(x.endswith("_partial") for x in t) else "proved")
    claims.append(dict(property=i, status=status, theorems=t, note=n.get("note", "")))
unknown = set(ths) - {p["id"] for p in props}
assert not unknown, unknown
json.dump({"claims": claims}, open(os.path.join(root, "MANIFEST.json"), "w"), indent=1, ensure_ascii=False)
fs = sorted(os.path.basename(f) for f in glob.glob(os.path.join(root, "rocq/theories/*.v")))
with open(os.path.join(root, "rocq/_CoqProject"), "w") as o:
    o.write("-Q theories Verif\n\n" + "".join(f"theories/{f}\n" for f in fs))
missing = [p["id"] for p in props if p["id"] not in {c["property"] for c in claims}]
print(len(claims), "claims; missing:", " ".join(missing))
