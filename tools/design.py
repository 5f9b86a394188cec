#!/usr/bin/env python3
"""Regenerates the table of DESIGN.md section 5 from properties.jsonl and design_rows.txt."""
import json, os, re
root = os.path.dirname(os.path.dirname(os.path.abspath(__file__)))
rows = dict(l.rstrip("\n").split("|", 1) for l in open(os.path.join(root, "tools/design_rows.txt")) if "|" in l)
props = [json.loads(l) for l in open(os.path.join(root, "properties.jsonl"))]
t = "| id | property | model and proof |\n|---|---|---|\n" + "".join(f"| {p['id']} | {p['title']} | {rows[p['id']]} |\n" for p in props)
f = os.path.join(root, "DESIGN.md"); s = open(f).read()
i = s.index("| id | property |"); m = re.compile(r"\n(?!\|)").search(s, i)
open(f, "w").write(s[:i] + t + s[m.end():] if m else s[:i] + t)
