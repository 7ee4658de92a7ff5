#!/usr/bin/env python3
"""Writes ../MANIFEST.json.  Theorems are collected from rocq/theories/*Props.v by their
Cnn_ prefix; status and notes come from the table below."""
import json, os, re, glob
root = os.path.join(os.path.dirname(os.path.abspath(__file__)), "..")
thms = {}
for f in sorted(glob.glob(os.path.join(root, "rocq/theories/*Props.v"))):
    for m in re.finditer(r"^(?:Theorem|Corollary)\s+((C\d\d\d?)_\w+)", open(f).read(), re.M):
        thms.setdefault(m.group(2), []).append(m.group(1))
STATUS = {}
def s(pid, status, note): STATUS[pid] = (status, note)
exec(open(os.path.join(root, "tools/status.py")).read())
claims = []
for line in open(os.path.join(root, "properties.jsonl")):
    pid = json.loads(line)["id"]
    if pid in STATUS and pid in thms:
        st, note = STATUS[pid]
        claims.append(dict(property=pid, status=st, theorems=thms[pid], note=note))
json.dump({"claims": claims}, open(os.path.join(root, "MANIFEST.json"), "w"), indent=1)
print([c["property"] for c in claims], "missing status:", [p for p in thms if p not in STATUS])
