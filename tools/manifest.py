#!/usr/bin/env python3
"""Regenerates MANIFEST.json: theorem names are collected from rocq/theories/P_*.v
by their Cnn_ prefix; status and notes come from STATUS below."""
import re, json, glob, os, sys
sys.path.insert(0, os.path.dirname(__file__))
import props
STATUS = {}
def st(i, status, note): STATUS[i] = (status, note)
exec(open(os.path.join(os.path.dirname(__file__), "status.py")).read())
names = {}
for f in sorted(glob.glob("/verif/rocq/theories/P_*.v")):
    for m in re.finditer(r"^Theorem (C(\d\d+)_\w+)", open(f).read(), re.M):
        names.setdefault("C" + m.group(2), []).append(m.group(1))
claims = []
for q in props.P:
    i = q["id"]
    status, note = STATUS.get(i, (None, ""))
    if i not in names and status != "not_applicable":
        print("no theorem yet:", i, q["title"]); continue
    if status is None:
        print("no status:", i); continue
    claims.append(dict(property=i, status=status, theorems=names.get(i, []), note=note))
json.dump(dict(claims=claims), open("/verif/MANIFEST.json", "w"), indent=1)
print(len(claims), "claims,", sum(len(v) for v in names.values()), "theorems")
