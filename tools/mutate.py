#!/usr/bin/env python3
"""Seeded-bug runner.  For each mutant (JSON line: file, def, old, new, claim) of
the given spec file: copy the built tree, apply the edit, rebuild; every lemma
that fails is admitted and the build resumed, so that in the end the Print
Assumptions output of the P_*.v files tells which theorems no longer hold.
Usage: mutate.py SPEC OUT [start]"""
import sys, json, os, re, resource, subprocess, shutil
SRC, MUT = "/tmp/pristine", os.environ.get("MUT", "/tmp/mut")
PK = re.compile(r"^(?:Local |Global |#\[[^\]]*\] *)*(Lemma|Theorem|Example|Corollary|Fact|Remark|Definition|Fixpoint|Instance)\s+(\w+)", re.M)
def make():
    p = subprocess.run(["make", "-j2"], cwd=MUT, capture_output=True, text=True, timeout=1500, preexec_fn=lambda: resource.setrlimit(resource.RLIMIT_AS, (5 << 30, 5 << 30)))
    return p.returncode, p.stdout + "\n" + p.stderr
def enclosing(path, line):
    L = open(path).read().split("\n")
    for i in range(line - 1, -1, -1):
        m = PK.match(L[i])
        if m: return i, m.group(1), m.group(2), L
    return None
def admit(path, line):
    e = enclosing(path, line)
    if not e: return None
    i, kind, name, L = e
    ind = i
    # find Proof. and Qed./Defined.
    j = i
    while j < len(L) and not re.search(r"\bProof\b", L[j]): j += 1
    if j >= len(L) or j > i + 40: return None
    k = j
    while k < len(L) and not re.search(r"\b(Qed|Defined)\.", L[k]): k += 1
    if k >= len(L) or line - 1 > k or line - 1 < i: return None
    if line - 1 < j: return None      # the statement itself is broken
    pre = L[j][:L[j].index("Proof")]
    L[j:k + 1] = [pre + "Admitted."] + [""] * (k - j)
    open(path, "w").write("\n".join(L))
    return name
def run(m):
    subprocess.run(["rm", "-rf", MUT]); subprocess.run(["cp", "-a", SRC, MUT], check=True)
    p = f"{MUT}/theories/{m['file']}.v"
    s = open(p).read()
    n = s.count(m["old"])
    if n != 1 and not (n and m.get("first")): return dict(m, error=f"old text occurs {n} times")
    open(p, "w").write(s.replace(m["old"], m["new"], 1))
    failed = []
    log = ""
    # remember the P files' outputs: force a rebuild of dependents happens by make
    for _ in range(60):
        rc, out = make()
        log += out
        if rc == 0: break
        errs = re.findall(r'File "\./theories/(\w+)\.v", line (\d+), characters [^\n]*\n(?:Error|[^\n]*\nError)', out)
        errs = re.findall(r'File "(?:\./)?theories/(\w+)\.v", line (\d+), characters \d+-\d+:\s*\n\s*Error', out) or \
               re.findall(r'File "\./theories/(\w+)\.v", line (\d+)', out)
        if not errs: return dict(m, error="build failed without location", out=out[-800:])
        done = False
        for f, l in dict(errs).items():
            nm = admit(f"{MUT}/theories/{f}.v", int(l))
            if nm is None: return dict(m, error=f"broken statement/definition at {f}:{l}", out=out[-800:], failed=failed)
            failed.append(nm); done = True
        if not done: break
    else: return dict(m, error="too many rounds", failed=failed)
    # theorems whose assumptions mention an admitted lemma
    bad = set(x for x in failed if re.match(r"C\d\d+_", x))
    outs = {}
    for f in sorted(os.listdir(f"{MUT}/theories")):
        if not f.startswith("P_") or not f.endswith(".v"): continue
        src = f"{MUT}/theories/{f}"
        vo = src[:-2] + ".vo"
        if os.path.getmtime(vo) <= os.path.getmtime(f"{SRC}/theories/{f[:-2]}.vo"): continue
        names = re.findall(r"^Theorem (C\d\d+_\w+)", open(src).read(), re.M)
        mod = f[:-2]
        q = f"From Verif Require Import {mod}.\n" + "".join(f'Goal True. idtac "@@{n}". Abort.\nPrint Assumptions {n}.\n' for n in names)
        open("/tmp/q_mut.v", "w").write(q)
        r = subprocess.run(["coqc", "-Q", f"{MUT}/theories", "Verif", "/tmp/q_mut.v"], capture_output=True, text=True)
        for part in r.stdout.split("@@")[1:]:
            nm, _, rest = part.partition("\n")
            if any(re.search(r"(^|[.\s])" + re.escape(x) + r"\s*:", rest) for x in failed): bad.add(nm)
    lem = [x for x in failed if not re.match(r"C\d\d+_", x)]
    return dict(m, failed=sorted(bad), lemmas=lem)
spec = [json.loads(l) for l in open(sys.argv[1]) if l.strip()]
start = int(sys.argv[3]) if len(sys.argv) > 3 else 0
for i, m in enumerate(spec):
    if i < start: continue
    r = run(m)
    with open(sys.argv[2], "a") as f: f.write(json.dumps(r) + "\n")
    print(i, m["file"], m["def"], "ERROR " + r["error"] if "error" in r else r["failed"], flush=True)
