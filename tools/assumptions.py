#!/usr/bin/env python3
"""Ask Coq for the assumptions of every Cxx theorem and write ASSUMPTIONS.md (run after the build)."""
import re, subprocess, glob, os, tempfile
root = os.path.dirname(os.path.dirname(os.path.abspath(__file__)))
th = os.path.join(root, "rocq", "theories")
names = []
for f in sorted(glob.glob(os.path.join(th, "P_*.v"))):
    mod = os.path.basename(f)[:-2]
    for m in re.finditer(r"^(?:Theorem|Corollary) (C\d\d_\w+)", open(f).read(), re.M):
        names.append((m.group(1), mod))
names.sort()
with tempfile.TemporaryDirectory() as d:
    p = os.path.join(d, "t.v")
    with open(p, "w") as o:
        for mod in sorted({m for _, m in names}):
            o.write(f"From Verif Require {mod}.\n")
        for n, m in names:
            o.write(f'Goal True. idtac "@@ {n}". Abort.\nPrint Assumptions Verif.{m}.{n}.\n')
    out = subprocess.run(["coqc", "-Q", th, "Verif", p], capture_output=True, text=True)
    if out.returncode:
        raise SystemExit(out.stderr[-2000:])
groups = {}
for part in out.stdout.split("@@ ")[1:]:
    n, body = part.split("\n", 1)
    ax = () if "Closed under the global context" in body else tuple(sorted(re.findall(r"^([\w.]+) :", body, re.M) + re.findall(r"^([\w.]+)$", body, re.M)))
    groups.setdefault(tuple(a for a in ax if a != "Axioms"), []).append(n)
with open(os.path.join(root, "ASSUMPTIONS.md"), "w") as o:
    o.write("# What `Print Assumptions` lists\n\nWritten by `tools/assumptions.py` from the built model.  All axioms below are from Coq's standard library.\n")
    for ax in sorted(groups, key=len):
        o.write("\n## " + ("Closed under the global context" if not ax else ", ".join(f"`{a}`" for a in ax)) + f" ({len(groups[ax])})\n\n")
        o.write(", ".join(groups[ax]) + "\n")
print({", ".join(k): len(v) for k, v in groups.items()})
