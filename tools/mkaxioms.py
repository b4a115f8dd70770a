#!/usr/bin/env python3
"""mkaxioms.py: run coqc on every P_*.v and replace the table between the AXIOMS markers of DESIGN.md by
what Print Assumptions lists for each theorem.  Needs a built tree."""
import glob, os, re, subprocess, tempfile
root = os.path.dirname(os.path.dirname(os.path.abspath(__file__)))
th = os.path.join(root, "rocq", "theories")
groups = {}
tmp = tempfile.mkdtemp()
count = 0
for f in sorted(glob.glob(os.path.join(th, "P_*.v"))):
    src = open(f).read()
    names = re.findall(r"^Print Assumptions (\w+)\.", src, re.M)
    out = subprocess.run(["coqc", "-Q", ".", "Verif", "-o", os.path.join(tmp, os.path.basename(f) + "o"), os.path.basename(f)], cwd=th, stdout=subprocess.PIPE, text=True).stdout
    blocks = re.split(r"(?m)^(?=Closed under the global context|Axioms:)", out)
    blocks = [b for b in blocks if b.startswith(("Closed", "Axioms:"))]
    assert len(blocks) == len(names), (f, len(blocks), len(names))
    for n, b in zip(names, blocks):
        ax = () if b.startswith("Closed") else tuple(sorted(re.findall(r"(?m)^([A-Za-z_][\w.']*)\s*(?::|$)", b[len("Axioms:"):])))
        groups.setdefault(ax, []).append(n)
        count += 1
lines = [f"`Print Assumptions` of the {count} theorems (regenerate with `tools/mkaxioms.py`):", ""]
for ax, ns in sorted(groups.items(), key=lambda kv: len(kv[0])):
    head = "no axiom (closed under the global context)" if not ax else ", ".join(f"`{a}`" for a in ax)
    lines += [f"* {head} ({len(ns)} theorems):", "  " + ", ".join(f"`{n}`" for n in sorted(ns)), ""]
p = os.path.join(root, "DESIGN.md")
s = open(p).read()
a, b = "<!-- AXIOMS -->", "<!-- /AXIOMS -->"
i, j = s.index(a) + len(a), s.index(b)
open(p, "w").write(s[:i] + "\n" + "\n".join(lines) + s[j:])
for ax in groups: print(len(groups[ax]), ax)
