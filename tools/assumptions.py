#!/usr/bin/env python3
"""Rewrite the last section of each rocq/theories/PropertiesN.v: one tuple of all
its theorems and one Print Assumptions on the tuple (a single traversal of the
shared dependencies instead of one per theorem)."""
import glob, re, os
root = os.path.dirname(os.path.dirname(os.path.abspath(__file__)))
MARK = "(** * Assumptions of all theorems above *)\n"
for f in sorted(glob.glob(os.path.join(root, "rocq/theories/Properties*.v"))):
    if f.endswith("Proofs.v"):
        continue
    n = re.search(r"Properties(\d+)\.v", f).group(1)
    t0 = open(f).read()
    t = t0.split(MARK)[0].rstrip() + "\n"
    t = re.sub(r"^Print Assumptions .*\n", "", t, flags=re.M)
    names = re.findall(r"^Theorem (\w+)", t, re.M)
    lines = ["Definition theorems%s :=\n  (" % n]
    cur = ""
    body = []
    for x in names:
        if len(cur) + len(x) > 100:
            body.append(cur); cur = ""
        cur += "@" + x + ", "
    body.append(cur)
    t += "\n" + MARK + "Definition theorems%s := (\n  " % n + "\n  ".join(b.rstrip() for b in body).rstrip(",") + ").\nPrint Assumptions theorems%s.\n" % n
    if t != t0:
        open(f, "w").write(t)
