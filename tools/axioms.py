#!/usr/bin/env python3
"""Regenerate the table of axioms per theorem at the end of DESIGN.md.

Recompiles a copy of every theories/P_*.v into a temporary directory against the
built library and parses the output of its Print Assumptions commands. With names
of such files as arguments only these are recompiled and the table is kept for
the others."""
import glob, os, re, subprocess, sys, tempfile

here = os.path.dirname(os.path.abspath(__file__))
th = os.path.join(here, "..", "rocq", "theories")
groups = {}
only = sys.argv[1:]
p = os.path.join(here, "..", "DESIGN.md")
if only:
    for ax, ns in re.findall(r"^\*\*(.*?)\*\* \(\d+ theorems\): (.*)\.$", open(p).read().split("## Axioms per theorem")[1], re.M):
        groups[tuple(re.findall(r"`(.*?)`", ax))] = ns.split(", ")
for f in sorted(glob.glob(os.path.join(th, "P_*.v"))):
    if only and os.path.basename(f)[:-2] not in only:
        continue
    src = open(f).read()
    names = re.findall(r"^Print Assumptions (\w+)\.", src, re.M)
    with tempfile.TemporaryDirectory() as d:
        t = os.path.join(d, os.path.basename(f))
        open(t, "w").write(src)
        out = subprocess.run(["coqc", "-Q", th, "Verif", t], capture_output=True, text=True, check=True).stdout
    blocks = re.split(r"^(?=Axioms:|Closed under the global context)", out, flags=re.M)[1:]
    assert len(blocks) == len(names), (f, len(blocks), len(names))
    groups = {k: [n for n in v if n not in names] for k, v in groups.items()}
    for n, b in zip(names, blocks):
        ax = () if b.startswith("Closed") else tuple(sorted(set(
            m.split(".")[-1] for m in re.findall(r"^([A-Za-z_][\w.]*)(?= *:|$)", b[len("Axioms:"):], re.M))))
        groups.setdefault(ax, []).append(n)
lines = ["## Axioms per theorem", "", "Generated by `tools/axioms.py`.", ""]
groups = {k: v for k, v in groups.items() if v}
for ax, ns in sorted(groups.items(), key=lambda x: (len(x[0]), x[0])):
    lines.append("**" + (", ".join("`%s`" % a for a in ax) if ax else "No axioms") + "** (%d theorems): " % len(ns) + ", ".join(sorted(ns)) + ".")
    lines.append("")
s = open(p).read().split("## Axioms per theorem")[0].rstrip() + "\n\n"
open(p, "w").write(s + "\n".join(lines))
print({k: len(v) for k, v in groups.items()})
