#!/usr/bin/env python3
"""Write the table of axioms (the output of Print Assumptions for every theorem of the
Properties files) into section 5 of DESIGN.md. Needs a finished build."""
import os, re, subprocess, glob
here = os.path.dirname(os.path.abspath(__file__))
root = os.path.join(here, "..", "rocq", "theories")
groups = {}
for f in sorted(glob.glob(os.path.join(root, "Properties*.v"))):
    names = re.findall(r"^Print Assumptions (\w+)\.", open(f).read(), re.M)
    out = subprocess.run(["coqc", "-Q", ".", "Verif", os.path.basename(f)], cwd=root, capture_output=True, text=True).stdout
    blocks = re.findall(r"Closed under the global context|Axioms:\n(?:.+\n?)*?(?=Axioms:|Closed under|\Z)", out)
    assert len(blocks) == len(names), (f, len(blocks), len(names))
    for n, b in zip(names, blocks):
        ax = tuple(sorted(set(re.findall(r"^([\w.]+)\s*(?=:|$)", b, re.M)) - {"Axioms"})) if b.startswith("Axioms") else ()
        ax = tuple(sorted({"FunctionalExtensionality.functional_extensionality_dep" if a == "functional_extensionality_dep" else a for a in ax}))
        groups.setdefault(ax, []).append(n)
lines = []
for ax, ns in sorted(groups.items(), key=lambda x: len(x[0])):
    lines.append("* " + ("**closed under the global context (no axioms)**" if not ax else ", ".join("`%s`" % a for a in ax)) + ":")
    lines.append("  " + ", ".join(sorted(ns)) + ".")
d = os.path.join(here, "..", "DESIGN.md")
s = open(d).read()
a, b = "<!-- axioms -->\n", "<!-- end of axioms -->"
s = s[:s.index(a) + len(a)] + "\n".join(lines) + "\n" + s[s.index(b):]
open(d, "w").write(s)
print({k: len(v) for k, v in groups.items()})
