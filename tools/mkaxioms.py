#!/usr/bin/env python3
"""Write AXIOMS.md: the output of Print Assumptions for every property theorem (run after make, from /verif/rocq)."""
import glob, os, re, subprocess, tempfile
groups = {}
total = 0
for f in sorted(glob.glob("theories/Properties*.v")):
    names = re.findall(r"^Print Assumptions (\w+)\.", open(f).read(), re.M)
    with tempfile.TemporaryDirectory() as d:
        out = subprocess.run(["coqc", "-Q", "theories", "Verif", "-o", os.path.join(d, os.path.basename(f) + "o"), f],
                             capture_output=True, text=True, check=True).stdout
    blocks = re.split(r"^(?=Closed under the global context|Axioms:)", out, flags=re.M)[1:]
    assert len(blocks) == len(names), (f, len(blocks), len(names))
    for n, b in zip(names, blocks):
        ax = tuple(sorted(set(re.findall(r"^([A-Z]\w*(?:\.\w+)+)\s*(?::|$)", b, re.M))))
        groups.setdefault(ax, []).append(n)
        total += 1
with open("../AXIOMS.md", "w") as o:
    o.write("# Print Assumptions of the property theorems\n\nGenerated by tools/mkaxioms.py; %d theorems.\n" % total)
    for ax in sorted(groups, key=len):
        o.write("\n## " + (", ".join("`%s`" % a for a in ax) if ax else "Closed under the global context") + "\n\n")
        o.write(", ".join(sorted(groups[ax])) + "\n")
print(total, [(len(a), len(g)) for a, g in groups.items()])
