#!/usr/bin/env python3
"""Rewrite the list of assumptions in DESIGN.md from what Coq prints.

Needs a finished build in rocq/."""
import json, os, re, subprocess

root = os.path.join(os.path.dirname(os.path.abspath(__file__)), "..")
theories = os.path.join(root, "rocq", "theories")
names = [t for c in json.load(open(os.path.join(root, "MANIFEST.json")))["claims"] for t in c["theorems"]]
mods = sorted(f[:-2] for f in os.listdir(theories) if f.startswith("Prop") and f.endswith(".v"))
where = {}
for m in mods:
    for n in re.findall(r"^Theorem (C\d\d_\w+)", open(os.path.join(theories, m + ".v")).read(), re.M):
        where[n] = m
script = "".join("Require Verif.%s.\n" % m for m in mods)
for n in names:
    script += 'Goal True. idtac "@@ %s". Abort.\nPrint Assumptions Verif.%s.%s.\n' % (n, where[n], n)
path = "/tmp/assumptions_query.v"
open(path, "w").write(script)
out = subprocess.run(["coqc", "-Q", theories, "Verif", path], capture_output=True, text=True)
assert out.returncode == 0, out.stderr
groups = {}
for part in out.stdout.split("@@ ")[1:]:
    name, _, text = part.partition("\n")
    axioms = tuple(sorted(set(re.findall(r"^([A-Za-z_][\w.]*) *(?::|$)", text, re.M)) - {"Axioms"}))
    groups.setdefault(axioms, []).append(name.strip())
lines = []
for axioms, thms in sorted(groups.items()):
    if axioms == () or axioms == ("Closed",):
        lines.append("* Closed under the global context (no axioms):")
    else:
        lines.append("* " + ", ".join("`%s`" % a for a in axioms) + ":")
    lines.append("  " + ", ".join(thms) + ".")
design = os.path.join(root, "DESIGN.md")
s = open(design).read()
a, b = "<!-- assumptions -->\n", "<!-- end assumptions -->"
s = s[:s.index(a) + len(a)] + "\n".join(lines) + "\n" + s[s.index(b):]
open(design, "w").write(s)
print({k: len(v) for k, v in groups.items()})
