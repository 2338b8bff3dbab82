#!/usr/bin/env python3
"""Write ASSUMPTIONS.md: what Print Assumptions lists for each theorem.

Needs a finished build in rocq/.  Compiles the Prop files again, in a scratch
directory for the output, and pairs their Print Assumptions with the answers.
"""
import os, re, subprocess, sys, tempfile

root = os.path.dirname(os.path.dirname(os.path.abspath(__file__)))
rocq = os.path.join(root, "rocq")
files = [l.strip() for l in open(os.path.join(rocq, "_CoqProject")) if re.search(r"theories/Prop\w*\.v$", l.strip())]
groups = {}
for f in files:
    names = re.findall(r"^Print Assumptions (\w+)\.", open(os.path.join(rocq, f)).read(), re.M)
    with tempfile.TemporaryDirectory() as d:
        out = subprocess.run(["coqc", "-Q", "theories", "Verif", f, "-o", os.path.join(d, os.path.basename(f) + "o")],
                             cwd=rocq, capture_output=True, text=True)
    if out.returncode:
        sys.exit(out.stderr)
    answers = re.split(r"^(?=Axioms:|Closed under)", out.stdout, flags=re.M)
    answers = [a for a in answers if a.startswith(("Axioms:", "Closed under"))]
    if len(answers) != len(names):
        sys.exit("%s: %d commands, %d answers" % (f, len(names), len(answers)))
    for n, a in zip(names, answers):
        ax = tuple(sorted(set(re.findall(r"^([A-Z]\w*(?:\.\w+)+)", a, re.M))))
        groups.setdefault(ax, []).append((f, n))
with open(os.path.join(root, "ASSUMPTIONS.md"), "w") as o:
    o.write("# What Print Assumptions lists for each theorem\n\nGenerated by tools/mkassumptions.py.\n")
    for ax in sorted(groups):
        o.write("\n## " + (", ".join("`%s`" % a for a in ax) if ax else "No axioms (closed under the global context)") + "\n\n")
        by = {}
        for f, n in groups[ax]:
            by.setdefault(f, []).append(n)
        for f in by:
            o.write("* %s: %s\n" % (os.path.basename(f), ", ".join(by[f])))
