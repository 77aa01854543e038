#!/usr/bin/env python3
"""Compile the Properties files and rewrite the table of axioms in DESIGN.md
(between the BEGIN/END markers) from the output of Print Assumptions."""
import re, subprocess, glob, os, json
root = os.path.join(os.path.dirname(os.path.abspath(__file__)), "..")
th = os.path.join(root, "rocq", "theories")
res = {}
for f in sorted(glob.glob(os.path.join(th, "Properties*.v"))):
    src = open(f).read()
    names = re.findall(r"^Print Assumptions (\w+)\.", src, re.M)
    out = subprocess.run(["coqc", "-q", "-Q", ".", "Verif", os.path.basename(f)], cwd=th, capture_output=True, text=True).stdout
    blocks = re.split(r"^(?=Closed under the global context|Axioms:)", out, flags=re.M)
    blocks = [b for b in blocks if b.startswith("Closed") or b.startswith("Axioms:")]
    assert len(blocks) == len(names), (f, len(blocks), len(names))
    for n, b in zip(names, blocks):
        ax = sorted(set(m for m in re.findall(r"^([A-Za-z_][\w.']*)\s*:", b, re.M) if m != "Axioms"))
        res[n] = tuple(x.split(".")[-1] for x in ax)
groups = {}
for n, a in res.items():
    groups.setdefault(a, []).append(n)
short = {"sig_not_dec": "D", "sig_forall_dec": "D", "functional_extensionality_dep": "F", "classic": "C"}
lines = ["| axioms | theorems |", "|---|---|"]
def idkey(n):
    m = re.match(r"C(\d+)_", n)
    return (int(m.group(1)), n)
for a, ns in sorted(groups.items(), key=lambda x: len(x[0])):
    lines.append("| %s | %s |" % (", ".join("`%s`" % x for x in a) or "none (closed under the global context)", ", ".join("`%s`" % n for n in sorted(ns, key=idkey))))
p = os.path.join(root, "DESIGN.md")
s = open(p).read()
b, e = "<!-- BEGIN ASSUMPTIONS -->", "<!-- END ASSUMPTIONS -->"
if b in s:
    s = s[:s.index(b) + len(b)] + "\n" + "\n".join(lines) + "\n" + s[s.index(e):]
    open(p, "w").write(s)
else:
    print("\n".join(lines))
print({k: len(v) for k, v in groups.items()})
