#!/usr/bin/env python3
"""Generate rocq/theories/Properties<X>.v from rocq/theories/Facts<X>.v, and
MANIFEST.json from tools/manifest.json.

Every `Theorem cNN_name : statement.` of a Facts file becomes
`Theorem CNN_name : statement. Proof. exact cNN_name. Qed. Print Assumptions`.
Definitions, examples and `Local Open Scope` lines are not copied."""
import json, os, re, sys
ROOT = os.path.join(os.path.dirname(os.path.abspath(__file__)), "..")
TH = os.path.join(ROOT, "rocq", "theories")
names = {}
for f in sorted(os.listdir(TH)):
    m = re.match(r"Facts(\w+)\.v$", f)
    if not m:
        continue
    src = open(os.path.join(TH, f)).read()
    head = re.match(r"\(\*\*.*?\*\)\n((?:From .*?\.\n|Import .*?\.\n|Local Open Scope .*?\.\n|Require .*?\.\n)+)", src, re.S)
    imports = head.group(1).rstrip("\n")
    # a From ... Import list may span lines; it ends with ".\n"
    imports = re.sub(r"(From Verif Require Import [^.]*)\.", lambda k: k.group(1) + " Facts" + m.group(1) + ".", imports, 1)
    out = ["(** Generated by tools/gen_props.py from Facts%s.v: the property theorems. *)" % m.group(1), imports, ""]
    for t in re.finditer(r"((?:\(\*\*(?:(?!\*\)).)*\*\)\n)?)(Theorem|Example) (c\d\d_\w+) :(.*?)\.\nProof\.", src, re.S):
        doc, kind, name, stmt = t.groups()
        if doc.startswith("(** **"):
            doc = ""
        up = "C" + name[1:]
        if kind == "Example":
            out.append("%sExample %s :%s.\nProof. exact %s. Qed.\n" % (doc, up, stmt, name))
            continue
        names.setdefault(up[:3], []).append(up)
        out.append("%sTheorem %s :%s.\nProof. exact %s. Qed.\nPrint Assumptions %s.\n" % (doc, up, stmt, name, up))
    open(os.path.join(TH, "Properties%s.v" % m.group(1)), "w").write("\n".join(out))
man = json.load(open(os.path.join(ROOT, "tools", "manifest.json")))
props = [json.loads(l)["id"] for l in open(os.path.join(ROOT, "properties.jsonl"))]
claims = []
for p in props:
    e = man.get(p, {})
    th = names.get(p, [])
    status = e.get("status", "proved" if th else "partial")
    note = e.get("note", "" if th else "Not proved yet.")
    claims.append({"property": p, "status": status, "theorems": th, "note": note})
json.dump({"claims": claims}, open(os.path.join(ROOT, "MANIFEST.json"), "w"), indent=1)
for c in claims:
    if not c["theorems"]:
        print("no theorem:", c["property"], c["status"])
print(sum(len(c["theorems"]) for c in claims), "theorems")
