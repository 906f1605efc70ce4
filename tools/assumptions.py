#!/usr/bin/env python3
"""Print Assumptions of every property theorem, grouped, as a markdown table.

usage: assumptions.py ROCQ_DIR   (a built copy of rocq/)
"""
import collections, re, subprocess, sys, tempfile, os
root = sys.argv[1]
names = [l.strip()[9:-2] for l in open(root + "/_CoqProject") if l.startswith("theories/Prop_")]
ths = []
for n in names:
    src = open(f"{root}/theories/{n}.v").read()
    ths += [(n, t) for t in re.findall(r"^Theorem (C\d+_\w+)", src, re.M)]
with tempfile.TemporaryDirectory() as d:
    with open(d + "/zz.v", "w") as f:
        for n in names: f.write(f"From Verif Require {n}.\n")
        for n, t in ths: f.write(f'Goal True. idtac "@@ {n}.{t}". Abort.\nPrint Assumptions {n}.{t}.\n')
    out = subprocess.run(["coqc", "-Q", root + "/theories", "Verif", d + "/zz.v"], stdout=subprocess.PIPE, stderr=subprocess.STDOUT).stdout.decode()
SHORT = {"ClassicalDedekindReals.sig_forall_dec": "S", "ClassicalDedekindReals.sig_not_dec": "N", "FunctionalExtensionality.functional_extensionality_dep": "F", "Classical_Prop.classic": "C"}
groups = collections.defaultdict(list)
for blk in out.split("@@ ")[1:]:
    head, _, body = blk.partition("\n")
    ax = re.findall(r"^([A-Za-z_][\w'.]*)\s*(?=:|\n\s+:)", body, re.M)
    ax = [a for a in ax if a not in ("Axioms", "Closed")]
    key = tuple(sorted({SHORT.get(a, a) for a in ax}))
    groups[key].append(head.strip().split(".")[1])
def fmt(key):
    if not key: return "none (closed under the global context)"
    prim = [k for k in key if len(k) > 1]
    s = ", ".join(k for k in "SNFC" if k in key)
    if prim: s += (", " if s else "") + "primitives: " + ", ".join("`%s`" % p for p in prim)
    return s
print(f"{len(ths)} property theorems.")
print()
for k in sorted(groups, key=lambda k: (len(k), k)):
    print(f"* **{fmt(k)}** ({len(groups[k])}): " + ", ".join(f"`{t}`" for t in sorted(groups[k])))
