#!/usr/bin/env python3
"""Generates properties.jsonl and MANIFEST.json from one table, so the two never disagree.
Run from anywhere: python3 /verif/tools/props.py"""
import json, os
P = []
def prop(id, title, statement, quantifier, why, anchors, status="planned", theorems=(), note=""):
    P.append(dict(id=id, title=title, statement=statement, quantifier=quantifier, why=why,
                  anchors=list(anchors), status=status, theorems=list(theorems), note=note))

exec(open(os.path.join(os.path.dirname(__file__), "props_data.py")).read())

import re, glob
root = os.path.dirname(os.path.dirname(os.path.abspath(__file__)))
found = {}
for f in sorted(glob.glob(os.path.join(root, "rocq/theories/*.v"))):
    for m in re.finditer(r"^Theorem (C\d+)(_\w+)", open(f).read(), re.M):
        found.setdefault(m.group(1), []).append(m.group(1) + m.group(2))
for p in P:
    th = found.get(p["id"], [])
    if th:
        p["theorems"] = th
        if p["status"] == "planned":
            p["status"] = "partial" if any(t.endswith("_partial") for t in th) else "proved"
for k in found:
    assert any(p["id"] == k for p in P), "theorem for unknown property " + k
ids = [p["id"] for p in P]
assert len(ids) == len(set(ids)), "duplicate ids"
with open(os.path.join(root, "properties.jsonl"), "w") as f:
    for p in P:
        f.write(json.dumps(dict(id=p["id"], title=p["title"], statement=p["statement"], quantifier=p["quantifier"],
                                why_tests_cant=p["why"], anchors=p["anchors"])) + "\n")
with open(os.path.join(root, "MANIFEST.json"), "w") as f:
    json.dump({"claims": [dict(property=p["id"], status=p["status"], theorems=p["theorems"], note=p["note"])
                          for p in P if p["status"] != "planned"]}, f, indent=1)
    f.write("\n")
print(len(P), "properties;", sum(p["status"] != "planned" for p in P), "claimed")
