#!/usr/bin/env python3
"""Regenerate MANIFEST.json from the theorem files and tools/status.json."""
import json, re, glob, os
root = os.path.dirname(os.path.dirname(os.path.abspath(__file__)))
status = json.load(open(os.path.join(root, "tools/status.json")))
ths = {}
for f in sorted(glob.glob(os.path.join(root, "rocq/theories/*T.v"))):
    for m in re.finditer(r"^Theorem (C\d\d)_(\w+)", open(f).read(), re.M):
        ths.setdefault(m.group(1), []).append(m.group(1) + "_" + m.group(2))
claims = []
for line in open(os.path.join(root, "properties.jsonl")):
    p = json.loads(line)["id"]
    s = status.get(p, {})
    t = ths.get(p, [])
    if not t and not s:
        continue
    claims.append({"property": p,
                   "status": s.get("status", "proved" if t else "not_applicable"),
                   "theorems": t, "note": s.get("note", "")})
    if t and p not in status:
        print("no status for", p)
json.dump({"claims": claims}, open(os.path.join(root, "MANIFEST.json"), "w"), indent=1)
print(len(claims), "claims,", sum(len(c["theorems"]) for c in claims), "theorems")

# The section of DESIGN.md on each property.
titles = {}
for line in open(os.path.join(root, "properties.jsonl")):
    p = json.loads(line)
    titles[p["id"]] = p["title"]
out = []
for c in claims:
    p = c["property"]
    out.append("* **%s %s** (%s). Plan: %s" % (p, titles[p], c["status"], status[p].get("plan", "")))
    if c["note"]:
        out.append("  Result: " + c["note"])
    out.append("  Theorems: " + ", ".join("`%s`" % t for t in c["theorems"]) + ".")
d = open(os.path.join(root, "DESIGN.md")).read()
a, b = "<!-- properties -->\n", "<!-- end of properties -->\n"
i, j = d.index(a) + len(a), d.index(b)
open(os.path.join(root, "DESIGN.md"), "w").write(d[:i] + "\n".join(out) + "\n" + d[j:])
