#!/usr/bin/env python3
"""Regenerate MANIFEST.json from the theorems named Cnn_... in rocq/theories/Prop_*.v.

A property counts as proved only when none of its theorems is a `_partial` or a
`_refuted` one; tools/notes.json says what is missing for the others."""
import glob, json, os, re
root = os.path.dirname(os.path.dirname(os.path.abspath(__file__)))
props = [json.loads(l)["id"] for l in open(os.path.join(root, "properties.jsonl")) if l.strip()]
notes = json.load(open(os.path.join(root, "tools", "notes.json")))
found = {}
for f in sorted(glob.glob(os.path.join(root, "rocq/theories/Prop_*.v"))):
    for m in re.finditer(r"^Theorem (C\d\d+)(_\w+)", open(f).read(), re.M):
        found.setdefault(m.group(1), []).append(m.group(1) + m.group(2))
claims = []
for p in props:
    th = found.get(p, [])
    if not th:
        continue
    weak = [t for t in th if t.endswith("_partial") or t.endswith("_refuted")]
    if weak and p not in notes:
        print("no note for", p, weak)
    claims.append({"property": p, "status": "partial" if weak else "proved", "theorems": th, "note": notes.get(p, "")})
json.dump({"claims": claims}, open(os.path.join(root, "MANIFEST.json"), "w"), indent=1)
print(len(claims), "claims;", sum(c["status"] == "proved" for c in claims), "proved;", "missing:", [p for p in props if p not in found])

titles = {json.loads(l)["id"]: json.loads(l)["title"] for l in open(os.path.join(root, "properties.jsonl")) if l.strip()}
design = os.path.join(root, "DESIGN.md")
text = open(design).read()
head = text[: text.index("<!-- results -->")]
rows = ["| id | title | status | theorems | note |", "|---|---|---|---|---|"]
for c in claims:
    rows.append("| %s | %s | %s | %d | %s |" % (c["property"], titles[c["property"]], c["status"], len(c["theorems"]), c["note"].replace("|", "\\|")))
open(design, "w").write(head + "<!-- results -->\n" + "\n".join(rows) + "\n")
