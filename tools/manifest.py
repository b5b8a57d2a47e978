#!/usr/bin/env python3
"""Regenerate MANIFEST.json: theorem names come from rocq/theories/P_*.v, statuses and notes from tools/notes.json."""
import glob, json, os, re
here = os.path.dirname(os.path.abspath(__file__))
root = os.path.dirname(here)
props = [json.loads(l) for l in open(os.path.join(root, "properties.jsonl")) if l.strip()]
notes = json.load(open(os.path.join(here, "notes.json")))
listed = set(l.strip() for l in open(os.path.join(root, "rocq/_CoqProject")))
thms = {}
for f in sorted(glob.glob(os.path.join(root, "rocq/theories/P_*.v"))):
    if "theories/" + os.path.basename(f) not in listed:
        continue
    for m in re.finditer(r"^Theorem\s+(C\d+)(_\S*)", open(f).read(), re.M):
        thms.setdefault(m.group(1), []).append(m.group(1) + m.group(2).rstrip(":"))
claims = []
for p in props:
    i = p["id"]
    n = notes.get(i, {})
    t = thms.get(i, [])
    st = n.get("status", "proved" if t else "partial")
    note = n.get("note", "" if t else "Not modelled yet.")
    claims.append({"property": i, "status": st, "theorems": t, "note": note})
json.dump({"claims": claims}, open(os.path.join(root, "MANIFEST.json"), "w"), indent=1)
print({s: sum(1 for c in claims if c["status"] == s) for s in ("proved", "partial", "not_applicable")},
      "without theorems:", [c["property"] for c in claims if not c["theorems"]])
