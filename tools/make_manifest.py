#!/usr/bin/env python3
"""Regenerate MANIFEST.json from the Props_*.v files and the notes below."""
import json, re, glob, os
root = os.path.dirname(os.path.dirname(os.path.abspath(__file__)))
props = [json.loads(l) for l in open(root + "/properties.jsonl")]
thms = {}
for f in sorted(glob.glob(root + "/rocq/theories/Props_*.v")):
    for m in re.finditer(r"^(?:Theorem|Lemma)\s+((C\d+)_\w+)", open(f).read(), re.M):
        thms.setdefault(m.group(2), []).append(m.group(1))
exec(open(root + "/tools/notes.py").read())   # NOTES: id -> (status, note)
claims = []
for p in props:
    i = p["id"]
    t = thms.get(i, [])
    if i in NOTES:
        st, note = NOTES[i]
    else:
        st, note = "partial", "not modelled yet"
    if not t:
        st, note = "partial", "no theorem yet: " + note
    claims.append({"property": i, "status": st, "theorems": t, "note": note})
json.dump({"claims": claims}, open(root + "/MANIFEST.json", "w"), indent=1)
print({s: sum(c["status"] == s for c in claims) for s in ("proved", "partial", "not_applicable")},
      "without theorem:", [c["property"] for c in claims if not c["theorems"]])
