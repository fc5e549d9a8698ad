#!/usr/bin/env python3
"""Regenerate MANIFEST.json from the theorem names in rocq/theories/Prop*.v and tools/notes.json."""
import glob, json, os, re
root = os.path.dirname(os.path.dirname(os.path.abspath(__file__)))
thms = {}
for f in sorted(glob.glob(root + "/rocq/theories/Prop*.v")):
    for m in re.finditer(r"^Theorem (C\d\d\d?)(_\w+)", open(f).read(), re.M):
        thms.setdefault(m.group(1), []).append(m.group(1) + m.group(2))
notes = json.load(open(root + "/tools/notes.json"))
claims = []
for line in open(root + "/properties.jsonl"):
    p = json.loads(line)["id"]
    n = notes.get(p, {})
    t = thms.get(p, [])
    status = n.get("status", "proved" if t else "partial")
    claims.append({"property": p, "status": status, "theorems": t, "note": n.get("note", "" if t else "not yet modelled")})
with open(root + "/MANIFEST.json", "w") as out:
    out.write('{"claims": [\n' + ",\n".join(json.dumps(c) for c in claims) + "\n]}\n")
print(sum(1 for c in claims if c["theorems"]), "of", len(claims))
